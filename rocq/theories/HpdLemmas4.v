(** Proofs about the search for a level. *)

From Coq Require Import ZArith String List Bool Arith Lia Reals Lra Psatz.
From Verif Require Import Exn PieModel Instances MinModel MinSpec MinLemmas HpdModel HpdSpec RefLemmas HpdLemmas HpdLemmas2 HpdLemmas3.
Import ListNotations.
Open Scope R_scope.

(** ** Calls leave the grid alone *)
Lemma grid1_target : forall t h, grid1 h -> grid1 (set_target t h).
Proof. intros t [] []. split; assumption. Qed.
Lemma grid1_level : forall p r h, grid1 h -> grid1 (add_level p r h).
Proof. intros p r [] []. split; assumption. Qed.
Lemma grid1_bounds : forall b h, grid1 h -> grid1 (add_bounds b h).
Proof. intros b [] []. split; assumption. Qed.
Lemma grid2_target : forall t h, grid2 h -> grid2 (set_target2 t h).
Proof. intros t [] []. split; assumption. Qed.
Lemma grid2_level : forall p r h, grid2 h -> grid2 (add_level2 p r h).
Proof. intros p r [] []. split; assumption. Qed.

Section Calls.
Variable cdf ppf : R -> R -> R.
Variable brentq : (R -> R) -> R -> R -> R -> res R.
Notation crit1 := (critlevel1 cdf ppf brentq).
Notation crit2 := (critlevel2 cdf ppf brentq).

Definition bounds_out (h : hpd1) (r : R) : xout := xvalues (h_xvals h) (map (fun v => v - h_max h) (h_logpdf h)) r 10.

Lemma crit1_unfold : forall p snsig tol h,
  crit1 p snsig tol h =
  match guess cdf ppf p snsig with
  | Err e => (h, Err e)
  | Ok (lr, q) =>
      match search brentq (diff1 h q) (Reqb (h_snorm h) 0) lr tol with
      | Err e => (set_target q h, Err e)
      | Ok r =>
          let h' := add_level q r (set_target q h) in
          if x_ok (bounds_out h r)
          then (add_bounds (xvals_of 10 (bounds_out h r)) h', Ok (r, xvals_of 10 (bounds_out h r)))
          else (h', Err RuntimeError)
      end
  end.
Proof.
  intros p snsig tol h. unfold critlevel1, bind, lift, modify, get, ret, raise, bounds_out.
  destruct (guess cdf ppf p snsig) as [[lr q]|e]; [|reflexivity]. cbn [fst snd].
  change (diff1 (set_target q h) q) with (diff1 h q). change (h_snorm (set_target q h)) with (h_snorm h).
  destruct (search brentq (diff1 h q) (Reqb (h_snorm h) 0) lr tol) as [r|e]; [|reflexivity].
  change (h_xvals (set_target q h)) with (h_xvals h). change (h_max (set_target q h)) with (h_max h).
  change (h_logpdf (set_target q h)) with (h_logpdf h). cbv zeta.
  destruct (x_ok (xvalues (h_xvals h) (map (fun v => v - h_max h) (h_logpdf h)) r 10)); reflexivity.
Qed.
Lemma crit2_unfold : forall p snsig tol h,
  crit2 p snsig tol h =
  match guess cdf ppf p snsig with
  | Err e => (h, Err e)
  | Ok (lr, q) =>
      match search brentq (diff2 h q) (Reqb (d_norm h) 0) lr tol with
      | Err e => (set_target2 q h, Err e)
      | Ok r => (add_level2 q r (set_target2 q h), Ok r)
      end
  end.
Proof.
  intros p snsig tol h. unfold critlevel2, bind, lift, modify, get, ret.
  destruct (guess cdf ppf p snsig) as [[lr q]|e]; [|reflexivity]. cbn [fst snd].
  change (diff2 (set_target2 q h) q) with (diff2 h q). change (d_norm (set_target2 q h)) with (d_norm h).
  destruct (search brentq (diff2 h q) (Reqb (d_norm h) 0) lr tol) as [r|e]; reflexivity.
Qed.

Lemma object1_grid : forall h, object1 cdf ppf brentq h -> grid1 h.
Proof.
  intros h H. induction H as [h H|h p snsig tol H IH]; [apply made1_grid; exact H|].
  rewrite crit1_unfold. destruct (guess cdf ppf p snsig) as [[lr q]|e]; [|exact IH].
  destruct (search _ _ _ _ _) as [r|e]; cbv zeta.
  - destruct (x_ok _); cbn [fst]; [apply grid1_bounds|]; apply grid1_level, grid1_target; exact IH.
  - apply grid1_target; exact IH.
Qed.
Lemma object2_grid : forall h, object2 cdf ppf brentq h -> grid2 h.
Proof.
  intros h H. induction H as [h H|h p snsig tol H IH]; [apply made2_grid; exact H|].
  rewrite crit2_unfold. destruct (guess cdf ppf p snsig) as [[lr q]|e]; [|exact IH].
  destruct (search _ _ _ _ _) as [r|e]; cbn [fst].
  - apply grid2_level, grid2_target; exact IH.
  - apply grid2_target; exact IH.
Qed.

(** ** The first guess *)
Lemma guess_ok : forall p snsig lr q, guess cdf ppf p snsig = Ok (lr, q) -> asked cdf p snsig q /\ starts_at ppf p snsig lr.
Proof.
  intros p snsig lr q E. unfold guess, sig2ratio, prob2ratio, sig2prob, prob2sig in E. cbv zeta in E. rewrite ?ln_exp in E.
  destruct snsig as [s|].
  - cbn [truthy] in E. destruct (Reqb s 0) eqn:S0; cbn [negb] in E; rb.
    + subst s. destruct p as [p|]; [|discriminate]. rewrite ln_exp in E. injection E as <- <-. split.
      * left. split; [reflexivity|right; reflexivity].
      * left. exists p. split; [reflexivity|]. split; [right; reflexivity|]. ring.
    + assert (P : p = None \/ p = Some 0).
      { destruct p as [p|]; [|left; reflexivity]. cbn [truthy] in E. destruct (Reqb p 0) eqn:P0; [|discriminate]. rb. subst. right. reflexivity. }
      assert (T : truthy p = false).
      { destruct P as [->| ->]; [reflexivity|]. cbn. rewrite (proj2 (Reqb_spec 0 0) eq_refl). reflexivity. }
      rewrite T, ln_exp in E. injection E as <- <-. split.
      * right. exists s. repeat (split; [first [reflexivity|assumption]|]). reflexivity.
      * right. exists s. split; [reflexivity|]. split; [assumption|]. split; [assumption|]. ring.
  - destruct p as [p|]; [|discriminate]. rewrite ln_exp in E. injection E as <- <-. split.
    + left. split; [reflexivity|left; reflexivity].
    + left. exists p. split; [reflexivity|]. split; [left; reflexivity|]. ring.
Qed.
Lemma guess_of : forall p snsig lr q, asked cdf p snsig q -> starts_at ppf p snsig lr -> guess cdf ppf p snsig = Ok (lr, q).
Proof.
  intros p snsig lr q A S.
  assert (E : exists lr' q', guess cdf ppf p snsig = Ok (lr', q')).
  { unfold guess. destruct A as [[-> [-> | ->]]|[s [-> [N [P _]]]]].
    - eexists; eexists; reflexivity.
    - cbn [truthy]. rewrite (proj2 (Reqb_spec 0 0) eq_refl). eexists; eexists; reflexivity.
    - cbn [truthy]. rewrite (proj2 (Reqb_false s 0) N). cbn [negb].
      replace (truthy p) with false; [eexists; eexists; reflexivity|].
      destruct P as [->| ->]; [reflexivity|]. cbn. rewrite (proj2 (Reqb_spec 0 0) eq_refl). reflexivity. }
  destruct E as [lr' [q' E]]. rewrite E. destruct (guess_ok _ _ _ _ E) as [A' S'].
  assert (q' = q).
  { destruct A as [[-> B]|[s [-> [N [P ->]]]]]; destruct A' as [[E' B']|[s' [E1 [N' [P' ->]]]]].
    - injection E' as ->. reflexivity.
    - destruct B as [->| ->]; [discriminate|]. injection E1 as <-. exfalso. apply N'. reflexivity.
    - destruct B' as [K|K]; [discriminate|]. injection K as ->. exfalso. apply N. reflexivity.
    - injection E1 as ->. reflexivity. }
  assert (lr' = lr).
  { destruct S as [[a [-> [B ->]]]|[s [-> [N [P ->]]]]]; destruct S' as [[a' [E1 [B' ->]]]|[s' [E1 [N' [P' ->]]]]].
    - injection E1 as ->. reflexivity.
    - destruct B as [->| ->]; [discriminate|]. injection E1 as <-. exfalso. apply N'. reflexivity.
    - destruct B' as [K|K]; [discriminate|]. injection K as ->. exfalso. apply N. reflexivity.
    - injection E1 as ->. reflexivity. }
  congruence.
Qed.

(** ** What the search returns *)
Lemma search_ok : forall f lr tol r, root_search brentq -> 0 < tol -> (forall x y, x <= y -> f y <= f x) ->
  search brentq f false lr tol = Ok r -> let e := tol + rtol * Rabs r in f (r + e) <= 0 <= f (r - e).
Proof.
  intros f lr tol r HB Ht HM E. unfold search in E.
  destruct (snd (zbracket f lr (lr - 1/10) None 50 (16/10) [])) as [[a b]|e0] eqn:EZ; [|discriminate].
  cbn [bindr fst snd] in E.
  pose proof (zbracket_exact f lr (lr - 1/10) None 50 (16/10) ltac:(lra) (or_introl eq_refl)) as Z. rewrite EZ in Z.
  destruct Z as [k [_ [_ [Ho _]]]]. unfold opposite in Ho. cbn [fst snd] in Ho.
  pose proof (HB f a b tol Ht Ho) as B. rewrite E in B. destruct B as [v [_ [_ [Hv Hs]]]].
  cbv zeta. set (e := tol + rtol * Rabs r) in *.
  assert (He : 0 <= e). { pose proof (Rabs_pos (v - r)). lra. }
  pose proof (HM r (r + e) ltac:(lra)). pose proof (HM (r - e) r ltac:(lra)).
  assert (- e <= v - r <= e). { unfold Rabs in Hv. destruct (Rcase_abs (v - r)); lra. }
  pose proof (HM v (r + e) ltac:(lra)). pose proof (HM (r - e) v ltac:(lra)).
  destruct (Rtotal_order (f r) 0) as [N|[N|N]].
  - assert (0 <= f v) by nra. lra.
  - lra.
  - assert (f v <= 0) by nra. lra.
Qed.

(** ** When it finds a bracket *)
Lemma big : 10 ^ 15 <= 16/10 * (1/10 * (26/10) ^ 47).
Proof.
  assert (E : (26/10) ^ 47 = 26 ^ 47 / 10 ^ 47).
  { unfold Rdiv. rewrite Rpow_mult_distr, pow_inv by lra. reflexivity. }
  rewrite E. rewrite !pow_IZR. 
  assert (0 < IZR (10 ^ Z.of_nat 47)) by (apply IZR_lt; vm_compute; reflexivity).
  apply Rmult_le_reg_r with (100 * IZR (10 ^ Z.of_nat 47)); [lra|].
  replace (16/10 * (1/10 * (IZR (26 ^ Z.of_nat 47) / IZR (10 ^ Z.of_nat 47))) * (100 * IZR (10 ^ Z.of_nat 47)))
    with (16 * IZR (26 ^ Z.of_nat 47)) by (field; lra).
  rewrite <- !mult_IZR. apply IZR_le. vm_compute. discriminate.
Qed.

Lemma bracket_found : forall f lr p, 0 < p < 1 -> (forall x y, x <= y -> f y <= f x) ->
  (forall x, x <= lr - 10 ^ 15 -> f x = 1 - p) -> (forall x, lr + 10 ^ 15 <= x -> f x = - p) ->
  (forall x, lr <= x -> f x < 1 - p) -> exists a b, snd (zbracket f lr (lr - 1/10) None 50 (16/10) []) = Ok (a, b) /\ f a * f b < 0.
Proof.
  intros f lr p Hp HM Hlo Hhi Hlt.
  pose proof (zbracket_exact f lr (lr - 1/10) None 50 (16/10) ltac:(lra) (or_introl eq_refl)) as Z.
  destruct (snd (zbracket f lr (lr - 1/10) None 50 (16/10) [])) as [[a b]|e0].
  { exists a, b. split; [reflexivity|]. destruct Z as [k [_ [_ [Ho _]]]]. exact Ho. }
  exfalso. destruct Z as [_ Z].
  assert (I : forall k, let ab := widened f (16/10) k (lr, lr - 1/10) in
     lr <= fst ab /\ snd ab <= lr - 1/10 /\ fst ab - snd ab = 1/10 * (26/10) ^ k).
  { intros k. cbv zeta. induction k as [|k IH]; [cbn [widened fst snd pow]; lra|].
    cbn [widened pow]. destruct (widened f (16/10) k (lr, lr - 1/10)) as [a b]. cbn [fst snd] in *.
    destruct (Rlt_dec (Rabs (f a)) (Rabs (f b))); cbn [fst snd]; lra. }
  (* one step: if the interval has no change of sign, which end moves *)
  assert (M : forall k, (k < 50)%nat -> let ab := widened f (16/10) k (lr, lr - 1/10) in
     let ab' := widened f (16/10) (S k) (lr, lr - 1/10) in
     (fst ab' = fst ab + 16/10 * (fst ab - snd ab) /\ snd ab' = snd ab /\ fst ab < lr + 10 ^ 15) \/
     (fst ab' = fst ab /\ snd ab' = snd ab - 16/10 * (fst ab - snd ab) /\ lr - 10 ^ 15 < snd ab)).
  { intros k Hk. cbv zeta. specialize (Z k Hk). destruct (I k) as [I1 [I2 I3]]. cbn [widened].
    unfold opposite in Z. destruct (widened f (16/10) k (lr, lr - 1/10)) as [a b]. cbn [fst snd] in *.
    pose proof (HM b a ltac:(lra)) as Hab. pose proof (Hlt a I1) as Ha.
    destruct (Rlt_dec (Rabs (f a)) (Rabs (f b))) as [D|D]; cbn [fst snd].
    - left. split; [reflexivity|]. split; [reflexivity|].
      destruct (Rlt_le_dec a (lr + 10 ^ 15)) as [|C]; [assumption|exfalso].
      specialize (Hhi a C). unfold Rabs in D. destruct (Rcase_abs (f a)), (Rcase_abs (f b)); nra.
    - right. split; [reflexivity|]. split; [ring|].
      destruct (Rlt_le_dec (lr - 10 ^ 15) b) as [|C]; [assumption|exfalso].
      specialize (Hlo b C). apply D. unfold Rabs. destruct (Rcase_abs (f a)), (Rcase_abs (f b)); nra. }
  pose proof big as B.
  destruct (I 47%nat) as [A1 [A2 A3]]. destruct (I 48%nat) as [B1 [B2 B3]]. 
  assert (W : 10 ^ 15 <= 16/10 * (1/10 * (26/10) ^ 48)).
  { replace ((26/10) ^ 48) with (26/10 * (26/10) ^ 47) by reflexivity. pose proof (pow_lt (26/10) 47 ltac:(lra)). lra. }
  assert (C : 10 ^ 15 <= 16/10 * (1/10 * (26/10) ^ 49)).
  { replace ((26/10) ^ 49) with (26/10 * (26/10) ^ 48) by reflexivity. pose proof (pow_lt (26/10) 48 ltac:(lra)). lra. }
  clear HM Hlo Hhi Hlt I Z.
  pose proof (M 47%nat ltac:(lia)) as M47. pose proof (M 48%nat ltac:(lia)) as M48. pose proof (M 49%nat ltac:(lia)) as M49. clear M.
  cbv zeta in *.
  set (w47 := widened f (16/10) 47 (lr, lr - 1/10)) in *. set (w48 := widened f (16/10) 48 (lr, lr - 1/10)) in *.
  set (w49 := widened f (16/10) 49 (lr, lr - 1/10)) in *. set (w50 := widened f (16/10) 50 (lr, lr - 1/10)) in *.
  clearbody w47 w48 w49 w50.
  set (u := 10 ^ 15) in *. set (z := (26/10) ^ 47) in *. set (y := (26/10) ^ 48) in *. clearbody u z y.
  rewrite A3 in M47. rewrite B3 in M48.
  destruct M47 as [M47|M47]; destruct M48 as [M48|M48]; destruct M49 as [M49|M49]; lra.
Qed.

Lemma bracket_fails : forall f lr p, 0 < p < 1 -> (forall x, x <= lr -> f x = 1 - p) ->
  snd (zbracket f lr (lr - 1/10) None 50 (16/10) []) = Err RuntimeError.
Proof.
  intros f lr p Hp Hlo.
  pose proof (zbracket_exact f lr (lr - 1/10) None 50 (16/10) ltac:(lra) (or_introl eq_refl)) as Z.
  destruct (snd (zbracket f lr (lr - 1/10) None 50 (16/10) [])) as [[a b]|e0]; [|destruct Z as [-> _]; reflexivity].
  exfalso. destruct Z as [k [_ [E [O _]]]].
  assert (I : forall k, let ab := widened f (16/10) k (lr, lr - 1/10) in fst ab <= lr /\ snd ab < fst ab).
  { intros j. cbv zeta. induction j as [|j IH]; [cbn [widened fst snd]; lra|].
    cbn [widened]. destruct (widened f (16/10) j (lr, lr - 1/10)) as [u v]. cbn [fst snd] in *.
    rewrite (Hlo u), (Hlo v) by lra. destruct (Rlt_dec _ _) as [D|D]; cbn [fst snd]; lra. }
  specialize (I k). rewrite <- E in I. cbn [fst snd] in I. unfold opposite in O. cbn [fst snd] in O.
  rewrite (Hlo a), (Hlo b) in O by lra. nra.
Qed.
End Calls.

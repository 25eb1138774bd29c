(** The rules as the theorems describe them *)

From Coq Require Import List Bool Arith ZArith Reals Permutation Lra Lia FunctionalExtensionality.
From Verif Require Import Exn Instances McModel BaModel BaLemmas ObsModel ObsLemmas2 CountSpec McLemmas5 AdModel AdSpec AdLemmas AdLemmas2 AdLemmas3 CubModel SySpec SyModel SyLemmas2 SyLemmas6 SyLemmas10 SyLemmas12.
From Verif Require Import DcTables DcModel DcSpec DcLemmas DcLemmas2 DcLemmas3 DcLemmas4 DcLemmas5 DcLemmas6 DcLemmas7 DcLemmas8 DcLemmas9 DcLemmas10 DcLemmas11 DcNear DcFixed DcFixed2.
Import ListNotations.
Open Scope R_scope.

Lemma volume_first : forall n h v d, length h = n -> (1 <= n)%nat -> drl_volume n h = Ok (v, d) -> first_greatest (fun i => comp i h) n d.
Proof.
  intros n h v d L n1 H. unfold drl_volume in H.
  destruct (iter_up _ (fun i st => (1 <= snd st <= n)%nat /\ ((i = 1%nat /\ snd st = 1%nat) \/ ((snd st < i)%nat /\ (forall k, (1 <= k < i)%nat -> comp k h <= comp (snd st) h) /\ forall k, (1 <= k < snd st)%nat -> comp k h < comp (snd st) h))) n 1 (fun i st =>
    let! h0 := rd1 h i in
    let! d := rd1 h (snd st) in
    Ok (fst st * h0, if Rltb d h0 then i else snd st)) (1, 1%nat)) as ([v' d'] & E & D & I).
  - cbn. split; [lia|]. left. split; reflexivity.
  - intros i [w q] Hi [D I]. cbn [fst snd] in *. rewrite (rd1_nth _ h i 0) by lia. rewrite (rd1_nth _ h q 0) by lia. eexists. split; [reflexivity|]. cbn [fst snd]. fold (comp i h) (comp q h).
    destruct I as [[-> ->]|(Q & M & F)].
    + assert (E : Rltb (comp 1 h) (comp 1 h) = false) by (destruct (Rltb (comp 1 h) (comp 1 h)) eqn:E; [apply Rltb_spec in E; lra|reflexivity]). rewrite E. split; [lia|]. right. split; [lia|]. split; [intros k Hk; replace k with 1%nat by lia; lra|intros k Hk; lia].
    + destruct (Rltb (comp q h) (comp i h)) eqn:E.
      * apply Rltb_spec in E. split; [lia|]. right. split; [lia|]. split; intros k Hk; (destruct (Nat.eq_dec k i) as [->|N]; [lra || lia|]); assert (X := M k ltac:(lia)); lra.
      * apply Rltb_false in E. apply Rnot_lt_le in E. split; [lia|]. right. split; [lia|]. split; intros k Hk; [|apply F; lia]. destruct (Nat.eq_dec k i) as [->|N]; [lra|]. apply M; lia.
  - rewrite E in H. injection H as <- <-. cbn [snd] in *. destruct I as [[? _]|(Q & M & F)]; [lia|]. split; [lia|]. split; [intros k Hk; apply M; lia|exact F].
Qed.

Lemma difsum_is : forall (v x : vec) l a, fold_left (fun s j => if Reqb (v j + x j / 4) (v j) then s else s + Rabs (x j)) l a = a + fold_right Rplus 0 (map (fun j => Rabs (x j)) l).
Proof.
  intros v x l. induction l as [|j l IH]; intros a; cbn [fold_left map fold_right]; [ring|]. rewrite IH. destruct (Reqb (v j + x j / 4) (v j)) eqn:E; [|ring]. apply Reqb_spec in E. replace (x j) with 0 by lra. rewrite Rabs_R0. ring.
Qed.

Lemma axes_first : forall f n numfun t c h g2 g3 st st', length c = n -> length h = n -> x_difmax st = 0 ->
  drl_axes f n numfun t c h g2 g3 (f c) st = Ok st' ->
  ((exists i, (1 <= i <= n)%nat /\ 0 < fourths f numfun g2 g3 c h i) -> first_greatest (fourths f numfun g2 g3 c h) n (x_divaxn st')) /\
  ((forall i, (1 <= i <= n)%nat -> fourths f numfun g2 g3 c h i <= 0) -> x_divaxn st' = x_divaxn st).
Proof.
  intros f n numfun t c h g2 g3 st st' Lc Lh Z H. unfold drl_axes in H. set (F := fourths f numfun g2 g3 c h).
  match type of H with iter (seq 1 n) ?b st = _ => destruct (iter_up _ (fun i s =>
    (x_difmax s = 0 /\ x_divaxn s = x_divaxn st /\ forall k, (1 <= k < i)%nat -> F k <= 0) \/
    (0 < x_difmax s /\ (1 <= x_divaxn s < i)%nat /\ x_difmax s = F (x_divaxn s) /\ (forall k, (1 <= k < i)%nat -> F k <= F (x_divaxn s)) /\ forall k, (1 <= k < x_divaxn s)%nat -> F k < F (x_divaxn s))) n 1 b st) as (s' & E & I) end.
  - left. split; [exact Z|]. split; [reflexivity|]. intros k Hk. lia.
  - intros i s Hi I. rewrite (rd1_nth _ c i 0) by lia. rewrite (rd1_nth _ h i 0) by lia. fold (comp i c) (comp i h).
    rewrite (wr1_along c i (comp i c - comp i h * g2) (- g2 * comp i h)) by (lia || ring). rewrite (wr1_along c i (comp i c + comp i h * g2) (g2 * comp i h)) by (lia || ring).
    rewrite (wr1_along c i (comp i c - comp i h * g3) (- g3 * comp i h)) by (lia || ring). rewrite (wr1_along c i (comp i c + comp i h * g3) (g3 * comp i h)) by (lia || ring).
    eexists. split; [reflexivity|]. rewrite difsum_is. rewrite Rplus_0_l.
    match goal with |- context [Rltb (x_difmax s) ?x] => change x with (F i) end.
    destruct (Rltb (x_difmax s) (F i)) eqn:Q.
    + apply Rltb_spec in Q. right. cbn [x_difmax x_divaxn]. destruct I as [(A & B & C)|(A & B & C & D & G)].
      * split; [lra|]. split; [lia|]. split; [reflexivity|]. split; intros k Hk; (destruct (Nat.eq_dec k i) as [->|N]; [lra || lia|]); assert (X := C k ltac:(lia)); lra.
      * split; [lra|]. split; [lia|]. split; [reflexivity|]. split; intros k Hk; (destruct (Nat.eq_dec k i) as [->|N]; [lra || lia|]); assert (X := D k ltac:(lia)); lra.
    + apply Rltb_false in Q. apply Rnot_lt_le in Q. cbn [x_difmax x_divaxn]. destruct I as [(A & B & C)|(A & B & C & D & G)].
      * left. split; [exact A|]. split; [exact B|]. intros k Hk. destruct (Nat.eq_dec k i) as [->|N]; [lra|]. apply C; lia.
      * right. split; [exact A|]. split; [lia|]. split; [exact C|]. split; [|exact G]. intros k Hk. destruct (Nat.eq_dec k i) as [->|N]; [lra|]. apply D; lia.
  - rewrite E in H. injection H as <-. replace (1 + n)%nat with (S n) in I by lia. destruct I as [(A & B & C)|(A & B & C & D & G)].
    + split; [intros (i & Hi & P); specialize (C i ltac:(lia)); lra|]. intros _. exact B.
    + split; [intros _; split; [lia|]; split; [intros k Hk; apply D; lia|exact G]|]. intros N. specialize (N (x_divaxn s') ltac:(lia)). fold (F (x_divaxn s')) in N. lra.
Qed.

Lemma g23_range : 0 < sqrt lam1 < 1 /\ 0 < sqrt lam2 < 1 /\ sqrt lam1 <> sqrt lam2.
Proof.
  assert (A : 0 < lam1 < 1) by (rewrite lam1_is; lra). assert (B : 0 < lam2 < 1) by (rewrite lam2_is; lra). assert (C : lam2 < lam1) by (rewrite lam1_is, lam2_is; lra).
  assert (S : forall x, 0 < x < 1 -> 0 < sqrt x < 1) by (intros x Hx; split; [apply sqrt_lt_R0; lra|rewrite <- sqrt_1; apply sqrt_lt_1; lra]).
  split; [now apply S|]. split; [now apply S|]. assert (sqrt lam2 < sqrt lam1) by (apply sqrt_lt_1; lra). lra.
Qed.

Lemma g23 : forall n keyf, (2 <= n)%nat -> kok n keyf -> exists s s' r r', t_g (table_of n keyf) 2 = s :: r /\ t_g (table_of n keyf) 3 = s' :: r' /\ 0 < s < 1 /\ 0 < s' < 1 /\ s <> s'.
Proof.
  intros n keyf n2 K. destruct g23_range as (A & B & C).
  assert (Q : forall x y : Z, (0 < x < 10 ^ 16)%Z -> (0 < y < 10 ^ 16)%Z -> x <> y -> 0 < IZR x / 10 ^ 16 < 1 /\ 0 < IZR y / 10 ^ 16 < 1 /\ IZR x / 10 ^ 16 <> IZR y / 10 ^ 16).
  { assert (U : 0 < 10 ^ 16) by (apply pow_lt; lra). assert (W : forall x : Z, (0 < x < 10 ^ 16)%Z -> 0 < IZR x / 10 ^ 16 < 1).
    { intros x [H1 H2]. apply IZR_lt in H1, H2. replace (IZR (10 ^ 16)) with (10 ^ 16) in H2 by (rewrite (pow_IZR 10 16); reflexivity). split; [now apply Rdiv_lt_0_compat|]. apply (Rmult_lt_reg_r (10 ^ 16)); [exact U|]. unfold Rdiv. rewrite Rmult_assoc, Rinv_l by lra. lra. }
    intros x y Hx Hy N. split; [now apply W|]. split; [now apply W|]. intros E. apply N. apply eq_IZR. apply (Rmult_eq_reg_r (/ 10 ^ 16)); [exact E|]. apply Rinv_neq_0_compat. lra. }
  destruct K as [-> |[-> |[[-> ->]|[-> ->]]]]; unfold table_of; cbn [Z.eqb Pos.eqb].
  - exists (sqrt lam1), (sqrt lam2). unfold d09hre, t_g, g9. destruct (len_cases n n2) as [[_ ->]|[_ ->]]; eexists _, _; (split; [reflexivity|]; split; [reflexivity|]; tauto).
  - exists (sqrt lam2), (sqrt lam1). eexists _, _. split; [reflexivity|]. split; [reflexivity|]. split; [tauto|]. split; [tauto|congruence].
  - exists (absc dim2g 1), (absc dim2g 2). eexists _, _. split; [reflexivity|]. split; [reflexivity|]. apply Q; vm_compute; try split; congruence.
  - exists (absc dim3g 1), (absc dim3g 2). eexists _, _. split; [reflexivity|]. split; [reflexivity|]. apply Q; vm_compute; try split; congruence.
Qed.

Lemma corners : forall c h, length h = length c -> (forall x, In x h -> 0 <= x) ->
  length (lower_of c h) = length c /\ length (upper_of c h) = length c /\ centre_of (lower_of c h) (upper_of c h) = c /\ half_between (lower_of c h) (upper_of c h) = h /\ orientation (lower_of c h) (upper_of c h) = 1.
Proof.
  unfold lower_of, upper_of, centre_of, half_between. induction c as [|x c IH]; intros [|y h] L P; try discriminate; [repeat split|].
  destruct (IH h) as (A & B & C & D & E); [cbn in L; lia|intros z Hz; apply P; now right|]. assert (Y := P y (or_introl eq_refl)). cbn [combine map length fst snd orientation].
  rewrite A, B, C, D, E. repeat split.
  - f_equal. field.
  - f_equal. rewrite Rabs_right by lra. field.
  - destruct (Rlt_dec (x + y) (x - y)); lra.
Qed.

Lemma deg_is : forall n key, key_ok n key -> deg (rule_used n key) = rule_degree n key /\ ndeg (rule_used n key) = null_degree n key /\ vtol (rule_used n key) = value_tol n key /\ etol (rule_used n key) = error_tol n key.
Proof.
  intros n key H. apply used_ok in H. unfold deg, ndeg, vtol, etol, rule_degree, null_degree, value_tol, error_tol. destruct H as [-> |[-> |[[-> _]|[-> _]]]]; repeat split.
Qed.
Lemma volume_prod : forall a b, length b = length a -> volume a b = 2 ^ length a * prodl (half_between a b).
Proof.
  unfold volume, half_between. induction a as [|x a IH]; intros [|y b] L; try discriminate; [cbn; ring|]. cbn [combine map fold_right prodl length pow fst snd] in *. rewrite IH by lia. field.
Qed.
Lemma volume_is : forall a b n, (2 <= n)%nat -> length a = n -> length b = n -> volume a b = vol n (centre_of a b) (half_between a b).
Proof. intros a b n n2 La Lb. destruct (boxes_len a b ltac:(congruence)) as [L1 L2]. rewrite (vol_is n n2) by congruence. rewrite volume_prod by congruence. now rewrite La. Qed.
Lemma bigs_is : forall a b, length b = length a -> bigs (centre_of a b) (half_between a b) = map (fun q => Rmax (Rabs (fst q)) (Rabs (snd q))) (combine a b).
Proof.
  unfold bigs, centre_of, half_between. induction a as [|x a IH]; intros [|y b] L; try discriminate; [reflexivity|]. cbn [combine map fst snd length] in *. rewrite IH by lia. f_equal. unfold Rmax, Rabs. repeat destruct (Rcase_abs _); destruct (Rle_dec _ _); lra.
Qed.
Lemma reach_is : forall p a b, length b = length a -> reach p a b = size p (centre_of a b) (half_between a b).
Proof. intros p a b L. unfold reach, size. now rewrite bigs_is. Qed.
Lemma half_between_pos : forall a b x, In x (half_between a b) -> 0 <= x.
Proof. intros a b x H. unfold half_between in H. apply in_map_iff in H as (q & <- & _). assert (P := Rabs_pos (snd q - fst q)). lra. Qed.
Lemma orientation_1 : forall a b, Rabs (orientation a b) = 1.
Proof. induction a as [|x a IH]; intros [|y b]; cbn [orientation]; try apply Rabs_R1. rewrite Rabs_mult, IH. destruct (Rlt_dec y x); [rewrite Rabs_left by lra; ring|rewrite Rabs_R1; ring]. Qed.

Lemma good : forall f n numfun key, (2 <= n)%nat -> key_ok n key -> good_rule f n numfun key (ruled f n numfun (table_of n (rule_used n key))).
Proof.
  intros f n numfun key n2 KO. destruct (deg_is n key KO) as (D1 & D2 & D3 & D4). assert (K := used_ok n key KO). set (keyf := rule_used n key) in *. destruct (g23 n keyf n2 K) as (s & s' & r & r' & G2 & G3 & RG). exists s, s'.
  split; [tauto|]. split; [tauto|]. split; [tauto|].
  intros c h Lc Lh P. destruct (rule_of f n numfun keyf n2 K c h Lc Lh) as (d & Q & D). exists (V n keyf f c h), (E n keyf f c h), d.
  assert (SW : forall j p, (forall x, in_box c h x -> f x j = poly p x) -> exists f2, (forall x, length x = n -> f2 x j = poly p x) /\ V n keyf f c h = V n keyf f2 c h /\ E n keyf f c h = E n keyf f2 c h).
  { intros j p Hp. exists (fun x i => if Nat.eqb i j then poly p x else f x i). split; [intros x _; now rewrite Nat.eqb_refl|]. set (f2 := fun x i => if Nat.eqb i j then poly p x else f x i).
    assert (Ag : forall x, in_box c h x -> f2 x = f x). { intros x Hx. apply functional_extensionality. intros i. unfold f2. destruct (Nat.eqb_spec i j) as [->|]; [symmetry; now apply Hp|reflexivity]. }
    assert (S := same_rule f f2 n numfun keyf c h n2 K Lc Lh P Ag). destruct (rule_of f2 n numfun keyf n2 K c h Lc Lh) as (d2 & Q2 & _). rewrite Q2, Q in S. injection S as -> -> _. split; reflexivity. }
  destruct (corners c h ltac:(congruence) P) as (L1 & L2 & C1 & C2 & C3). destruct (vtol_pos keyf) as [T0 T1].
  assert (VR : forall p, volume (lower_of c h) (upper_of c h) * reach p (lower_of c h) (upper_of c h) = 2 ^ n * prodl h * size p c h) by (intros p; rewrite (volume_is _ _ n n2), reach_is by congruence; rewrite C1, C2, (vol_is n n2) by assumption; reflexivity).
  split; [|split; [|split; [|split]]].
  - intros v e d'. split; [intros (g & R); rewrite Q in R; injection R as <- <- <- _; auto|]. intros (-> & -> & ->). eexists. exact Q.
  - intros j. now apply E_pos.
  - intros j p Hp Dp. rewrite <- D1 in Dp. rewrite <- D3, VR. destruct (SW j p Hp) as (f2 & F2 & -> & _). assert (N := V_near n keyf n2 K f2 p c h j F2 Dp Lc Lh P).
    assert (A := amount_whole n p (fun a ks Hin => proj1 (Dp a ks Hin)) (lower_of c h) (upper_of c h) ltac:(congruence) ltac:(congruence)).
    rewrite C1, C2, C3 in A. rewrite <- A. unfold amount. rewrite Lc, Nat.eqb_refl, Rmult_1_l. exact N.
  - intros j p Hp Dp. rewrite <- D2 in Dp. rewrite <- D4, VR. destruct (SW j p Hp) as (f2 & F2 & _ & ->). assert (N := E_near n keyf n2 K f2 p c h j F2 Dp Lc Lh P). assert (0 <= vtol keyf * (2 ^ n * prodl h * size p c h)); [|lra]. apply Rmult_le_pos; [exact T0|]. apply Rmult_le_pos; [apply Rmult_le_pos; [apply pow_le; lra|now apply prodl_pos]|apply size_pos].
  - unfold drlhre in Q. destruct (drl_volume n h) as [[vol d0]|] eqn:VO; [|discriminate]. apply volume_first in VO; [|exact Lh|lia]. rewrite G2, G3 in Q. cbn [rd1] in Q. change (rd (s :: r) 0) with (Ok s) in Q. change (rd (s' :: r') 0) with (Ok s') in Q. cbn [fst snd] in Q.
    match type of Q with (let! a := ?m in _) = _ => destruct m as [a|] eqn:AX; [|discriminate] end. match type of Q with (let! s := ?m in _) = _ => destruct m as [sm|] eqn:SM; [|discriminate] end. injection Q as _ _ Ed _. 
    assert (AF := fun Z => axes_first _ _ _ _ _ _ _ _ _ _ Lc Lh Z AX). specialize (AF eq_refl). destruct AF as [A1 A2]. rewrite Ed in A1, A2. split; [exact A1|]. intros N. cbn [x_divaxn] in A2. now rewrite (A2 N).
Qed.

(** The whole routine *)
Lemma outcome : forall f numfun n key, (2 <= n)%nat -> key_ok n key -> exists rule, good_rule f n numfun key rule /\
  forall a b minpts maxpts epsabs epsrel nw junk result, length a = n -> acceptable numfun a b minpts maxpts epsabs epsrel key nw ->
  exists v e neval ifail rs, dcuhre f numfun a b minpts maxpts epsabs epsrel key nw 0 junk result = Ok (v, e, neval, ifail) /\
    pieces numfun rule (centre_of a b) (half_between a b) rs /\
    (forall j, v j = orientation a b * sum_of (fun r => p_val r j) rs) /\ (forall j, e j = sum_of (fun r => p_err r j) rs) /\
    neval = (rule_cost n key * (2 * Z.of_nat (length rs) - 1))%Z /\ (2 <= length rs)%nat /\ (neval <= maxpts)%Z /\
    ((ifail = 0%Z /\ (minpts <= neval)%Z /\ forall j, (1 <= j <= numfun)%nat -> accurate epsabs epsrel (v j) (e j)) \/
     (ifail = 1%Z /\ (maxpts < neval + 2 * rule_cost n key)%Z /\ ((minpts <= neval)%Z -> ~ forall j, (1 <= j <= numfun)%nat -> accurate epsabs epsrel (v j) (e j)))).
Proof.
  intros f numfun n key n2 KO. exists (ruled f n numfun (table_of n (rule_used n key))). split; [now apply good|]. intros a b minpts maxpts epsabs epsrel nw junk result <- A.
  destruct (run_ok f f numfun a b minpts maxpts epsabs epsrel key nw junk result A (fun x _ => eq_refl)) as (v & e & neval & ifail & rs & H1 & _ & _ & H2). exists v, e, neval, ifail, rs. split; [exact H1|exact H2].
Qed.

Lemma refused : forall f numfun a b minpts maxpts epsabs epsrel key nw junk result, length b = length a ->
  ~ acceptable numfun a b minpts maxpts epsabs epsrel key nw ->
  exists ifail, (2 <= ifail <= 12)%Z /\ dcuhre f numfun a b minpts maxpts epsabs epsrel key nw 0 junk result = Ok (result, fun _ => 0, 0%Z, ifail).
Proof.
  intros f numfun a b minpts maxpts epsabs epsrel key nw junk result Lb NA. unfold dcuhre. set (n := length a) in *.
  assert (H : exists i num, (2 <= i <= 12)%Z /\ dchhre (Z.of_nat n) (Z.of_nat numfun) a b minpts maxpts epsabs epsrel key nw 0 = (i, num)).
  { unfold dchhre. fold (keyf_of (Z.of_nat n) key).
    destruct ((key <? 0)%Z || (4 <? key)%Z) eqn:K1; [eexists _, _; split; [|reflexivity]; lia|]. apply orb_false_iff in K1 as [K1 K1']. apply Z.ltb_ge in K1, K1'.
    destruct ((Z.of_nat n <? 2)%Z || (15 <? Z.of_nat n)%Z) eqn:K2; [eexists _, _; split; [|reflexivity]; lia|]. apply orb_false_iff in K2 as [K2 K2']. apply Z.ltb_ge in K2, K2'.
    destruct ((key =? 1)%Z && negb (Z.of_nat n =? 2)%Z) eqn:K3; [eexists _, _; split; [|reflexivity]; lia|].
    destruct ((key =? 2)%Z && negb (Z.of_nat n =? 3)%Z) eqn:K4; [eexists _, _; split; [|reflexivity]; lia|]. cbv zeta.
    assert (Hk : key_ok n key). { unfold key_ok. destruct (Z.eqb_spec key 1); [destruct (Z.eqb_spec (Z.of_nat n) 2); [right; right; right; left; lia|discriminate]|]. destruct (Z.eqb_spec key 2); [destruct (Z.eqb_spec (Z.of_nat n) 3); [right; right; right; right; lia|discriminate]|]. lia. }
    rewrite used_is, cost_is by lia. assert (C := cost_pos n key ltac:(lia)). set (N := rule_cost n key) in *.
    destruct (Z.ltb_spec (Z.of_nat numfun) 1); [eexists _, _; split; [|reflexivity]; lia|].
    destruct (existsb (fun ab => Reqb (fst ab - snd ab) 0) (combine a b)) eqn:AB; [eexists _, _; split; [|reflexivity]; lia|].
    destruct (Z.ltb_spec maxpts (3 * N)); [eexists _, _; split; [|reflexivity]; lia|]. destruct (Z.ltb_spec maxpts minpts); [eexists _, _; split; [|reflexivity]; lia|].
    destruct (Rltb epsabs 0 && Rltb epsrel 0) eqn:EE; [eexists _, _; split; [|reflexivity]; lia|].
    match goal with |- context [(nw <? ?w)%Z] => destruct (Z.ltb_spec nw w) as [|W] end; [eexists _, _; split; [|reflexivity]; lia|]. exfalso. apply NA.
    rewrite Z.quot_div_nonneg in W by lia.
    split; [fold n; lia|]. split; [lia|]. split.
    { clear -AB Lb. subst n. revert b Lb AB. induction a as [|x a IH]; intros [|y b] L AB; try discriminate; constructor.
      - cbn [combine existsb fst snd] in AB. apply orb_false_iff in AB as [AB _]. intros ->. rewrite Rminus_diag_eq in AB by reflexivity. assert (Q : Reqb 0 0 = true) by now apply Reqb_spec. congruence.
      - cbn [combine existsb] in AB. apply orb_false_iff in AB as [_ AB]. apply IH; [cbn in L; lia|exact AB]. }
    split; [exact Hk|]. fold n N. split; [assumption|]. split; [assumption|]. split.
    { apply andb_false_iff in EE as [E|E]; apply Rltb_false in E; apply Rnot_lt_le in E; auto. }
    unfold work_needed. fold N. lia. }
  destruct H as (i & num & Hi & ->). exists i. split; [exact Hi|]. replace (i =? 0)%Z with false by (symmetry; apply Z.eqb_neq; lia). reflexivity.
Qed.

(** Polynomials *)
Lemma sum_nonneg : forall (g : piece -> R) rs, (forall r, In r rs -> 0 <= g r) -> 0 <= sum_of g rs.
Proof. intros g rs H. unfold sum_of. induction rs as [|r rs IH]; cbn [map fold_right]; [lra|]. assert (0 <= g r) by (apply H; now left). assert (0 <= fold_right Rplus 0 (map g rs)) by (apply IH; intros q Hq; apply H; now right). lra. Qed.
Lemma near : forall f numfun a b minpts maxpts epsabs epsrel key nw junk result j p, acceptable numfun a b minpts maxpts epsabs epsrel key nw ->
  (forall x, in_box (centre_of a b) (half_between a b) x -> f x j = poly p x) ->
  exists v e neval ifail, dcuhre f numfun a b minpts maxpts epsabs epsrel key nw 0 junk result = Ok (v, e, neval, ifail) /\
    (of_degree (rule_degree (length a) key) (length a) p -> Rabs (v j - integral a b (poly p)) <= value_tol (length a) key * (volume a b * reach p a b)) /\
    (of_degree (null_degree (length a) key) (length a) p -> 0 <= e j <= error_tol (length a) key * (volume a b * reach p a b)).
Proof.
  intros f numfun a b minpts maxpts epsabs epsrel key nw junk result j p A Hp. destruct (accepted _ _ _ _ _ _ _ _ _ A) as (_ & K & Lb & _). assert (n2 : (2 <= length a)%nat) by (destruct A as (H & _); lia). assert (KO : key_ok (length a) key) by (destruct A as (_ & _ & _ & H & _); exact H). destruct (deg_is _ _ KO) as (D1 & D2 & D3 & D4).
  set (f2 := fun x i => if Nat.eqb i j then poly p x else f x i). assert (F2 : forall x, length x = length a -> f2 x j = poly p x) by (intros x _; unfold f2; now rewrite Nat.eqb_refl).
  assert (Ag : forall x, in_box (centre_of a b) (half_between a b) x -> f2 x = f x). { intros x Hx. apply functional_extensionality. intros i. unfold f2. destruct (Nat.eqb_spec i j) as [->|]; [symmetry; now apply Hp|reflexivity]. }
  destruct (run_ok f2 f2 numfun a b minpts maxpts epsabs epsrel key nw junk result A (fun x _ => eq_refl)) as (v & e & neval & ifail & rs & H1 & _ & _ & P & Hv & He & _). exists v, e, neval, ifail.
  split; [rewrite <- H1; symmetry; now apply inside_same|]. rewrite <- D1, <- D2, <- D3, <- D4. destruct (boxes_len a b Lb) as [Lc Lh]. rewrite (volume_is a b (length a) n2 eq_refl Lb), (reach_is p a b Lb).
  split; intros Dp.
  - rewrite Hv. rewrite <- (amount_whole (length a) p (fun c ks Hin => proj1 (Dp c ks Hin)) a b eq_refl Lb). rewrite <- Rmult_minus_distr_l, Rabs_mult, orientation_1, Rmult_1_l.
    exact (pieces_near f2 (length a) numfun (rule_used (length a) key) n2 K p j F2 _ _ Lc Lh (half_between_pos a b) rs Dp P).
  - rewrite He. split; [|exact (errors_small f2 (length a) numfun (rule_used (length a) key) n2 K p j F2 _ _ Lc Lh (half_between_pos a b) Dp rs P)].
    apply sum_nonneg. exact (errors_pos f2 (length a) numfun (rule_used (length a) key) n2 K _ _ Lc Lh (half_between_pos a b) rs P j).
Qed.
Lemma exact : forall f numfun a b minpts maxpts epsabs epsrel key nw junk result j p, acceptable numfun a b minpts maxpts epsabs epsrel key nw -> (3 <= rule_used (length a) key)%Z ->
  (forall x, in_box (centre_of a b) (half_between a b) x -> f x j = poly p x) -> of_degree (rule_degree (length a) key) (length a) p ->
  exists v e neval ifail, dcuhre f numfun a b minpts maxpts epsabs epsrel key nw 0 junk result = Ok (v, e, neval, ifail) /\ v j = integral a b (poly p) /\ (of_degree (null_degree (length a) key) (length a) p -> e j = 0).
Proof.
  intros f numfun a b minpts maxpts epsabs epsrel key nw junk result j p A U Hp Dp. destruct (near f numfun a b minpts maxpts epsabs epsrel key nw junk result j p A Hp) as (v & e & neval & ifail & E & N & M). exists v, e, neval, ifail. split; [exact E|].
  assert (T : value_tol (length a) key = 0 /\ error_tol (length a) key = 0) by (unfold value_tol, error_tol; destruct (Z.eqb_spec (rule_used (length a) key) 1); [lia|]; destruct (Z.eqb_spec (rule_used (length a) key) 2); [lia|]; split; reflexivity). destruct T as [T T']. rewrite T in N. rewrite T' in M. rewrite Rmult_0_l in N, M.
  split; [|intros D; specialize (M D); lra]. specialize (N Dp). assert (P := Rabs_pos (v j - integral a b (poly p))). revert N. unfold Rabs. destruct (Rcase_abs _); lra.
Qed.

(** Budgets that leave no room *)
Lemma no_room : forall f numfun a b minpts maxpts epsabs epsrel key nw junk result, acceptable numfun a b minpts maxpts epsabs epsrel key nw ->
  (forall k, ~ (minpts <= rule_cost (length a) key * (2 * k - 1) <= maxpts)%Z) ->
  exists v e neval, dcuhre f numfun a b minpts maxpts epsabs epsrel key nw 0 junk result = Ok (v, e, neval, 1%Z).
Proof.
  intros f numfun a b minpts maxpts epsabs epsrel key nw junk result A N. destruct (run_ok f f numfun a b minpts maxpts epsabs epsrel key nw junk result A (fun x _ => eq_refl)) as (v & e & neval & ifail & rs & H1 & _ & _ & _ & _ & _ & Hn & _ & Hm & [(_ & H & _)|(-> & _)]).
  - exfalso. apply (N (Z.of_nat (length rs))). rewrite <- Hn. lia.
  - exists v, e, neval. exact H1.
Qed.
(** Those that have room are enough when all is exact *)
Lemma enough : forall f numfun a b minpts maxpts epsabs epsrel key nw junk result k, acceptable numfun a b minpts maxpts epsabs epsrel key nw ->
  (forall j, (1 <= j <= numfun)%nat -> exists p, of_degree (null_degree (length a) key) (length a) p /\ error_tol (length a) key * (volume a b * reach p a b) <= epsabs /\ forall x, in_box (centre_of a b) (half_between a b) x -> f x j = poly p x) ->
  (minpts <= rule_cost (length a) key * (2 * k - 1) <= maxpts)%Z ->
  exists v e neval, dcuhre f numfun a b minpts maxpts epsabs epsrel key nw 0 junk result = Ok (v, e, neval, 0%Z).
Proof.
  intros f numfun a b minpts maxpts epsabs epsrel key nw junk result k A Hp Hk. destruct (run_ok f f numfun a b minpts maxpts epsabs epsrel key nw junk result A (fun x _ => eq_refl)) as (v & e & neval & ifail & rs & H1 & _ & _ & _ & _ & _ & Hn & H2 & Hm & [(-> & _)|(-> & Hx & H)]).
  - exists v, e, neval. exact H1.
  - exfalso. assert (C := cost_pos (length a) key ltac:(destruct A as (X & _); lia)). apply H.
    + set (N := rule_cost (length a) key) in *. rewrite Hn in *. assert (k <= Z.of_nat (length rs))%Z; [|nia]. destruct (Z_le_gt_dec k (Z.of_nat (length rs))) as [|G]; [assumption|]. exfalso. nia.
    + intros j Hj. destruct (Hp j Hj) as (p & Dp & He & Hf).
      destruct (near f numfun a b minpts maxpts epsabs epsrel key nw junk result j p A Hf) as (v' & e' & n' & i' & Q & _ & Z). rewrite Q in H1. injection H1 as -> -> _ _. specialize (Z Dp). unfold accurate. apply (Rle_trans _ epsabs); [lra|apply Rmax_l].
Qed.

(** Exchanged limits *)
Lemma nth_seq_id : forall a : list R, map (fun j => nth j a 0) (seq 0 (length a)) = a.
Proof. induction a as [|x a IH]; [reflexivity|]. cbn [length seq map nth]. f_equal. rewrite <- seq_shift, map_map. exact IH. Qed.
Lemma exch_1 : forall x y a b, length b = length a -> exchanged 1 (x :: a) (y :: b) = y :: a.
Proof.
  intros x y a b L. unfold exchanged. cbn [length seq map Nat.eqb]. f_equal. rewrite <- seq_shift, map_map, <- seq_shift, map_map. rewrite <- (nth_seq_id a) at 2. apply map_ext. intros j. cbn [Nat.eqb]. unfold comp. cbn [Nat.sub nth]. reflexivity.
Qed.
Lemma exch_S : forall i x y a b, (1 <= i)%nat -> exchanged (S i) (x :: a) (y :: b) = x :: exchanged i a b.
Proof.
  intros i x y a b H. unfold exchanged. cbn [length seq map]. f_equal; [destruct i; [lia|reflexivity]|]. rewrite <- seq_shift, map_map. apply map_ext_in. intros j Hj. apply in_seq in Hj. cbn [Nat.eqb]. unfold comp. destruct j; [lia|]. cbn [Nat.sub nth]. now rewrite Nat.sub_0_r.
Qed.
Lemma exch_all : forall a b i, List.Forall2 (fun x y => x <> y) a b -> (1 <= i <= length a)%nat ->
  length (exchanged i a b) = length a /\ centre_of (exchanged i a b) (exchanged i b a) = centre_of a b /\ half_between (exchanged i a b) (exchanged i b a) = half_between a b /\
  orientation (exchanged i a b) (exchanged i b a) = - orientation a b /\ List.Forall2 (fun x y => x <> y) (exchanged i a b) (exchanged i b a).
Proof.
  unfold centre_of, half_between. intros a b i H. revert i. induction H as [|x y a b XY H IH]; intros i Hi; [cbn in Hi; lia|].
  assert (L : length b = length a) by (clear -H; induction H as [|u w a b _ _ E]; [reflexivity|]; cbn [length]; now rewrite E).
  destruct i as [|[|i]]; [lia| |].
  - rewrite !exch_1 by congruence. cbn [combine map fst snd length orientation]. split; [reflexivity|]. split; [f_equal; field|]. split; [f_equal; rewrite Rabs_minus_sym; reflexivity|]. split; [|constructor; [congruence|exact H]].
    destruct (Rlt_dec y x) as [P|P], (Rlt_dec x y) as [Q|Q]; [lra|ring|ring|]. exfalso. apply XY. apply Rnot_lt_le in P, Q. lra.
  - rewrite !exch_S by lia. destruct (IH (S i)) as (A & B & C & D & E); [cbn in Hi; lia|]. cbn [combine map fst snd length orientation]. rewrite A, B, C, D. split; [reflexivity|]. split; [reflexivity|]. split; [reflexivity|]. split; [ring|]. constructor; assumption.
Qed.
Lemma reversed : forall f numfun a b minpts maxpts epsabs epsrel key nw junk result i, acceptable numfun a b minpts maxpts epsabs epsrel key nw -> (1 <= i <= length a)%nat ->
  exists v e neval ifail, dcuhre f numfun a b minpts maxpts epsabs epsrel key nw 0 junk result = Ok (v, e, neval, ifail) /\
    dcuhre f numfun (exchanged i a b) (exchanged i b a) minpts maxpts epsabs epsrel key nw 0 junk result = Ok (fun j => - v j, e, neval, ifail).
Proof.
  intros f numfun a b minpts maxpts epsabs epsrel key nw junk result i A Hi. destruct (accepted _ _ _ _ _ _ _ _ _ A) as (CH & KF & Lb & MX).
  destruct (run_ok f f numfun a b minpts maxpts epsabs epsrel key nw junk result A (fun x _ => eq_refl)) as (v & e & neval & ifail & rs & H1 & _). exists v, e, neval, ifail. split; [exact H1|].
  assert (AB : List.Forall2 (fun x y => x <> y) a b) by (destruct A as (_ & _ & X & _); exact X). destruct (exch_all a b i AB Hi) as (L & C & Hw & O & AB').
  assert (A' : acceptable numfun (exchanged i a b) (exchanged i b a) minpts maxpts epsabs epsrel key nw) by (unfold acceptable in *; rewrite L; tauto).
  destruct (accepted _ _ _ _ _ _ _ _ _ A') as (CH' & _). unfold dcuhre in *. rewrite CH in H1. rewrite CH'. rewrite L in *. cbn [Z.eqb negb] in *. destruct (dinhre (length a) _) as [t|]; [|discriminate].
  unfold dadhre in *. rewrite !sign_is in *. fold (centre_of a b) (half_between a b) in H1. fold (centre_of (exchanged i a b) (exchanged i b a)) (half_between (exchanged i a b) (exchanged i b a)). rewrite C, Hw, O.
  destruct (wr1 (repeat junk _) 1 _) as [cs|]; [|discriminate]. destruct (dad_rule f (length a) numfun t 1 (t_g t) cs) as [[cs' g]|]; [|discriminate]. destruct (rd1 cs' 1) as [c|]; [|discriminate]. destruct (dtr_insert 1 cs') as [cs''|]; [|discriminate].
  destruct (dad_loop _ _ _ _ _ _ _ _ _ _ _) as [[ifl st]|]; [|discriminate]. destruct (iter (seq 1 (sbrgns st)) _ _) as [tot|]; [|discriminate]. cbn [o_result o_abserr o_neval o_ifail] in *. injection H1 as <- <- <- <-. f_equal. f_equal. f_equal. f_equal. apply functional_extensionality. intros j. ring.
Qed.

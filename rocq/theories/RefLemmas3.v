(** One update of the interval list. *)

From Coq Require Import ZArith List Bool Arith Reals Lra Lia.
From Verif Require Import Exn Instances RefModel RefSpec RefLemmas RefLemmas2.
Import ListNotations.
Local Open Scope R_scope.

(** Where an interval of the new list comes from. *)
Definition inside (a b : ival) : Prop := i_lo a <= i_lo b /\ i_hi b <= i_hi a.
Definition derived (lin : bool) (old : list ival) (b : ival) : Prop :=
  exists a, In a old /\ inside a b /\
    (lin = true -> i_step b < i_step a \/
       (i_step b = i_step a /\ exists k, (0 <= k)%Z /\ i_lo b = i_lo a + IZR k * i_step a)).

Lemma derived_self : forall lin old b, In b old -> derived lin old b.
Proof.
  intros lin old b H. exists b. split; auto. split; [split; lra|]. intros _. right. split; auto.
  exists 0%Z. split; [lia|]. lra.
Qed.

Lemma derived_trans : forall lin old mid c, (forall b, In b mid -> derived lin old b) -> derived lin mid c -> derived lin old c.
Proof.
  intros lin old mid c H (b & Hb & [I1 I2] & C). destruct (H b Hb) as (a & Ha & [J1 J2] & D).
  exists a. split; auto. split; [split; lra|]. intros L. specialize (C L). specialize (D L).
  destruct C as [C|[C (k & K0 & K)]], D as [D|[D (j & J0 & J)]]; try (left; lra). right. split; [congruence|].
  exists (j + k)%Z. split; [lia|]. rewrite plus_IZR, K, J, D. lra.
Qed.

(** Pieces at the two ends of an interval that is split. *)
Lemma left_piece : forall lin old a l i, In a old -> okiv a -> (lin = true -> i_lin a = true) -> (lin = false -> 0 < i_lo a) ->
  i_lo a < l <= i_hi a -> (i_lin a = true -> l = i_lo a + IZR i * i_step a) ->
  exists b, mk_ival (i_lo a) l (num_pts lin (i_lo a) l (i_step a)) true = Ok b /\ okiv b /\ i_lin b = true
    /\ i_lo b = i_lo a /\ i_hi b = l /\ derived lin old b.
Proof.
  intros lin old a l i Ha OK HL H0 Hl E. assert (0 < i_step a) as Hs by apply OK.
  destruct (num_pts_spec lin (i_lo a) l (i_step a)) as [N1 _]; [apply span_pos; [auto|lra]|auto|].
  destruct (mk_ival_ok (i_lo a) l (num_pts lin (i_lo a) l (i_step a))) as (b & Eb & Ob & B1 & B2 & B3 & B4 & B5); [lra|auto|].
  exists b. repeat (split; [assumption|]). exists a. split; auto. split; [split; lra|]. intros L. right. split.
  - specialize (E (HL L)). subst lin. rewrite B5.
    rewrite (num_pts_exact (i_lo a) l (i_step a) i) by (auto; lra).
    rewrite plus_IZR. assert (0 < IZR i) by (apply (Rmult_lt_reg_r (i_step a)); lra).
    rewrite E. field. lra.
  - exists 0%Z. split; [lia|lra].
Qed.

Lemma right_piece : forall lin old a h j, In a old -> okiv a -> (lin = true -> i_lin a = true) -> (lin = false -> 0 < i_lo a) ->
  i_lo a < h < i_hi a -> (i_lin a = true -> h = i_lo a + IZR j * i_step a) ->
  exists b, mk_ival h (i_hi a) (num_pts lin h (i_hi a) (i_step a)) true = Ok b /\ okiv b /\ i_lin b = true
    /\ i_lo b = h /\ i_hi b = i_hi a /\ derived lin old b.
Proof.
  intros lin old a h j Ha OK HL H0 Hl E. assert (0 < i_step a) as Hs by apply OK.
  destruct (num_pts_spec lin h (i_hi a) (i_step a)) as [N1 _]; [apply span_pos; [intros L; specialize (H0 L); lra|lra]|auto|].
  destruct (mk_ival_ok h (i_hi a) (num_pts lin h (i_hi a) (i_step a))) as (b & Eb & Ob & B1 & B2 & B3 & B4 & B5); [lra|auto|].
  exists b. repeat (split; [assumption|]). exists a. split; auto. split; [split; lra|]. intros L. right.
  pose proof (okiv_steps a OK) as Es. unfold span in Es. rewrite (HL L) in Es. specialize (E (HL L)). split.
  - subst lin. rewrite B5. rewrite (num_pts_exact h (i_hi a) (i_step a) (i_n a - 1 - j)).
    + rewrite plus_IZR, !minus_IZR. assert (0 < IZR (i_n a) - 1 - IZR j) by (apply (Rmult_lt_reg_r (i_step a)); lra).
      replace (i_hi a - h) with ((IZR (i_n a) - 1 - IZR j) * i_step a) by lra. field. lra.
    + auto.
    + rewrite !minus_IZR. lra.
  - exists j. split; [|lra]. assert (0 < IZR j) by (apply (Rmult_lt_reg_r (i_step a)); lra). apply lt_IZR in H. lia.
Qed.

(** A new piece of an interval, finer than it. *)
Lemma new_piece : forall lin old a lo hi n, In a old -> i_lo a <= lo -> lo < hi -> hi <= i_hi a -> (2 <= n)%Z ->
  (lin = true -> (hi - lo) / (IZR n - 1) < i_step a) ->
  exists b, mk_ival lo hi n true = Ok b /\ okiv b /\ i_lin b = true /\ i_lo b = lo /\ i_hi b = hi
    /\ i_step b = (hi - lo) / (IZR n - 1) /\ derived lin old b.
Proof.
  intros lin old a lo hi n Ha H1 H2 H3 Hn Hs.
  destruct (mk_ival_ok lo hi n H2 Hn) as (b & Eb & Ob & B1 & B2 & B3 & B4 & B5).
  exists b. repeat (split; [assumption|]). exists a. split; auto. split; [split; lra|]. intros L. left. rewrite B5. auto.
Qed.

(** The list before merging. *)
Definition premerge (lin : bool) (lo0 hi0 : R) (old l : list ival) (lo hi step : R) : Prop :=
  l <> [] /\ tiling lo0 hi0 l /\ Forall (fun a => okiv a /\ i_lin a = true) l
  /\ (forall b, In b l -> derived lin old b)
  /\ (lin = true -> forall b x, In b l -> contains b x -> lo <= x < hi -> i_step b <= step).

(** Pieces put together into a list. *)
Lemma tiling_one : forall a, okiv a -> tiling (i_lo a) (i_hi a) [a].
Proof. intros a (H & Hn & _). cbn. repeat split; auto. Qed.

Lemma with_il_twice : forall l l' s, with_il l (with_il l' s) = with_il l s.
Proof. reflexivity. Qed.

Lemma update_inside_spec : forall lin lo0 hi0 pre a post s lo hi n step i j,
  rl_il s = pre ++ a :: post -> tiling lo0 hi0 (rl_il s) ->
  Forall okiv (rl_il s) -> Forall (fun a => i_lin a = true) (pre ++ post) -> (lin = true -> i_lin a = true) ->
  (lin = false -> 0 < lo0) ->
  i_lo a <= lo -> lo < hi -> hi <= i_hi a -> (2 <= n)%Z ->
  (i_lin a = true -> lo = i_lo a + IZR i * i_step a) -> (i_lin a = true -> hi = i_lo a + IZR j * i_step a) ->
  (lin = true -> step = (hi - lo) / (IZR n - 1)) ->
  (i_step a <= step /\ update_inside lin lo hi n step (length pre) a s = (s, Ok tt))
  \/ (step < i_step a /\ exists l, update_inside lin lo hi n step (length pre) a s = merge (with_il l s)
       /\ premerge lin lo0 hi0 (rl_il s) l lo hi step).
Proof.
  intros lin lo0 hi0 pre a post s lo hi n step i j Ei T F FL HL H0 H1 H2 H3 Hn Ei1 Ej Est.
  unfold update_inside. destruct (Rleb (i_step a) step) eqn:Es; rb; [left; auto|right]. split; [lra|].
  assert (In a (rl_il s)) as Ia by (rewrite Ei; apply in_or_app; right; left; auto).
  assert (okiv a) as OK by (rewrite Forall_forall in F; auto).
  assert (lin = false -> 0 < i_lo a) as H0a.
  { intros L. specialize (H0 L). pose proof (tiling_in _ _ _ _ T Ia). lra. }
  destruct (new_piece lin (rl_il s) a lo hi n Ia H1 H2 H3 Hn) as (b & Eb & Ob & Lb & B1 & B2 & B3 & Db).
  { intros L. rewrite <- Est by auto. lra. }
  assert (exists X, bind (if Rltb (i_lo a) lo
          then bind (il_insert (length pre) (i_lo a) lo (num_pts lin (i_lo a) lo (i_step a))) (fun _ => ret (S (length pre)))
          else ret (length pre)) (fun k => bind (il_insert k lo hi n) (fun _ => bind
            (if Rltb hi (i_hi a) then il_insert (S k) hi (i_hi a) (num_pts lin hi (i_hi a) (i_step a)) else ret tt)
             (fun _ => merge))) (with_il (pre ++ post) s)
       = bind (il_insert (length (pre ++ X)) lo hi n) (fun _ => bind
            (if Rltb hi (i_hi a) then il_insert (S (length (pre ++ X))) hi (i_hi a) (num_pts lin hi (i_hi a) (i_step a)) else ret tt)
             (fun _ => merge)) (with_il ((pre ++ X) ++ post) s)
       /\ tiling (i_lo a) lo X /\ Forall (fun a => okiv a /\ i_lin a = true) X /\ (forall c, In c X -> derived lin (rl_il s) c))
    as (X & EX & TX & FX & DX).
  { destruct (Rltb (i_lo a) lo) eqn:El; rb.
    - destruct (left_piece lin (rl_il s) a lo i) as (c & Ec & Oc & Lc & C1 & C2 & Dc); auto; [lra|].
      exists [c]. split.
      + unfold bind, il_insert. rewrite Ec. cbn [rl_il with_il ret]. rewrite ins_at_app.
        rewrite app_length. cbn [length]. rewrite Nat.add_1_r. rewrite <- (app_assoc pre [c] post). reflexivity.
      + split; [|split].
        * rewrite <- C1, <- C2. now apply tiling_one.
        * constructor; auto.
        * intros d [<-|[]]; auto.
    - exists []. rewrite app_nil_r. split; [reflexivity|]. split; [cbn; lra|]. split; [constructor|intros ? []]. }
  assert (exists Y, bind (il_insert (length (pre ++ X)) lo hi n) (fun _ => bind
            (if Rltb hi (i_hi a) then il_insert (S (length (pre ++ X))) hi (i_hi a) (num_pts lin hi (i_hi a) (i_step a)) else ret tt)
             (fun _ => merge)) (with_il ((pre ++ X) ++ post) s)
       = merge (with_il ((pre ++ X) ++ b :: Y ++ post) s)
       /\ tiling hi (i_hi a) Y /\ Forall (fun a => okiv a /\ i_lin a = true) Y /\ (forall c, In c Y -> derived lin (rl_il s) c))
    as (Y & EY & TY & FY & DY).
  { unfold bind at 1. unfold il_insert at 1. rewrite Eb. cbn [rl_il with_il]. rewrite ins_at_app.
    destruct (Rltb hi (i_hi a)) eqn:Eh; rb.
    - destruct (right_piece lin (rl_il s) a hi j) as (c & Ec & Oc & Lc & C1 & C2 & Dc); auto; [lra|].
      exists [c]. split.
      + unfold bind, il_insert. rewrite Ec. cbn [rl_il with_il].
        replace ((pre ++ X) ++ b :: post) with (((pre ++ X) ++ [b]) ++ post) by (rewrite <- app_assoc; reflexivity).
        replace (S (length (pre ++ X))) with (length ((pre ++ X) ++ [b])) by (rewrite (app_length _ [b]); cbn; lia).
        rewrite ins_at_app. rewrite <- (app_assoc (pre ++ X)). reflexivity.
      + split; [|split].
        * rewrite <- C1, <- C2. now apply tiling_one.
        * constructor; auto.
        * intros d [<-|[]]; auto.
    - exists []. split; [reflexivity|]. split; [cbn; lra|]. split; [constructor|intros ? []]. }
  exists ((pre ++ X) ++ b :: Y ++ post). split.
  { unfold bind at 1. unfold il_del, modify at 1. rewrite Ei, del_at_app. rewrite EX. exact EY. }
  unfold premerge. rewrite Ei in T. apply tiling_app in T as (m & T1 & T2). cbn in T2. destruct T2 as (M1 & M2 & M3 & M4).
  split; [destruct (pre ++ X); discriminate|]. split; [|split; [|split]].
  - apply tiling_app. exists lo. split.
    + apply tiling_app. exists m. split; auto. rewrite <- M1. exact TX.
    + cbn. rewrite B1, B2. repeat split; auto; [apply Ob|]. apply tiling_app. exists (i_hi a). auto.
  - rewrite Ei in F. apply Forall_app in F as [F1 F2]. inversion F2 as [|? ? _ F3]; subst. apply Forall_app in FL as [G1 G2].
    assert (forall l, Forall okiv l -> Forall (fun a => i_lin a = true) l -> Forall (fun a => okiv a /\ i_lin a = true) l) as FF.
    { intros l U V. rewrite Forall_forall in *. auto. }
    apply Forall_app. split; [apply Forall_app; split; auto|]. constructor; auto. apply Forall_app. split; auto.
  - intros c Hc. apply in_app_or in Hc as [Hc|[<-|Hc]]; [apply in_app_or in Hc as [Hc|Hc]; [|auto]|auto|apply in_app_or in Hc as [Hc|Hc]; [auto|]];
      apply derived_self; rewrite Ei; apply in_or_app; [auto|right; right; auto].
  - intros L c x Hc Cx Hx. rewrite Est by auto. unfold contains in Cx.
    apply in_app_or in Hc as [Hc|[<-|Hc]]; [apply in_app_or in Hc as [Hc|Hc]| |apply in_app_or in Hc as [Hc|Hc]].
    + pose proof (tiling_in _ _ _ _ T1 Hc). lra.
    + pose proof (tiling_in _ _ _ _ TX Hc). lra.
    + lra.
    + pose proof (tiling_in _ _ _ _ TY Hc). lra.
    + pose proof (tiling_in _ _ _ _ M4 Hc). lra.
Qed.

(** Resampling a stretch of the list. *)
Definition resampled (lin : bool) (step : R) (a : ival) : ival :=
  if Rltb step (i_step a) then resample (num_pts lin (i_lo a) (i_hi a) step) a else a.

Lemma fold_resample : forall lin step mid pre post,
  fold_left (fun l i => match nth_error l i with
                        | None => l
                        | Some iv => if Rltb step (i_step iv)
                                     then set_at i (resample (num_pts lin (i_lo iv) (i_hi iv) step) iv) l
                                     else l
                        end) (seq (length pre) (length mid)) (pre ++ mid ++ post)
  = pre ++ map (resampled lin step) mid ++ post.
Proof.
  induction mid as [|a mid IH]; intros pre post; [reflexivity|]. cbn [length seq fold_left map app].
  rewrite nth_error_app2, Nat.sub_diag by lia. cbn [nth_error].
  assert ((if Rltb step (i_step a) then set_at (length pre) (resample (num_pts lin (i_lo a) (i_hi a) step) a) (pre ++ a :: mid ++ post)
           else pre ++ a :: mid ++ post) = (pre ++ [resampled lin step a]) ++ mid ++ post) as E.
  { unfold resampled. destruct (Rltb step (i_step a)); [rewrite set_at_app|]; rewrite <- app_assoc; reflexivity. }
  rewrite E. specialize (IH (pre ++ [resampled lin step a]) post).
  rewrite app_length in IH. cbn [length] in IH. rewrite Nat.add_1_r in IH. rewrite IH, <- app_assoc. reflexivity.
Qed.

Lemma resampled_ok : forall lin old step a, In a old -> okiv a -> i_lin a = true -> (lin = false -> 0 < i_lo a) -> 0 < step ->
  let b := resampled lin step a in
  okiv b /\ i_lin b = true /\ i_lo b = i_lo a /\ i_hi b = i_hi a /\ derived lin old b /\ (lin = true -> i_step b <= step).
Proof.
  intros lin old step a Ha OK L H0 Hs b. subst b. unfold resampled. destruct (Rltb step (i_step a)) eqn:E; rb.
  - destruct (num_pts_spec lin (i_lo a) (i_hi a) step) as [N1 N2]; [apply span_pos; auto; apply OK|auto|].
    set (n := num_pts lin (i_lo a) (i_hi a) step) in *. pose proof (IZR_ge1 n N1) as N1'.
    assert (i_lo a < i_hi a) as Hlh by apply OK. unfold resample. cbn. rewrite L.
    split; [unfold okiv; cbn; repeat split; auto; try discriminate|]; [|repeat (split; [reflexivity|]); split].
    + apply Rdiv_lt_0_compat; lra.
    + exists a. split; auto. cbn. split; [split; cbn; lra|]. intros ->. left. cbn in N2. unfold span in N2. lra.
    + intros ->. exact N2.
  - repeat (split; [auto; fail|]). split; [now apply derived_self|intros; lra].
Qed.

Lemma resampled_all : forall lin old step l lo hi, (forall a, In a l -> In a old) -> Forall (fun a => okiv a /\ i_lin a = true) l ->
  tiling lo hi l -> (lin = false -> 0 < lo) -> 0 < step ->
  let m := map (resampled lin step) l in
  Forall (fun a => okiv a /\ i_lin a = true) m /\ tiling lo hi m /\ (forall b, In b m -> derived lin old b)
  /\ (lin = true -> forall b, In b m -> i_step b <= step).
Proof.
  intros lin old step l lo hi HI F T H0 Hs m. subst m.
  assert (forall a, In a l -> let b := resampled lin step a in
     okiv b /\ i_lin b = true /\ i_lo b = i_lo a /\ i_hi b = i_hi a /\ derived lin old b /\ (lin = true -> i_step b <= step)) as R.
  { intros a Ha. rewrite Forall_forall in F. destruct (F a Ha). apply resampled_ok; auto.
    intros L. specialize (H0 L). pose proof (tiling_in _ _ _ _ T Ha). lra. }
  split; [|split; [|split]].
  - apply Forall_forall. intros b Hb. apply in_map_iff in Hb as (a & <- & Ha). destruct (R a Ha) as (A & B & _). auto.
  - clear -T R. revert lo T R. induction l as [|a l IH]; intros lo T R; cbn in *; auto.
    destruct T as (T1 & T2 & T3 & T4). destruct (R a (or_introl eq_refl)) as (A & _ & B & C & _).
    rewrite B, C. repeat split; auto. apply A.
  - intros b Hb. apply in_map_iff in Hb as (a & <- & Ha). apply (R a Ha).
  - intros L b Hb. apply in_map_iff in Hb as (a & <- & Ha). now apply (R a Ha).
Qed.

Lemma update_across_spec : forall lin lo0 hi0 pre a mid b post s lo hi step i j,
  rl_lin s = lin ->
  rl_il s = pre ++ a :: mid ++ b :: post -> tiling lo0 hi0 (rl_il s) ->
  Forall (fun a => okiv a /\ i_lin a = true) (rl_il s) -> (lin = false -> 0 < lo0) ->
  i_lo a <= lo -> lo < i_hi a -> i_lo b < hi -> hi <= i_hi b -> 0 < step ->
  lo = i_lo a + IZR i * i_step a -> hi = i_lo b + IZR j * i_step b ->
  exists l, update_across lin lo hi step (length pre) (length (pre ++ a :: mid)) a b s = merge (with_il l s)
     /\ premerge lin lo0 hi0 (rl_il s) l lo hi step.
Proof.
  intros lin lo0 hi0 pre a mid b post s lo hi step i j Elin Ei T F H0 H1 H2 H3 H4 Hs Ei1 Ej.
  assert (In a (rl_il s)) as Ia by (rewrite Ei; apply in_or_app; right; left; auto).
  assert (In b (rl_il s)) as Ib by (rewrite Ei; apply in_or_app; right; right; apply in_or_app; right; left; auto).
  assert (forall c, In c (rl_il s) -> okiv c /\ i_lin c = true /\ (lin = false -> 0 < i_lo c)) as OK.
  { intros c Hc. rewrite Forall_forall in F. destruct (F c Hc). split; [auto|]. split; [auto|]. intros L. specialize (H0 L).
    pose proof (tiling_in _ _ _ _ T Hc). lra. }
  destruct (OK a Ia) as (Oa & La & H0a). destruct (OK b Ib) as (Ob & Lb & H0b).
  pose proof T as T'. rewrite Ei in T'. apply tiling_app in T' as (m & T1 & T2). cbn in T2. destruct T2 as (M1 & _ & _ & T3).
  apply tiling_app in T3 as (m2 & T3 & T4). cbn in T4. destruct T4 as (M2 & _ & _ & T5).
  assert (i_lo a < i_hi a) as Ha by apply Oa. assert (i_lo b < i_hi b) as Hb by apply Ob.
  pose proof (tiling_le _ _ _ T3) as Hm2.
  (* first stage: X replaces a *)
  assert (exists X k1 k2, (if Rltb step (i_step a) then
           bind (il_del (length pre)) (fun _ =>
           bind (if Rltb (i_lo a) lo
                  then bind (il_insert (length pre) (i_lo a) lo (num_pts lin (i_lo a) lo (i_step a))) (fun _ =>
                       ret (S (length pre), S (length (pre ++ a :: mid))))
                  else ret (length pre, length (pre ++ a :: mid))) (fun ks =>
           bind (il_insert (fst ks) lo (i_hi a) (num_pts lin lo (i_hi a) step)) (fun _ =>
           ret (S (fst ks), snd ks))))
         else ret (length pre, length (pre ++ a :: mid))) s = (with_il (pre ++ X ++ mid ++ b :: post) s, Ok (k1, k2))
       /\ k2 = length (pre ++ X ++ mid)
       /\ (k1 = length (pre ++ X) \/ (k1 = length pre /\ map (resampled lin step) X = X))
       /\ tiling (i_lo a) (i_hi a) X /\ Forall (fun a => okiv a /\ i_lin a = true) X
       /\ (forall c, In c X -> derived lin (rl_il s) c)
       /\ (lin = true -> forall c x, In c X -> contains c x -> lo <= x -> i_step c <= step)) as (X & k1 & k2 & EX & K2 & K1 & TX & FX & DX & SX).
  { destruct (Rltb step (i_step a)) eqn:Es; rb.
    - destruct (num_pts_spec lin lo (i_hi a) step) as [N1 N2]; [apply span_pos; [intros L; specialize (H0a L); lra|lra]|auto|].
      destruct (new_piece lin (rl_il s) a lo (i_hi a) (num_pts lin lo (i_hi a) step) Ia H1 H2) as (c & Ec & Oc & Lc & C1 & C2 & C3 & Dc); [lra|auto| |].
      { intros ->. unfold span in N2. lra. }
      assert (lin = true -> i_step c <= step) as Sc. { intros ->. rewrite C3. exact N2. }
      destruct (Rltb (i_lo a) lo) eqn:El; rb.
      + destruct (left_piece lin (rl_il s) a lo i) as (d & Ed & Od & Ld & D1 & D2 & Dd); auto; [lra|].
        exists [d; c], (S (S (length pre))), (S (length (pre ++ a :: mid))). split; [|split; [|split; [|split; [|split; [|split]]]]].
        * unfold bind, il_del, modify, il_insert. rewrite Ei, del_at_app. cbn [rl_il with_il]. rewrite Ed. cbn [rl_il with_il ret fst snd].
          rewrite ins_at_app, Ec. rewrite with_il_twice. cbn [rl_il with_il].
          replace (pre ++ d :: mid ++ b :: post) with ((pre ++ [d]) ++ mid ++ b :: post) by (rewrite <- app_assoc; reflexivity).
          replace (S (length pre)) with (length (pre ++ [d])) by (rewrite app_length; cbn; lia).
          rewrite ins_at_app, <- app_assoc. reflexivity.
        * rewrite !app_length. cbn. lia.
        * left. rewrite app_length; cbn; lia.
        * cbn. rewrite D1, D2, C1, C2. repeat split; auto; try lra; [apply Od|apply Oc].
        * repeat (apply Forall_cons || apply Forall_nil); auto.
        * intros e [<-|[<-|[]]]; auto.
        * intros L e x [<-|[<-|[]]] Cx Hx; auto. unfold contains in Cx. lra.
      + exists [c], (S (length pre)), (length (pre ++ a :: mid)). split; [|split; [|split; [|split; [|split; [|split]]]]].
        * unfold bind, il_del, modify, il_insert. rewrite Ei, del_at_app. cbn [rl_il with_il ret fst snd]. rewrite Ec.
          rewrite ins_at_app. reflexivity.
        * rewrite !app_length. cbn. lia.
        * left. rewrite app_length; cbn; lia.
        * cbn. rewrite C1, C2. repeat split; auto; try lra; [apply Oc].
        * repeat (apply Forall_cons || apply Forall_nil); auto.
        * intros e [<-|[]]; auto.
        * intros L e x [<-|[]] Cx Hx; auto.
    - exists [a], (length pre), (length (pre ++ a :: mid)). split; [|split; [|split; [|split; [|split; [|split]]]]].
      + unfold ret. cbn [app]. rewrite <- Ei. destruct s; reflexivity.
      + rewrite !app_length. cbn. lia.
      + right. split; auto. cbn. unfold resampled. replace (Rltb step (i_step a)) with false; auto. symmetry. apply Rltb_false. lra.
      + now apply tiling_one.
      + constructor; auto.
      + intros e [<-|[]]. now apply derived_self.
      + intros L e x [<-|[]] _ _. lra. }
  (* second stage: Y replaces b *)
  set (l1 := (pre ++ X ++ mid)).
  assert (exists Y, (if Rltb step (i_step b) then
     bind (il_del k2) (fun _ => bind
     (il_insert k2 (i_lo b) hi (num_pts lin (i_lo b) hi step)) (fun _ =>
     (if Rltb hi (i_hi b)
      then il_insert (S k2) hi (i_hi b) (num_pts lin hi (i_hi b) (i_step b))
      else ret tt)))
   else ret tt) (with_il (l1 ++ b :: post) s) = (with_il (l1 ++ Y ++ post) s, Ok tt)
       /\ tiling (i_lo b) (i_hi b) Y /\ Forall (fun a => okiv a /\ i_lin a = true) Y
       /\ (forall c, In c Y -> derived lin (rl_il s) c)
       /\ (lin = true -> forall c x, In c Y -> contains c x -> x < hi -> i_step c <= step)) as (Y & EY & TY & FY & DY & SY).
  { subst k2. fold l1. destruct (Rltb step (i_step b)) eqn:Es; rb.
    - destruct (num_pts_spec lin (i_lo b) hi step) as [N1 N2]; [apply span_pos; auto|auto|].
      destruct (new_piece lin (rl_il s) b (i_lo b) hi (num_pts lin (i_lo b) hi step) Ib) as (c & Ec & Oc & Lc & C1 & C2 & C3 & Dc); [lra|auto|lra|auto| |].
      { intros ->. unfold span in N2. lra. }
      assert (lin = true -> i_step c <= step) as Sc. { intros ->. rewrite C3. exact N2. }
      destruct (Rltb hi (i_hi b)) eqn:Eh; rb.
      + destruct (right_piece lin (rl_il s) b hi j) as (d & Ed & Od & Ld & D1 & D2 & Dd); auto.
        exists [c; d]. split; [|split; [|split; [|split]]].
        * unfold bind, il_del, modify, il_insert. cbn [rl_il with_il]. rewrite del_at_app, Ec. cbn [rl_il with_il].
          rewrite ins_at_app, Ed. cbn [rl_il with_il].
          replace (l1 ++ c :: post) with ((l1 ++ [c]) ++ post) by (rewrite <- app_assoc; reflexivity).
          replace (S (length l1)) with (length (l1 ++ [c])) by (rewrite app_length; cbn; lia).
          rewrite ins_at_app, <- app_assoc. reflexivity.
        * cbn. rewrite D1, D2, C1, C2. repeat split; auto; try lra; [apply Oc|apply Od].
        * repeat (apply Forall_cons || apply Forall_nil); auto.
        * intros e [<-|[<-|[]]]; auto.
        * intros L e x [<-|[<-|[]]] Cx Hx; auto. unfold contains in Cx. lra.
      + exists [c]. split; [|split; [|split; [|split]]].
        * unfold bind, il_del, modify, il_insert. cbn [rl_il with_il ret]. rewrite del_at_app, Ec. cbn [rl_il with_il].
          rewrite ins_at_app. reflexivity.
        * cbn. rewrite C1, C2. repeat split; auto; try lra; apply Oc.
        * repeat (apply Forall_cons || apply Forall_nil); auto.
        * intros e [<-|[]]; auto.
        * intros L e x [<-|[]] Cx Hx; auto.
    - exists [b]. split; [reflexivity|]. split; [now apply tiling_one|]. split; [constructor; auto|]. split.
      + intros e [<-|[]]. now apply derived_self.
      + intros L e x [<-|[]] _ _. lra. }
  (* third stage *)
  destruct (resampled_all lin (rl_il s) step mid (i_hi a) m2) as (FM & TM & DM & SM).
  { intros c Hc. rewrite Ei. apply in_or_app. right. right. apply in_or_app. auto. }
  { rewrite Ei in F. apply Forall_app in F as [_ F]. inversion F as [|? ? _ F']; subst. now apply Forall_app in F'. }
  { exact T3. }
  { intros L. specialize (H0a L). lra. }
  { exact Hs. }
  set (mid' := map (resampled lin step) mid) in *.
  exists (pre ++ X ++ mid' ++ Y ++ post). split.
  { unfold update_across. unfold bind at 1. rewrite EX. cbn [fst snd].
    replace (pre ++ X ++ mid ++ b :: post) with (l1 ++ b :: post) by (unfold l1; rewrite <- !app_assoc; reflexivity).
    unfold bind at 1. rewrite EY. unfold bind, modify. f_equal. unfold resample_range. rewrite with_il_twice. f_equal.
    cbn [rl_il with_il rl_lin]. rewrite Elin. subst k2. unfold l1. destruct K1 as [->|[-> EXr]].
    - replace (length (pre ++ X ++ mid) - length (pre ++ X))%nat with (length mid) by (rewrite !app_length; lia).
      replace ((pre ++ X ++ mid) ++ Y ++ post) with ((pre ++ X) ++ mid ++ (Y ++ post)) by (rewrite <- !app_assoc; reflexivity).
      rewrite fold_resample. rewrite <- !app_assoc. reflexivity.
    - replace (length (pre ++ X ++ mid) - length pre)%nat with (length (X ++ mid)) by (rewrite !app_length; lia).
      replace ((pre ++ X ++ mid) ++ Y ++ post) with (pre ++ (X ++ mid) ++ (Y ++ post)) by (rewrite <- !app_assoc; reflexivity).
      rewrite fold_resample. rewrite map_app, EXr. rewrite <- !app_assoc. reflexivity. }
  unfold premerge. split; [|split; [|split; [|split]]].
  - intros E. apply app_eq_nil in E as [_ E]. apply app_eq_nil in E as [E _]. subst X. cbn in TX. lra.
  - apply tiling_app. exists m. split; auto. apply tiling_app. exists (i_hi a). split; [rewrite <- M1; exact TX|].
    apply tiling_app. exists m2. split; auto. apply tiling_app. exists (i_hi b). split; [rewrite <- M2; exact TY|exact T5].
  - rewrite Ei in F. apply Forall_app in F as [F1 F]. inversion F as [|? ? _ F2]; subst. apply Forall_app in F2 as [_ F2].
    inversion F2 as [|? ? _ F3]; subst. repeat (apply Forall_app; split; auto).
  - intros c Hc. apply in_app_or in Hc as [Hc|Hc]; [apply derived_self; rewrite Ei; apply in_or_app; auto|].
    apply in_app_or in Hc as [Hc|Hc]; [auto|]. apply in_app_or in Hc as [Hc|Hc]; [auto|]. apply in_app_or in Hc as [Hc|Hc]; [auto|].
    apply derived_self. rewrite Ei. apply in_or_app. right. right. apply in_or_app. right. right. auto.
  - intros L c x Hc Cx Hx. pose proof Cx as Cx'. unfold contains in Cx'.
    apply in_app_or in Hc as [Hc|Hc]; [pose proof (tiling_in _ _ _ _ T1 Hc); lra|].
    apply in_app_or in Hc as [Hc|Hc]; [apply (SX L c x); auto; lra|]. apply in_app_or in Hc as [Hc|Hc]; [now apply (SM L c)|].
    apply in_app_or in Hc as [Hc|Hc]; [apply (SY L c x); auto; lra|]. pose proof (tiling_in _ _ _ _ T5 Hc). lra.
Qed.

(** Any sequence of updates. *)

From Coq Require Import ZArith List Bool Arith Reals Lra Lia.
From Verif Require Import Exn Instances RefModel RefSpec RefLemmas RefLemmas2 RefLemmas3.
Import ListNotations.
Local Open Scope R_scope.

Record inv (s : rlist) : Prop := Inv {
  inv_lohi : rl_lo s < rl_hi s;
  inv_pos : rl_lin s = false -> 0 < rl_lo s;
  inv_tiling : tiling (rl_lo s) (rl_hi s) (rl_il s);
  inv_ok : Forall okiv (rl_il s);
  inv_kind : Forall (fun a => i_lin a = true) (rl_il s) \/ exists a, rl_il s = [a] /\ i_lin a = rl_lin s;
  inv_npts : rl_npts s = count_points (rl_il s);
  inv_cum : rl_cum s = cum_of (rl_il s);
  inv_base : okiv (rl_base s) /\ i_lo (rl_base s) = rl_lo s /\ i_hi (rl_base s) = rl_hi s /\ i_lin (rl_base s) = rl_lin s;
  inv_steps : rl_lin s = true -> forall b, In b (rl_il s) -> i_step b <= i_step (rl_base s)
     /\ (i_step b = i_step (rl_base s) -> exists k, (0 <= k)%Z /\ i_lo b = rl_lo s + IZR k * i_step (rl_base s)) }.

Lemma new_inv : forall lo hi n lin, (2 <= n)%Z -> lo <> hi -> (lin = false -> 0 < lo /\ 0 < hi) ->
  exists s, new_rlist lo hi n lin = Ok s /\ inv s /\ rl_lin s = lin /\ rl_pos s = Rltb lo hi
    /\ rl_lo s = Rmin lo hi /\ rl_hi s = Rmax lo hi /\ i_n (rl_base s) = n.
Proof.
  intros lo hi n lin Hn N H0. unfold new_rlist. replace (Z.leb n 1) with false by (symmetry; apply Z.leb_gt; lia).
  replace (Reqb lo hi) with false by (symmetry; apply Reqb_false; auto).
  set (t := if Rltb lo hi then _ else _).
  assert (t = (Rltb lo hi, Rmin lo hi, Rmax lo hi)) as Et.
  { unfold t. destruct (Rltb lo hi) eqn:E; rb; [rewrite Rmin_left, Rmax_right by lra|rewrite Rmin_right, Rmax_left by lra]; reflexivity. }
  rewrite Et. clear t Et. set (l := Rmin lo hi). set (h := Rmax lo hi).
  assert (l < h) as Hlh. { unfold l, h. unfold Rmin, Rmax. destruct (Rle_dec lo hi); lra. }
  assert (lin = false -> 0 < l /\ 0 < h /\ 0 < lo * hi) as H1.
  { intros L. destruct (H0 L) as [A B]. unfold l, h. split; [now apply Rmin_glb_lt|]. split; [apply Rlt_le_trans with lo; [auto|apply Rmax_l]|].
    now apply Rmult_lt_0_compat. }
  assert (exists b, mk_ival l h n lin = Ok b /\ okiv b /\ i_lo b = l /\ i_hi b = h /\ i_n b = n /\ i_lin b = lin) as (b & Eb & Ob & B1 & B2 & B3 & B4).
  { destruct lin.
    - destruct (mk_ival_ok l h n Hlh Hn) as (b & P); exists b; tauto.
    - unfold mk_ival. replace (Z.leb n 1) with false by (symmetry; apply Z.leb_gt; lia). destruct (H1 eq_refl) as (A & B & _).
      replace (Rleb (l * h) 0) with false by (symmetry; apply Rleb_false; assert (0 < l * h) by (now apply Rmult_lt_0_compat); lra).
      eexists. split; [reflexivity|]. pose proof (IZR_ge1 n Hn). unfold okiv. cbn. repeat split; auto.
      apply Rdiv_lt_0_compat; [apply ln_ratio_pos; auto|lra]. }
  replace (negb lin && Rleb (lo * hi) 0) with false.
  2:{ symmetry. destruct lin; auto. destruct (H1 eq_refl) as (_ & _ & P). cbn. apply Rleb_false. lra. }
  rewrite Eb. eexists. split; [reflexivity|].
  match goal with |- ?A /\ ?B => cut A; [intros HA; split; [exact HA|]; cbn; tauto|] end.
  constructor; cbn [rl_lo rl_hi rl_lin rl_il rl_npts rl_cum rl_base]; auto.
  - intros L. now apply H1.
  - rewrite <- B1, <- B2. now apply tiling_one.
  - right. exists b. auto.
  - unfold count_points, steps_in. cbn [map fold_right cums removelast app]. rewrite B3. lia.
  - unfold cum_of, count_points, steps_in. cbn [map fold_right cums removelast app]. rewrite B3. f_equal. lia.
  - intros L c [<-|[]]. split; [lra|]. intros _. exists 0%Z. split; [lia|]. lra.
Qed.

Lemma split_two : forall {A} (pre1 pre2 : list A) a b post1 post2, pre1 ++ a :: post1 = pre2 ++ b :: post2 ->
  (length pre1 < length pre2)%nat -> exists mid, pre2 = pre1 ++ a :: mid /\ post1 = mid ++ b :: post2.
Proof.
  induction pre1 as [|c pre1 IH]; intros pre2 a b post1 post2 E H; destruct pre2 as [|d pre2]; cbn in *; try lia.
  - inversion E; subst. exists pre2. auto.
  - inversion E; subst. destruct (IH pre2 a b post1 post2) as (mid & -> & ->); auto; [lia|]. exists mid. auto.
Qed.

Lemma split_same : forall {A} (pre1 pre2 : list A) a b post1 post2, pre1 ++ a :: post1 = pre2 ++ b :: post2 ->
  length pre1 = length pre2 -> pre1 = pre2 /\ a = b /\ post1 = post2.
Proof.
  induction pre1 as [|c pre1 IH]; intros pre2 a b post1 post2 E H; destruct pre2 as [|d pre2]; cbn in *; try lia.
  - inversion E; auto.
  - inversion E; subst. destruct (IH pre2 a b post1 post2) as (-> & -> & ->); auto.
Qed.

(** What one update does to a list. *)
Definition same_frame (s s' : rlist) : Prop :=
  rl_pos s' = rl_pos s /\ rl_lin s' = rl_lin s /\ rl_lo s' = rl_lo s /\ rl_hi s' = rl_hi s /\ rl_base s' = rl_base s.
Definition no_coarser (l l' : list ival) : Prop :=
  forall b x, In b l' -> contains b x -> exists a, In a l /\ contains a x /\ i_step b <= i_step a.

Lemma derived_no_coarser : forall l l1 l2, (forall b, In b l1 -> derived true l b) -> merged l1 l2 -> no_coarser l l2.
Proof.
  intros l l1 l2 D (_ & _ & _ & P & _) b x Hb Cx. destruct (P b x Hb Cx) as (c & Hc & Cc & E).
  destruct (D c Hc) as (a & Ha & [I1 I2] & C). exists a. split; auto. unfold contains in *. split; [lra|].
  rewrite <- E. destruct (C eq_refl) as [H|[H _]]; lra.
Qed.

Lemma no_coarser_refl : forall l, no_coarser l l.
Proof. intros l b x Hb Cx. exists b. split; auto. split; auto. lra. Qed.
Lemma no_coarser_trans : forall a b c, no_coarser a b -> no_coarser b c -> no_coarser a c.
Proof.
  intros a b c H1 H2 x y Hx Cx. destruct (H2 x y Hx Cx) as (u & Hu & Cu & Lu). destruct (H1 u y Hu Cu) as (v & Hv & Cv & Lv).
  exists v. split; auto. split; auto. lra.
Qed.

(** Merging an intermediate list gives a good state again. *)
Lemma finish : forall s l lo hi step, inv s ->
  premerge (rl_lin s) (rl_lo s) (rl_hi s) (rl_il s) l lo hi step ->
  exists s', merge (with_il l s) = (s', Ok tt) /\ inv s' /\ same_frame s s' /\ adjacent_differ (rl_il s')
    /\ (rl_lin s = true -> no_coarser (rl_il s) (rl_il s'))
    /\ (rl_lin s = true -> forall b x, In b (rl_il s') -> contains b x -> lo <= x < hi -> i_step b <= step).
Proof.
  intros s l lo hi step I (N & T & F & D & C).
  destruct (merge_spec (with_il l s) (rl_lo s) (rl_hi s)) as (l' & E & M & Ad); auto.
  exists (upd (with_il l s) l'). split; [exact E|]. pose proof M as (M1 & M2 & M3 & M4 & M5). cbn [rl_il with_il] in M, M1, M2, M3, M4, M5. split; [|split; [|split; [exact Ad|split]]].
  - constructor; cbn [upd with_il rl_lo rl_hi rl_lin rl_il rl_npts rl_cum rl_base]; auto; try apply I.
    + rewrite Forall_forall in *. intros a Ha. now apply M2.
    + left. rewrite Forall_forall in *. intros a Ha. now apply M2.
    + intros L b Hb. destruct (M5 b Hb) as (c & Hc & Lc & Sc). destruct (D c Hc) as (a & Ha & _ & Ca).
      destruct (inv_steps s I L a Ha) as [S1 S2]. specialize (Ca L). split; [destruct Ca as [Ca|[Ca _]]; lra|].
      intros Eb. destruct Ca as [Ca|[Ca (k & K0 & K)]]; [lra|].
      destruct (S2 ltac:(lra)) as (j & J0 & J). exists (j + k)%Z. split; [lia|].
      rewrite plus_IZR, <- Lc, K, J. replace (i_step a) with (i_step (rl_base s)) by lra. lra.
  - repeat split; reflexivity.
  - intros L. rewrite L in D. eapply derived_no_coarser; eauto.
  - intros L b x Hb Cx Hx. destruct (M4 b x Hb Cx) as (c & Hc & Cc & Ec). rewrite <- Ec. eapply C; eauto.
Qed.

Lemma step_size_pos : forall lin lo hi n, (lin = false -> 0 < lo) -> lo < hi -> (2 <= n)%Z -> 0 < step_size lin lo hi n.
Proof.
  intros lin lo hi n H0 H Hn. pose proof (IZR_ge1 n Hn). unfold step_size. fold (span lin lo hi).
  apply Rdiv_lt_0_compat; [now apply span_pos|lra].
Qed.

Lemma update_spec : forall lo hi n s, inv s -> (1 <= n)%Z ->
  let '(s', r) := update lo hi n s in
  inv s' /\ same_frame s s' /\ (rl_lin s = true -> no_coarser (rl_il s) (rl_il s'))
  /\ (rl_pos s = true -> (2 <= n)%Z -> Rmax lo (rl_lo s) < Rmin hi (rl_hi s) -> r = Ok tt
      /\ (rl_lin s = true ->
          let want := (Rmin hi (rl_hi s) - Rmax lo (rl_lo s)) / (IZR n - 1) in
          i_step (rl_base s) < 5 * want ->
          forall b x, In b (rl_il s') -> contains b x -> Rmax lo (rl_lo s) <= x < Rmin hi (rl_hi s) -> i_step b <= want)).
Proof.
  intros lo0 hi0 n s I Hn. unfold update.
  set (lo := if rl_pos s then Rmax lo0 (rl_lo s) else Rmax hi0 (rl_lo s)).
  set (hi := if rl_pos s then Rmin hi0 (rl_hi s) else Rmin lo (rl_hi s)).
  assert (inv s /\ same_frame s s /\ (rl_lin s = true -> no_coarser (rl_il s) (rl_il s))) as Same.
  { split; auto. split; [repeat split; auto|]. intros. apply no_coarser_refl. }
  destruct (Rleb hi lo) eqn:E; rb.
  { destruct Same as (A & B & C). repeat (split; [assumption|]). intros P _ H. exfalso. unfold hi, lo in E. rewrite P in E. lra. }
  destruct (Z.eqb_spec n 1) as [->|N1].
  { destruct (rl_lin s); destruct Same as (A & B & C); repeat (split; [assumption|]); intros P H; lia. }
  assert (rl_pos s = true) as P.
  { destruct (rl_pos s) eqn:P; auto. exfalso. unfold hi in E. pose proof (Rmin_l lo (rl_hi s)). lra. }
  unfold lo in *. unfold hi in *. clear lo hi. rewrite P in *. set (lo := Rmax lo0 (rl_lo s)) in *. set (hi := Rmin hi0 (rl_hi s)) in *.
  assert (rl_lo s <= lo) as Hlo by apply Rmax_r. assert (hi <= rl_hi s) as Hhi by apply Rmin_r.
  assert (2 <= n)%Z as Hn2 by lia. pose proof (inv_tiling s I) as T.
  destruct (first_such_lo (rl_il s) (rl_lo s) (rl_hi s) lo 0 T) as (nlo & a & Ea); [lra|].
  destruct (first_such_hi (rl_il s) (rl_lo s) (rl_hi s) hi 0 T) as (nhi & b & Eb); [lra|].
  rewrite Ea, Eb. apply first_such_split in Ea as (pre1 & post1 & S1 & -> & Pa). apply first_such_split in Eb as (pre2 & post2 & S2 & -> & Pb).
  apply andb_true_iff in Pa as [A1 A2]. apply andb_true_iff in Pb as [B1 B2]. rb. cbn [Nat.add].
  assert (In a (rl_il s)) as Ia by (rewrite S1; apply in_or_app; right; left; auto).
  assert (In b (rl_il s)) as Ib by (rewrite S2; apply in_or_app; right; left; auto).
  pose proof (inv_ok s I) as F. assert (okiv a) as Oa by (rewrite Forall_forall in F; auto). assert (okiv b) as Ob by (rewrite Forall_forall in F; auto).
  destruct (locate_in a lo Oa) as (i & ll & lh & El & Hi & Hll & Hlh & HLa); [lra|].
  destruct (locate_hi b hi Ob) as (j & hl & hh & Eh & Hh & HLb); [lra|]. rewrite El, Eh.
  set (hi' := if negb (Reqb hi hl) then hh else hi) in *.
  set (want := step_size (rl_lin s) lo hi n).
  set (n' := if Rltb (lh - ll) (5 * want) then num_pts (rl_lin s) ll hi' want else n).
  set (step := step_size (rl_lin s) ll hi' n').
  assert (rl_lin s = false -> 0 < ll) as H0.
  { intros L. pose proof (inv_pos s I L). pose proof (tiling_in _ _ _ _ T Ia). lra. }
  assert (rl_lin s = false -> 0 < lo) as H0'.
  { intros L. specialize (H0 L). lra. }
  assert (0 < want) as W by (apply step_size_pos; auto; lra).
  destruct (num_pts_spec (rl_lin s) ll hi' want) as [NP1 NP2]; [apply span_pos; auto; lra|auto|].
  assert (2 <= n')%Z as Hn'. { unfold n'. destruct (Rltb _ _); auto. }
  assert (0 < step) as Hs by (apply step_size_pos; auto; lra).
  assert (rl_lin s = true -> i_lin a = true) as La.
  { intros L. destruct (inv_kind s I) as [K|(c & K & Lc)]; [rewrite Forall_forall in K; auto|]. rewrite K in Ia. destruct Ia as [<-|[]]. congruence. }
  assert (rl_lin s = true -> i_step (rl_base s) < 5 * want -> step <= want) as Res.
  { intros L H. unfold step, n'. replace (Rltb (lh - ll) (5 * want)) with true; [exact NP2|]. symmetry. apply Rltb_spec.
    destruct (HLa (La L)) as [_ ->]. destruct (inv_steps s I L a Ia) as [H1 _]. lra. }
  assert (rl_lin s = true -> want = (hi - lo) / (IZR n - 1)) as EW by (unfold want, step_size; intros ->; reflexivity).
  (* what remains is to find the intermediate list *)
  assert (forall s' r, (exists l, (s', r) = merge (with_il l s) /\ premerge (rl_lin s) (rl_lo s) (rl_hi s) (rl_il s) l ll hi' step) ->
    inv s' /\ same_frame s s' /\ (rl_lin s = true -> no_coarser (rl_il s) (rl_il s')) /\
    (true = true -> (2 <= n)%Z -> lo < hi -> r = Ok tt /\ (rl_lin s = true ->
       let want := (hi - lo) / (IZR n - 1) in i_step (rl_base s) < 5 * want ->
          forall b x, In b (rl_il s') -> contains b x -> lo <= x < hi -> i_step b <= want))) as Done.
  { intros s' r (l & Em & PM). destruct (finish s l ll hi' step I PM) as (s1 & E1 & I1 & F1 & _ & N2 & C1). rewrite E1 in Em.
    inversion Em; subst s' r. repeat (split; [assumption|]). intros _ _ _. split; [reflexivity|]. intros L w Hw c x Hc Cx Hx.
    unfold w in *. rewrite <- EW in Hw |- * by auto. apply Rle_trans with step; [|auto]. apply (C1 L c x); auto. lra. }
  destruct (Nat.eqb_spec (length pre1) (length pre2)) as [EN|NN].
  - rewrite S2 in S1. destruct (split_same _ _ _ _ _ _ S1 (eq_sym EN)) as (-> & -> & ->).
    destruct (Req_dec 0 0) as [_|]; [|lra].
    assert (exists j', i_lin a = true -> hi' = i_lo a + IZR j' * i_step a) as (j' & Ej).
    { destruct (i_lin a) eqn:Lin; [|exists 0%Z; discriminate]. destruct (HLb eq_refl) as (j' & _ & Ej). exists j'. auto. }
    destruct (update_inside_spec (rl_lin s) (rl_lo s) (rl_hi s) pre1 a post1 s ll hi' n' step i j') as [[U1 U2]|(U1 & l & U2 & U3)]; auto.
    + rewrite S2 in F. 
      destruct (inv_kind s I) as [K|(c & K & Lc)].
      * rewrite S2 in K. apply Forall_app in K as [K1 K2]. inversion K2; subst. apply Forall_app. auto.
      * rewrite S2 in K. destruct pre1 as [|p pre1]; [|destruct pre1; discriminate]. inversion K; subst. constructor.
    + apply I.
    + lra.
    + lra.
    + lra.
    + intros L. apply (proj1 (HLa L)).
    + unfold step, step_size. intros ->. reflexivity.
    + rewrite U2. destruct Same as (A & B & C). repeat (split; [assumption|]). intros _ _ _. split; [reflexivity|].
      intros L Hw c x Hc Cx Hx. rewrite <- EW in Hw |- * by auto.
      assert (c = a) as ->. { apply (tiling_unique _ _ _ c a x T); auto. unfold contains. lra. }
      specialize (Res L Hw). lra.
    + rewrite U2. destruct (merge (with_il l s)) as [s' r] eqn:Em. apply Done. exists l. auto.
  - assert (length pre1 < length pre2)%nat as HL.
    { destruct (lt_dec (length pre1) (length pre2)) as [H|H]; auto. exfalso. rewrite S2 in S1.
      destruct (split_two _ _ _ _ _ _ S1) as (mid & -> & ->); [lia|]. rewrite S2 in T.
      apply tiling_app in T as (m & _ & T). cbn in T. destruct T as (_ & _ & _ & T). apply tiling_app in T as (m2 & T1 & T2). cbn in T2.
      destruct T2 as (T2 & _). apply tiling_le in T1. lra. }
    pose proof S1 as S3. rewrite S2 in S3. symmetry in S3. destruct (split_two _ _ _ _ _ _ S3 HL) as (mid & Epre & Epost). subst pre2 post1.
    assert (Forall (fun a => okiv a /\ i_lin a = true) (rl_il s)) as F2.
    { destruct (inv_kind s I) as [K|(c & K & Lc)]; [rewrite Forall_forall in *; auto|].
      rewrite K in S1. destruct pre1 as [|p pre1]; [destruct mid; discriminate|destruct pre1; discriminate]. }
    assert (i_lin a = true /\ i_lin b = true) as [LA LB] by (rewrite Forall_forall in F2; split; now apply F2).
    destruct (HLb LB) as (j' & _ & Ej).
    destruct (update_across_spec (rl_lin s) (rl_lo s) (rl_hi s) pre1 a mid b post2 s ll hi' step i j') as (l & U1 & U2); auto; try lra.
    + apply I.
    + apply (proj1 (HLa LA)).
    + rewrite U1. destruct (merge (with_il l s)) as [s' r] eqn:Em. apply Done. exists l. auto.
Qed.

Lemma frame_trans : forall a b c, same_frame a b -> same_frame b c -> same_frame a c.
Proof. unfold same_frame. intros a b c (A1 & A2 & A3 & A4 & A5) (B1 & B2 & B3 & B4 & B5). repeat split; congruence. Qed.

Lemma updates_inv : forall reqs s, inv s -> Forall (fun r => (1 <= snd r)%Z) reqs ->
  inv (updates reqs s) /\ same_frame s (updates reqs s) /\ (rl_lin s = true -> no_coarser (rl_il s) (rl_il (updates reqs s))).
Proof.
  induction reqs as [|[[lo hi] n] reqs IH]; intros s I F; cbn [updates].
  - split; auto. split; [repeat split|]. intros. apply no_coarser_refl.
  - inversion F as [|? ? F1 F2]; subst. cbn in F1. pose proof (update_spec lo hi n s I F1) as U.
    destruct (update lo hi n s) as [s1 r]. destruct U as (I1 & Fr & N & _). cbn [fst].
    destruct (IH s1 I1 F2) as (I2 & Fr2 & N2). split; auto. split; [eapply frame_trans; eauto|].
    intros L. eapply no_coarser_trans; [apply N, L|]. apply N2. destruct Fr as (_ & -> & _). exact L.
Qed.

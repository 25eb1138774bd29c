(** Lemmas on KMESTM *)

From Coq Require Import List Bool Arith ZArith Reals Lra Lia Permutation.
From Verif Require Import Exn Instances McModel BaModel KmModel KmSpec KmLemmas KmLemmas2 KmLemmas3 KmLemmas4 KmLemmas5 KmLemmas6.
Import ListNotations.
Open Scope R_scope.

Lemma of_list_all A (d : A) l : map (of_list d l) (seq 1 (length l)) = l.
Proof.
  apply nth_ext with d d; [now rewrite map_length, seq_length|]. intros i Hi. rewrite map_length, seq_length in Hi.
  rewrite (nth_indep _ d (of_list d l 0%nat)) by (now rewrite map_length, seq_length). rewrite map_nth, seq_nth by easy.
  unfold of_list. f_equal. lia.
Qed.
Lemma filter_map A B (f : A -> B) (p : B -> bool) l : filter p (map f l) = map f (filter (fun a => p (f a)) l).
Proof. induction l as [|a l IH]; [easy|]. cbn [map filter]. destruct (p (f a)); cbn [map]; now rewrite IH. Qed.
Lemma map_pairs A B (f : nat -> A) (g : nat -> B) l : map (fun i => (f i, g i)) l = combine (map f l) (map g l).
Proof. induction l as [|a l IH]; [easy|]. cbn [map combine]. now rewrite IH. Qed.

Lemma pick_kept b isave xt n : pick b isave xt n = kept b (map isave (seq 1 n)) (map xt (seq 1 n)).
Proof. unfold pick, kept. rewrite <- map_pairs, filter_map, map_map. easy. Qed.
Lemma kept_map b f ind x : kept b ind (map f x) = map f (kept b ind x).
Proof.
  unfold kept. revert x. induction ind as [|i ind IH]; intros x; [easy|]. destruct x as [|y x]; [easy|]. cbn [map combine filter fst].
  destruct (Bool.eqb _ b); cbn [map snd]; now rewrite IH.
Qed.
Lemma kept_all ind x : length ind = length x -> Permutation x (kept true ind x ++ kept false ind x).
Proof.
  revert x. induction ind as [|i ind IH]; intros [|y x] E; cbn [length] in E; try easy.
  unfold kept. cbn [combine filter fst]. destruct (i =? 0)%Z; cbn [Bool.eqb map snd app].
  - apply perm_skip. apply IH. lia.
  - apply Permutation_cons_app. apply IH. lia.
Qed.

Definition sign_is (s : Z) (ind : list Z) : Prop :=
  s = 1%Z /\ (forall i, In i ind -> (0 <= i)%Z) \/ s = (-1)%Z /\ (forall i, In i ind -> (i <= 0)%Z) /\ (exists i, In i ind /\ (i < 0)%Z).

Lemma sign_fold (l : list Z) : forall a, 
  let s := fold_left (fun s i => if (i =? 0)%Z then s else Z.sgn i) l a in
  s = a \/ exists i, In i l /\ i <> 0%Z /\ s = Z.sgn i.
Proof.
  induction l as [|i l IH]; intros a; cbn [fold_left]; [now left|]. cbv zeta in *.
  destruct (Z.eqb_spec i 0) as [->|N].
  - destruct (IH a) as [E|(j & J & J2 & J3)]; [now left|]. right. exists j. split; [now right | now split].
  - right. destruct (IH (Z.sgn i)) as [E|(j & J & J2 & J3)]; [exists i; split; [now left | now split]|]. exists j. split; [now right | now split].
Qed.
Lemma sign_fold_map (f : nat -> Z) l a : fold_left (fun s i => if (f i =? 0)%Z then s else Z.sgn (f i)) l a = fold_left (fun s i => if (i =? 0)%Z then s else Z.sgn i) (map f l) a.
Proof. revert a. induction l as [|i l IH]; intros a; [easy|]. cbn [fold_left map]. apply IH. Qed.
Lemma forallb_map A (p : Z -> bool) (f : A -> Z) l : forallb (fun i => p (f i)) l = forallb p (map f l).
Proof. induction l as [|i l IH]; [easy|]. cbn. now rewrite IH. Qed.

Lemma sign_some s ind : sign_is s ind -> xvar_sign (length ind) (of_list 0%Z ind) = Some s.
Proof.
  intros H. unfold xvar_sign. rewrite sign_fold_map.
  rewrite (forallb_map _ (fun i => (i =? 0)%Z || (Z.sgn i =? _)%Z)). rewrite !of_list_all.
  set (g := fold_left _ ind 1%Z). assert (E : g = s).
  { destruct H as [[-> H]|(-> & H & i & I1 & I2)].
    - destruct (sign_fold ind 1) as [E|(j & J & J2 & J3)]; [exact E|]. unfold g. rewrite J3. specialize (H j J). apply Z.sgn_pos. lia.
    - assert (X : forall l a, In i l -> (forall i, In i l -> (i <= 0)%Z) -> fold_left (fun s i => if (i =? 0)%Z then s else Z.sgn i) l a = (-1)%Z).
      { clear -I2. induction l as [|j l IH]; intros a I1 H; [easy|]. cbn [fold_left]. destruct I1 as [->|I1]; [|apply IH; [easy | intros; apply H; now right]].
        destruct (Z.eqb_spec i 0) as [Z0|Z0]; [lia|]. destruct (sign_fold l (Z.sgn i)) as [E|(j & J & J2 & J3)]; [rewrite E; apply Z.sgn_neg; lia|].
        rewrite J3. apply Z.sgn_neg. specialize (H j (or_intror J)). lia. }
      now apply X. }
  rewrite E. clear E. replace (forallb _ ind) with true; [easy|]. symmetry. apply forallb_forall. intros i Hi.
  destruct (Z.eqb_spec i 0) as [Z0|Z0]; [easy|]. cbn [orb]. apply Z.eqb_eq.
  destruct H as [[-> H]|(-> & H & _)]; specialize (H i Hi); [apply Z.sgn_pos | apply Z.sgn_neg]; lia.
Qed.
Lemma sign_none ind i j : In i ind -> In j ind -> (0 < i)%Z -> (j < 0)%Z -> xvar_sign (length ind) (of_list 0%Z ind) = None.
Proof.
  intros Hi Hj Pi Pj. unfold xvar_sign. rewrite sign_fold_map.
  rewrite (forallb_map _ (fun i => (i =? 0)%Z || (Z.sgn i =? _)%Z)). rewrite !of_list_all.
  set (g := fold_left _ ind 1%Z). destruct (forallb _ ind) eqn:E; [|easy]. rewrite forallb_forall in E.
  assert (A := E i Hi). assert (B := E j Hj). apply orb_prop in A, B.
  destruct A as [A|A], B as [B|B]; apply Z.eqb_eq in A, B; try lia.
Qed.

Definition kindly (s : Z) (found limits : list R) (z a b : R) : Prop :=
  if (s =? 1)%Z then good_up found limits z a b else good_down found limits z a b.

Lemma kmestm_ok s ind x fuel m_u m_c m_s m_v w : length ind = length x -> sign_is s ind ->
  let y := map (Rmult (IZR s)) x in
  let found := kept true ind y in
  let limits := kept false ind y in
  let p := length (points found limits) in
  found <> [] -> (length x < w)%nat -> (forall t, In t y -> t < m_u w) -> (w + 2 <= fuel)%nat ->
  (forall t, events found limits = [t] -> m_u 2%nat <> t /\ m_u 2%nat <> IZR s * t) ->
  exists k, kmestm fuel (length x) (of_list 0%Z ind) (of_list 0 x) m_u m_c m_s m_v = Ok (Some k) /\
    k_nu k = (Z.of_nat p - Z.of_nat (length (filter (topmost found limits) limits)))%Z /\
    k_nc k = Z.of_nat (length limits) /\
    lists_all (map (Rmult (IZR s)) (points found limits)) (k_zu k) p /\
    (forall i, (1 <= i <= p)%nat -> kindly s found limits (k_zu k i) (k_s k i) (k_v k i)) /\
    k_mean k = IZR s * mean found limits /\ k_error k = sqrt (mean_var found limits) /\
    exists c, incr c (length limits) /\ Permutation limits (map c (seq 1 (length limits))) /\
      k_zc k = if (s =? 1)%Z then c else turn (length limits - length (filter (topmost found limits) limits)) c.
Proof.
  intros EL HS y found limits p HF Hw Hwu Hfu Hone. set (n := length x) in *.
  unfold kmestm. replace (xvar_sign n (of_list 0%Z ind)) with (Some s) by (symmetry; rewrite <- EL; now apply sign_some).
  set (xt0 := fun i => if ((1 <=? i) && (i <=? n))%nat then IZR s * of_list 0 x i else 0).
  assert (Y : map xt0 (seq 1 n) = y).
  { unfold y. transitivity (map (fun i => IZR s * of_list 0 x i) (seq 1 n)).
    - apply map_ext_in. intros i Hi. apply in_seq in Hi. unfold xt0. replace ((1 <=? i) && (i <=? n))%nat with true; [easy|].
      symmetry. apply andb_true_iff. split; apply Nat.leb_le; lia.
    - rewrite <- (map_map (of_list 0 x) (Rmult (IZR s))). unfold n. now rewrite of_list_all. }
  destruct (sort1_ok Z n (of_list 0%Z ind, xt0)) as (PP & IN & _). cbn [fst snd] in PP.
  destruct (sort1 n (of_list 0%Z ind, xt0)) as [isave xt]. cbn [fst snd] in *.
  rewrite (map_pairs _ _ (of_list 0%Z ind) xt0), Y in PP. replace n with (length ind) in PP at 1 by easy. rewrite of_list_all in PP.
  assert (PK : forall b, Permutation (kept b ind y) (pick b isave xt n)).
  { intros b. rewrite pick_kept. unfold kept. rewrite <- map_pairs. apply Permutation_map. apply filter_perm. exact PP. }
  destruct (split_ok n isave xt m_u m_c) as (sp & SP & IU & ZU & IC & ZC & FAR). rewrite SP.
  set (lu := pick true isave xt n) in *. set (lc := pick false isave xt n) in *.
  assert (HZ : forall b l m, l = pick b isave xt n -> holds l m -> incr m (length l)).
  { intros b l m El Hm i j Hi Hj. rewrite !Hm by lia. apply (proj1 (pick_incr b isave xt n IN l El)). lia. }
  assert (Iu := HZ true lu _ eq_refl ZU). assert (Ic := HZ false lc _ eq_refl ZC). rewrite <- IU in Iu. rewrite <- IC in Ic.
  assert (Su := sort1_incr _ _ Iu). assert (Sc := sort1_incr _ _ Ic).
  set (zu := snd (sort1 (x_iu sp) (fun _ => tt, x_zu sp))) in *. set (zc := snd (sort1 (x_ic sp) (fun _ => tt, x_zc sp))) in *.
  assert (Mu : map zu (seq 1 (x_iu sp)) = lu).
  { rewrite IU. rewrite <- (holds_map lu (x_zu sp) ZU) at 2. apply map_ext_in. intros i Hi. apply in_seq in Hi. apply Su. lia. }
  assert (Mc : map zc (seq 1 (x_ic sp)) = lc).
  { rewrite IC. rewrite <- (holds_map lc (x_zc sp) ZC) at 2. apply map_ext_in. intros i Hi. apply in_seq in Hi. apply Sc. lia. }
  assert (Iu2 : incr zu (x_iu sp)) by (intros i j Hi Hj; rewrite !Su by lia; apply Iu; lia).
  assert (Ic2 : incr zc (x_ic sp)) by (intros i j Hi Hj; rewrite !Sc by lia; apply Ic; lia).
  assert (Pu : Permutation found (map zu (seq 1 (x_iu sp)))) by (rewrite Mu; apply PK).
  assert (Pc : Permutation limits (map zc (seq 1 (x_ic sp)))) by (rewrite Mc; apply PK).
  assert (Lu : x_iu sp = length found) by (rewrite IU; symmetry; apply Permutation_length; apply PK).
  assert (Lc : x_ic sp = length limits) by (rewrite IC; symmetry; apply Permutation_length; apply PK).
  assert (EY : length ind = length y) by (unfold y; now rewrite map_length).
  assert (KA := kept_all ind y EY). fold found limits in KA.
  assert (LL : (length found + length limits = n)%nat).
  { apply Permutation_length in KA. rewrite app_length in KA. unfold y in KA. rewrite map_length in KA. easy. }
  assert (Far : forall k, (x_iu sp < k)%nat -> zu k = m_u k) by (intros k Hk; rewrite Su by lia; now apply FAR).
  assert (NU : (1 <= x_iu sp)%nat) by (rewrite Lu; destruct found; [easy | cbn [length]; lia]).
  assert (ONE : length (events found limits) = 1%nat -> zu 2%nat = m_u 2%nat /\ events found limits = [zu 1%nat]).
  { intros E. assert (LE := E). unfold events in LE. rewrite app_length in LE. assert (X1 : x_iu sp = 1%nat) by lia.
    split; [apply Far; lia|]. unfold events in *. destruct (filter _ limits); [|cbn [length] in LE; lia]. rewrite app_nil_r in *.
    rewrite X1 in Pu. cbn [seq map] in Pu. now apply Permutation_sym, Permutation_length_1_inv in Pu. }
  destruct (plest_ok found limits fuel n zu zc (x_iu sp) (x_ic sp) m_s m_v w NU ltac:(lia) Iu2 Ic2 Pu Pc ltac:(lia)) as
    (e & PE & T & E1 & E2 & E3 & EV & DA & UI & LA & F1 & F2 & SV & ME & SI).
  { intros t Ht. rewrite Far by lia. apply Hwu. now apply (Permutation_in _ (Permutation_sym KA)). }
  { lia. }
  { intros E. destruct (ONE E) as [O1 O2]. rewrite O1. now apply (Hone _ O2). }
  rewrite PE. set (t := length (filter (topmost found limits) limits)) in *.
  assert (LE : length (events found limits) = (x_iu sp + t)%nat) by (rewrite (Permutation_length EV), map_length, seq_length; easy).
  assert (O : (x_iu sp + t)%nat = 1%nat -> e_u e 2%nat <> e_u e 1%nat /\ e_u e 2%nat <> IZR s * e_u e 1%nat).
  { intros E. rewrite <- LE in E. destruct (ONE E) as [O1 O2]. rewrite F1, F2 by lia. rewrite O1. now apply (Hone _ O2). }
  assert (AD : exists a, kmadj (e_u e) zc (e_nu e) (e_nc e) (e_s e) (e_v e) s = Ok (a, if (s =? 1)%Z then zc else turn (e_nc e) zc) /\
     neat (kindly s found limits) (fun t => In t (map (Rmult (IZR s)) (points found limits))) a (a_iu a)).
  { rewrite E1, E2. destruct HS as [[-> _]|(-> & _)]; cbn [Z.eqb Pos.eqb].
    - destruct (adj_up found limits (e_u e) zc (x_iu sp + t) (x_ic sp - t) ltac:(lia) EV DA UI LA (fun H => proj1 (O H)) (e_s e) (e_v e)
        (fun i Hi => proj1 (SV i Hi)) (fun i Hi => proj2 (SV i Hi)) zc (x_ic sp - t)%nat) as (a & A1 & A2).
      exists a. split; [exact A1|]. replace (map (Rmult 1) (points found limits)) with (points found limits); [exact A2|].
      rewrite <- (map_id (points found limits)) at 1. apply map_ext. intros. lra.
    - destruct (adj_down found limits (e_u e) zc (x_iu sp + t) (x_ic sp - t) ltac:(lia) EV DA UI LA (fun H => proj1 (O H)) (e_s e) (e_v e)
        (fun i Hi => proj1 (SV i Hi)) (fun i Hi => proj2 (SV i Hi)) zc (x_ic sp - t)%nat) as (a & A1 & A2).
      { intros H. destruct (O H) as [_ O2]. intros H2. apply O2. rewrite H2. lra. }
      exists a. split; [exact A1|]. replace (map (Rmult (-1)) (points found limits)) with (map Ropp (points found limits)); [exact A2|].
      apply map_ext. intros. lra. }
  destruct AD as (a & A1 & A2). rewrite A1. eexists. split; [reflexivity|]. cbn [k_nu k_nc k_zu k_s k_v k_mean k_error k_zc].
  assert (LS := neat_lists _ _ _ A2).
  assert (NP : a_iu a = p).
  { unfold p. rewrite (lists_length _ _ _) with (2 := LS); [apply map_length|]. apply FinFun.Injective_map_NoDup; [|apply NoDup_nodup].
    intros a1 a2. destruct HS as [[-> _]|(-> & _)]; intros; lra. }
  rewrite NP in *. rewrite E2, E3, ME, SI, Lc. split; [easy|]. split; [rewrite Lc in T; lia|]. split; [exact LS|]. split.
  { destruct A2 as (_ & _ & A3 & A4 & _). rewrite NP in A4. intros i Hi. apply A4; [exact Hi|]. destruct (Nat.eq_dec i p) as [->|N]; [now left|].
    right. apply A3. lia. }
  split; [easy|]. split; [easy|]. exists zc. rewrite <- Lc. now split.
Qed.

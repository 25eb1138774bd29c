(** Lemmas on SORT1 and XVAR *)

From Coq Require Import List Bool Arith ZArith Reals Lra Lia Permutation.
From Verif Require Import Exn Instances McModel BaModel KmModel KmSpec.
Import ListNotations.
Open Scope R_scope.

Lemma put_eq A (m : nat -> A) i v : put m i v i = v.
Proof. unfold put. now rewrite Nat.eqb_refl. Qed.
Lemma put_ne A (m : nat -> A) i v k : k <> i -> put m i v k = m k.
Proof. intros H. unfold put. apply Nat.eqb_neq in H. now rewrite H. Qed.

Lemma Rltb_true a b : Rltb a b = true -> a < b.
Proof. unfold Rltb. destruct (Rlt_dec a b); easy. Qed.
Lemma Rltb_false a b : Rltb a b = false -> b <= a.
Proof. unfold Rltb. destruct (Rlt_dec a b); [easy | lra]. Qed.
Lemma Rleb_true a b : Rleb a b = true -> a <= b.
Proof. unfold Rleb. destruct (Rle_dec a b); easy. Qed.
Lemma Rleb_false a b : Rleb a b = false -> b < a.
Proof. unfold Rleb. destruct (Rle_dec a b); [easy | lra]. Qed.
Lemma Reqb_true a b : Reqb a b = true -> a = b.
Proof. unfold Reqb. destruct (Req_EM_T a b); easy. Qed.
Lemma Reqb_false a b : Reqb a b = false -> a <> b.
Proof. unfold Reqb. destruct (Req_EM_T a b); easy. Qed.

Definition swap (j k i : nat) : nat := if (i =? k)%nat then j else if (i =? j)%nat then k else i.
Lemma exchange_swap A (m : nat -> A) j k i : exchange m j k i = m (swap j k i).
Proof. unfold exchange, swap, put. destruct (i =? k)%nat; [easy|]. now destruct (i =? j)%nat. Qed.

(** Elements 1 to n moved among themselves *)
Definition moves {A} (n : nat) (s : nat -> nat) (st st' : (nat -> A) * mem) : Prop :=
  (forall k, (1 <= k <= n)%nat -> (1 <= s k <= n)%nat) /\
  (forall k, ~ (1 <= k <= n)%nat -> s k = k) /\
  (forall a b, s a = s b -> a = b) /\
  (forall k, fst st' k = fst st (s k)) /\ (forall k, snd st' k = snd st (s k)).
Lemma moves_refl A n (st : (nat -> A) * mem) : moves n (fun k => k) st st.
Proof. repeat split; intros; auto; lia. Qed.
Lemma moves_trans A n s1 s2 (a b c : (nat -> A) * mem) :
  moves n s1 a b -> moves n s2 b c -> moves n (fun k => s1 (s2 k)) a c.
Proof.
  intros (A1 & B1 & C1 & D1 & E1) (A2 & B2 & C2 & D2 & E2). repeat split.
  - apply A1, A2. easy.
  - apply A1, A2. easy.
  - intros k H. rewrite (B2 k H). auto.
  - intros x y H. auto.
  - intros k. now rewrite D2, D1.
  - intros k. now rewrite E2, E1.
Qed.
Lemma moves_more A n m s (a b : (nat -> A) * mem) : (n <= m)%nat -> moves n s a b -> moves m s a b.
Proof.
  intros L (A1 & B1 & C1 & D1 & E1).
  assert (H : forall k, (1 <= k <= m)%nat -> (1 <= s k <= m)%nat).
  { intros k K. destruct (le_lt_dec k n) as [G|G]; [assert (X := A1 k ltac:(lia)); lia | rewrite (B1 k) by lia; lia]. }
  split; [exact H|]. split; [intros k K; apply B1; lia|]. now repeat split.
Qed.
Lemma moves_swap A n j k (st : (nat -> A) * mem) : (1 <= j <= n)%nat -> (1 <= k <= n)%nat ->
  moves n (swap j k) st (exchange (fst st) j k, exchange (snd st) j k).
Proof.
  intros Hj Hk.
  assert (H : forall i, (1 <= i <= n)%nat -> (1 <= swap j k i <= n)%nat).
  { intros i Hi. unfold swap. destruct (i =? k)%nat; [lia|]. destruct (i =? j)%nat; lia. }
  split; [exact H|]. split.
  { intros i Hi. unfold swap. destruct (Nat.eqb_spec i k); [lia|]. destruct (Nat.eqb_spec i j); lia. }
  split.
  { intros a b. unfold swap. destruct (Nat.eqb_spec a k), (Nat.eqb_spec b k), (Nat.eqb_spec a j), (Nat.eqb_spec b j); lia. }
  split; intros i; apply exchange_swap.
Qed.

Lemma moves_perm A n s (a b : (nat -> A) * mem) : moves n s a b ->
  Permutation (map (fun i => (fst a i, snd a i)) (seq 1 n)) (map (fun i => (fst b i, snd b i)) (seq 1 n)).
Proof.
  intros (A1 & B1 & C1 & D1 & E1). symmetry.
  rewrite (map_ext (fun i => (fst b i, snd b i)) (fun i => (fun i => (fst a i, snd a i)) (s i))) by (intros i; now rewrite D1, E1).
  rewrite <- (map_map s (fun i => (fst a i, snd a i))). apply Permutation_map.
  apply NoDup_Permutation_bis.
  - apply FinFun.Injective_map_NoDup; [exact C1 | apply seq_NoDup].
  - rewrite map_length. lia.
  - intros x H. apply in_map_iff in H. destruct H as [y [<- H]]. apply in_seq in H. apply in_seq.
    assert (X := A1 y ltac:(lia)). lia.
Qed.

Lemma pass_at A (j m : nat) (st : (nat -> A) * mem) : (1 <= j)%nat -> (m <= j - 1)%nat ->
  let st' := fold_left (fun st k => let '(id, y) := st in if Rltb (y j) (y k) then (exchange id j k, exchange y j k) else st) (seq 1 m) st in
  (exists s, moves j s st st') /\ (forall k, (1 <= k <= m)%nat -> snd st' k <= snd st' j).
Proof.
  intros Hj. induction m as [|m IH]; intros Hm.
  - simpl. split; [exists (fun k => k); apply moves_refl | intros; lia].
  - cbv zeta. rewrite seq_S, fold_left_app.
    destruct (IH ltac:(lia)) as [[s M] B].
    match goal with |- context [fold_left ?f ?l st] => set (st1 := fold_left f l st) in * end. clearbody st1. destruct st1 as [id y]. cbn [fold_left].
    replace (1 + m)%nat with (S m) by lia. cbn [snd] in B.
    destruct (Rltb (y j) (y (S m))) eqn:E.
    + apply Rltb_true in E.
      assert (M2 : moves j (swap j (S m)) (id, y) (exchange id j (S m), exchange y j (S m))) by (apply (moves_swap A j j (S m) (id, y)); lia).
      split; [exists (fun k => s (swap j (S m) k)); now apply (moves_trans A j s (swap j (S m)) st (id, y))|].
      cbn [snd]. intros k K. rewrite !exchange_swap. unfold swap. rewrite Nat.eqb_refl.
      destruct (Nat.eqb_spec j (S m)); [lia|].
      destruct (Nat.eqb_spec k (S m)); [lra|]. destruct (Nat.eqb_spec k j); [lia|].
      assert (X := B k ltac:(lia)). lra.
    + apply Rltb_false in E. split; [now exists s|]. cbn [snd]. intros k K.
      destruct (Nat.eq_dec k (S m)) as [->|N]; [exact E | apply B; lia].
Qed.

Definition incr (y : mem) (n : nat) : Prop := forall i j, (1 <= i <= j)%nat -> (j <= n)%nat -> y i <= y j.

Lemma sort_at A n (st : (nat -> A) * mem) : forall t, (t <= n)%nat ->
  let st' := fold_left (fun st i => sort_pass (n - i + 1) st) (seq 1 t) st in
  (exists s, moves n s st st') /\
  (forall i k, (n - t < i <= n)%nat -> (1 <= k <= i)%nat -> snd st' k <= snd st' i).
Proof.
  induction t as [|t IH]; intros Ht.
  - simpl. split; [exists (fun k => k); apply moves_refl | intros; lia].
  - cbv zeta. rewrite seq_S, fold_left_app. cbn [fold_left].
    destruct (IH ltac:(lia)) as [[s M] B]. match goal with |- context [fold_left ?f ?l st] => set (st1 := fold_left f l st) in * end. clearbody st1.
    replace (n - (1 + t) + 1)%nat with (n - t)%nat by lia.
    destruct (pass_at A (n - t) (n - t - 1) st1 ltac:(lia) ltac:(lia)) as [[s2 M2] B2].
    change (fold_left _ (seq 1 (n - t - 1)) st1) with (sort_pass (n - t) st1) in *.
    split; [exists (fun k => s (s2 k)); apply (moves_trans A n s s2 st st1); [exact M | now apply moves_more with (n - t)%nat; [lia|]]|].
    intros i k Hi Hk. destruct (Nat.eq_dec i (n - t)) as [->|N].
    + destruct (Nat.eq_dec k (n - t)) as [->|N2]; [lra | apply B2; lia].
    + destruct M2 as (A2 & C2 & _ & _ & E2). rewrite !E2. rewrite (C2 i) by lia.
      destruct (le_lt_dec k (n - t)) as [L|L]; [assert (X := A2 k ltac:(lia)); apply B; lia | rewrite (C2 k) by lia; apply B; lia].
Qed.
Lemma sort1_ok A n (st : (nat -> A) * mem) :
  Permutation (map (fun i => (fst st i, snd st i)) (seq 1 n)) (map (fun i => (fst (sort1 n st) i, snd (sort1 n st) i)) (seq 1 n)) /\
  incr (snd (sort1 n st)) n /\
  (forall k, (n < k)%nat -> snd (sort1 n st) k = snd st k).
Proof.
  unfold sort1. destruct (Nat.eqb_spec n 1) as [->|N].
  - split; [apply Permutation_refl|]. split; [|easy]. intros i j Hi Hj. replace i with j by lia. lra.
  - destruct (sort_at A n st n (le_n n)) as [[s M] B]. split; [now apply moves_perm with s|]. split.
    + intros i j Hi Hj. apply B; lia.
    + destruct M as (_ & C & _ & _ & E). intros k Hk. rewrite E, C by lia. easy.
Qed.
(** Sorting a sorted array *)
Lemma sort1_incr n (y : mem) : incr y n -> forall k, (1 <= k)%nat -> snd (sort1 n (fun _ => tt, y)) k = y k.
Proof.
  intros H. unfold sort1. destruct (n =? 1)%nat; [easy|].
  assert (P : forall j, (j <= n)%nat -> forall m, (m <= j - 1)%nat -> forall st : (nat -> unit) * mem, (forall k, (1 <= k)%nat -> snd st k = y k) ->
     forall k, (1 <= k)%nat -> snd (fold_left (fun st k => let '(id, y) := st in if Rltb (y j) (y k) then (exchange id j k, exchange y j k) else st) (seq 1 m) st) k = y k).
  { intros j Hj m. induction m as [|m IH]; intros Hm st E; [exact E|].
    rewrite seq_S, fold_left_app. assert (X := IH ltac:(lia) st E). match goal with |- context [fold_left ?f ?l st] => set (st1 := fold_left f l st) in * end. clearbody st1. destruct st1 as [id z]. cbn [snd fold_left] in *.
    rewrite (X j), (X (1 + m)%nat) by lia. unfold Rltb. destruct (Rlt_dec _ _) as [L|L]; [|exact X].
    assert (Y := H (1 + m)%nat j ltac:(lia) ltac:(lia)). lra. }
  assert (Q : forall t, (t <= n)%nat -> forall k, (1 <= k)%nat -> snd (fold_left (fun st i => sort_pass (n - i + 1) st) (seq 1 t) (fun _ => tt, y)) k = y k).
  { induction t as [|t IH]; intros Ht; [easy|]. rewrite seq_S, fold_left_app. cbn [fold_left]. apply (P (n - (1 + t) + 1)%nat); [lia|lia|]. apply IH. lia. }
  apply Q. lia.
Qed.

(** *** XVAR *)

(** The elements of a list at the places from 1 *)
Definition holds (l : list R) (m : mem) : Prop := forall i, (1 <= i <= length l)%nat -> m i = nth (i - 1) l 0.

Definition pick (b : bool) (isave : nat -> Z) (xt : mem) (n : nat) : list R :=
  map xt (filter (fun i => Bool.eqb (isave i =? 0)%Z b) (seq 1 n)).
Lemma pick_S b isave xt n : pick b isave xt (S n) = pick b isave xt n ++ (if Bool.eqb (isave (S n) =? 0)%Z b then [xt (S n)] else []).
Proof. unfold pick. rewrite seq_S, filter_app, map_app. cbn [filter Nat.add]. now destruct (Bool.eqb _ b). Qed.

Lemma filter_length_le A (f : A -> bool) l : (length (filter f l) <= length l)%nat.
Proof. induction l as [|a l IH]; [easy|]. cbn. destruct (f a); cbn; lia. Qed.

Lemma holds_snoc l m x : holds l m -> holds (l ++ [x]) (put m (length l + 1) x).
Proof.
  intros H i Hi. rewrite app_length in Hi. cbn in Hi. destruct (Nat.eq_dec i (length l + 1)) as [->|N].
  - rewrite put_eq, app_nth2 by lia. replace (length l + 1 - 1 - length l)%nat with 0%nat by lia. easy.
  - rewrite put_ne by lia. rewrite app_nth1 by lia. apply H. lia.
Qed.

Lemma iter_snoc S (l : list nat) i (body : nat -> S -> res S) s :
  iter (l ++ [i]) body s = (let! s' := iter l body s in body i s').
Proof.
  revert s. induction l as [|j l IH]; intros s; cbn.
  - destruct (body i s); easy.
  - destruct (body j s); [apply IH | easy].
Qed.

Lemma split_ok n isave xt zu zc : exists sp, xvar_split n isave xt zu zc = Ok sp /\
  x_iu sp = length (pick true isave xt n) /\ holds (pick true isave xt n) (x_zu sp) /\
  x_ic sp = length (pick false isave xt n) /\ holds (pick false isave xt n) (x_zc sp) /\
  (forall k, (x_iu sp < k)%nat -> x_zu sp k = zu k).
Proof.
  unfold xvar_split.
  assert (H : forall m, (m <= n)%nat -> exists sp, iter (seq 1 m) (fun i s =>
    if (Z.abs (isave i) =? 0)%Z then
      let iu := (x_iu s + 1)%nat in
      let! zu := store n (x_zu s) iu (xt i) in
      Ok (Split iu zu (x_ic s) (x_zc s))
    else
      let ic := (x_ic s + 1)%nat in
      let! zc := store n (x_zc s) ic (xt i) in
      Ok (Split (x_iu s) (x_zu s) ic zc)) (Split 0 zu 0 zc) = Ok sp /\
    x_iu sp = length (pick true isave xt m) /\ holds (pick true isave xt m) (x_zu sp) /\
    x_ic sp = length (pick false isave xt m) /\ holds (pick false isave xt m) (x_zc sp) /\
    (forall k, (x_iu sp < k)%nat -> x_zu sp k = zu k)).
  { induction m as [|m IH]; intros Hm.
    - exists (Split 0 zu 0 zc). cbn. repeat split; try easy; intros i Hi; cbn in Hi; lia.
    - destruct (IH ltac:(lia)) as [sp (E & A1 & B1 & C1 & D1 & F1)].
      rewrite seq_S, iter_snoc, E. rewrite !pick_S.
      assert (LE : forall b, (length (pick b isave xt m) <= m)%nat).
      { intros b. unfold pick. rewrite map_length. etransitivity; [apply filter_length_le|]. rewrite seq_length. lia. }
      assert (L1 := LE true). assert (L2 := LE false).
      replace (Z.abs (isave (1 + m)%nat) =? 0)%Z with (isave (S m) =? 0)%Z
        by (cbn [Nat.add]; destruct (Z.eqb_spec (isave (S m)) 0), (Z.eqb_spec (Z.abs (isave (S m))) 0); lia).
      change (1 + m)%nat with (S m).
      destruct (isave (S m) =? 0)%Z; cbn [Bool.eqb]; cbv zeta; unfold store.
      + replace ((1 <=? x_iu sp + 1) && (x_iu sp + 1 <=? n))%nat with true
          by (symmetry; apply andb_true_iff; split; apply Nat.leb_le; lia).
        eexists. split; [reflexivity|]. cbn [x_iu x_zu x_ic x_zc]. rewrite app_nil_r. repeat split; try easy.
        * rewrite app_length. cbn. lia.
        * rewrite A1. now apply holds_snoc.
        * intros k Hk. rewrite put_ne by lia. apply F1. lia.
      + replace ((1 <=? x_ic sp + 1) && (x_ic sp + 1 <=? n))%nat with true
          by (symmetry; apply andb_true_iff; split; apply Nat.leb_le; lia).
        eexists. split; [reflexivity|]. cbn [x_iu x_zu x_ic x_zc]. rewrite app_nil_r. repeat split; try easy.
        * rewrite app_length. cbn. lia.
        * rewrite C1. now apply holds_snoc. }
  destruct (H n (le_n n)) as [sp P]. now exists sp.
Qed.

Lemma holds_map l m : holds l m -> map m (seq 1 (length l)) = l.
Proof.
  intros H. apply nth_ext with 0 0; [now rewrite map_length, seq_length|].
  intros i Hi. rewrite map_length, seq_length in Hi. rewrite (nth_indep _ 0 (m 0%nat)) by (now rewrite map_length, seq_length).
  rewrite map_nth, seq_nth by easy. rewrite H by lia. f_equal. lia.
Qed.

(** What is picked from the sorted arrays is in order *)
Lemma pick_incr b isave xt n : incr xt n -> forall l, l = pick b isave xt n ->
  (forall i j, (i <= j < length l)%nat -> nth i l 0 <= nth j l 0) /\ (forall t, In t l -> exists k, (1 <= k <= n)%nat /\ xt k = t).
Proof.
  intros H. induction n as [|n IH]; intros l ->; [now split|].
  assert (H' : incr xt n) by (intros i j Hi Hj; apply H; lia).
  destruct (IH H' _ eq_refl) as [A B]. rewrite pick_S. split.
  - intros i j Hij. rewrite app_length in Hij.
    destruct (Bool.eqb _ b); cbn [length] in Hij.
    + destruct (Nat.eq_dec j (length (pick b isave xt n))) as [->|N].
      * rewrite (app_nth2 _ _ _ (le_n _)), Nat.sub_diag. cbn [nth].
        destruct (Nat.eq_dec i (length (pick b isave xt n))) as [->|N2]; [rewrite (app_nth2 _ _ _ (le_n _)), Nat.sub_diag; cbn; lra|].
        rewrite app_nth1 by lia. destruct (B (nth i (pick b isave xt n) 0)) as [k [K1 K2]]; [apply nth_In; lia|].
        rewrite <- K2. apply H; lia.
      * rewrite !app_nth1 by lia. apply A. lia.
    + rewrite !app_nth1 by lia. apply A. lia.
  - intros t Ht. apply in_app_or in Ht. destruct Ht as [Ht|Ht].
    + destruct (B t Ht) as [k [K1 K2]]. exists k. split; [lia | easy].
    + destruct (Bool.eqb _ b); [|easy]. destruct Ht as [<-|[]]. exists (S n). split; [lia | easy].
Qed.

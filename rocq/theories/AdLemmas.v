(** The list of regions in WRKSTR *)

From Coq Require Import List Bool Arith ZArith Reals Permutation Lra Lia.
From Verif Require Import Exn Instances McModel BaModel BaLemmas ObsModel ObsLemmas2 AdModel AdSpec.
Import ListNotations.
Open Scope nat_scope.

(** Results that are good, or errors of a kind *)
Definition okor {A} (E : exn -> Prop) (m : res A) (P : A -> Prop) : Prop := match m with Ok a => P a | Err e => E e end.
Lemma okor_bind : forall A B E (m : res A) (k : A -> res B) P Q, okor E m P -> (forall a, P a -> okor E (k a) Q) -> okor E (let! x := m in k x) Q.
Proof. intros A B E [a|e] k P Q H K; cbn in *; [now apply K|exact H]. Qed.
Lemma okor_imp : forall A E (m : res A) (P Q : A -> Prop), okor E m P -> (forall a, P a -> Q a) -> okor E m Q.
Proof. intros A E [a|e] P Q H K; cbn in *; auto. Qed.

(** Cells *)
Definition cell (w : list (option R)) (p : nat) : option (option R) := nth_error w p.
Lemma rd_cell : forall w p v, cell w p = Some v -> rd w p = Ok v.
Proof. intros w p v H. unfold rd, cell in *. now rewrite H. Qed.
Lemma cell_lt : forall w p, p < length w -> exists v, cell w p = Some v.
Proof. intros w p H. unfold cell. destruct (nth_error w p) eqn:E; [eauto|]. apply nth_error_None in E. lia. Qed.
Lemma nth_upd : forall A i (v : A) p j, i < length p -> nth_error (upd i v p) j = if Nat.eqb j i then Some v else nth_error p j.
Proof.
  intros A i v p j H. generalize (rd_upd A i v p j H). unfold rd.
  destruct (nth_error (upd i v p) j), (Nat.eqb j i); try destruct (nth_error p j); intros X; congruence.
Qed.
Lemma wr1_cell : forall (w : list (option R)) p v, p < length w ->
  exists w', wr1 w (S p) v = Ok w' /\ length w' = length w /\ forall q, cell w' q = if Nat.eqb q p then Some v else cell w q.
Proof.
  intros w p v H. exists (upd p v w). cbn [wr1]. rewrite wr_ok by exact H. split; [reflexivity|]. split; [now apply upd_len|].
  intros q. unfold cell. now apply nth_upd.
Qed.
Lemma rs1_cell : forall w p v, cell w p = Some (Some v) -> rs1 w (S p) = Ok v.
Proof. intros w p v H. cbn [rs1]. unfold rds. now rewrite (rd_cell _ _ _ H). Qed.

(** Copying a region *)
Lemma copy_ok : forall m i j w, i <> j -> (i + 1) * m <= length w -> (j + 1) * m <= length w ->
  exists w', copy_region m ((i + 1) * m) ((j + 1) * m) w = Ok w' /\ length w' = length w /\
    forall p, cell w' p = if (i * m <=? p) && (p <? (i + 1) * m) then cell w (p - i * m + j * m) else cell w p.
Proof.
  intros m i j w N Hi Hj. unfold copy_region.
  set (body := fun k w => let! v := rd1 w ((j + 1) * m - k + 1) in wr1 w ((i + 1) * m - k + 1) v).
  destruct (iter_up _ (fun k (w' : list (option R)) => length w' = length w /\
     forall p, cell w' p = if ((i + 1) * m <? p + k) && (p <? (i + 1) * m) then cell w (p - i * m + j * m) else cell w p) m 1 body w) as (w' & E & L & C).
  - split; [reflexivity|]. intros p. destruct (Nat.ltb_spec ((i + 1) * m) (p + 1)), (Nat.ltb_spec p ((i + 1) * m)); try reflexivity; lia.
  - intros k s Hk [L C]. unfold body.
    replace ((j + 1) * m - k + 1) with (S (j * m + (m - k))) by nia. replace ((i + 1) * m - k + 1) with (S (i * m + (m - k))) by nia.
    assert (D : i * m + m <= j * m \/ j * m + m <= i * m) by (destruct (Nat.lt_total i j) as [?|[?|?]]; [left; nia|lia|right; nia]).
    destruct (cell_lt w (j * m + (m - k))) as [v Hv]; [nia|].
    assert (Cv : cell s (j * m + (m - k)) = Some v).
    { rewrite C. destruct (Nat.ltb_spec ((i + 1) * m) (j * m + (m - k) + k)), (Nat.ltb_spec (j * m + (m - k)) ((i + 1) * m)); cbn [andb]; try exact Hv. exfalso. lia. }
    cbn [rd1]. rewrite (rd_cell _ _ _ Cv).
    destruct (wr1_cell s (i * m + (m - k)) v) as (s' & Es & Ls & Cs); [nia|]. exists s'. split; [exact Es|]. split; [congruence|].
    intros p. rewrite Cs. destruct (Nat.eqb_spec p (i * m + (m - k))) as [->|NE].
    + destruct (Nat.ltb_spec ((i + 1) * m) (i * m + (m - k) + S k)), (Nat.ltb_spec (i * m + (m - k)) ((i + 1) * m)); cbn [andb]; try lia.
      replace (i * m + (m - k) - i * m + j * m) with (j * m + (m - k)) by lia. now rewrite Hv.
    + rewrite C. destruct (Nat.ltb_spec ((i + 1) * m) (p + k)), (Nat.ltb_spec ((i + 1) * m) (p + S k)), (Nat.ltb_spec p ((i + 1) * m)); cbn [andb]; try reflexivity; lia.
  - exists w'. split; [exact E|]. split; [exact L|]. intros p. rewrite C.
    destruct (Nat.ltb_spec ((i + 1) * m) (p + (1 + m))), (Nat.leb_spec (i * m) p), (Nat.ltb_spec p ((i + 1) * m)); cbn [andb]; try reflexivity; lia.
Qed.

(** A region in its cells *)
Definition cellof (n : nat) (r : region) (t : nat) : R :=
  if Nat.eqb t (2 * n + 2) then r_err r else if Nat.eqb t (2 * n + 1) then r_val r else if Nat.eqb t (2 * n) then INR (r_axis r)
  else if Nat.even t then nth (n - t / 2 - 1) (r_half r) 0%R else nth (n - t / 2 - 1) (r_centre r) 0%R.
Definition holds (n : nat) (w : list (option R)) (i : nat) (r : region) : Prop :=
  forall t, t < 2 * n + 3 -> cell w (i * (2 * n + 3) + t) = Some (Some (cellof n r t)).
(** The regions, apart from that in place p *)
Definition listed (n : nat) (w : list (option R)) (rs : list region) (p : option nat) : Prop :=
  forall i r, Some i <> p -> nth_error rs i = Some r -> holds n w i r.

Lemma holds_err : forall n w i r, holds n w i r -> rs1 w ((i + 1) * (2 * n + 3)) = Ok (r_err r).
Proof.
  intros n w i r H. replace ((i + 1) * (2 * n + 3)) with (S (i * (2 * n + 3) + (2 * n + 2))) by nia.
  apply rs1_cell. rewrite H by lia. unfold cellof. now rewrite Nat.eqb_refl.
Qed.
Lemma holds_val : forall n w i r, holds n w i r -> rs1 w ((i + 1) * (2 * n + 3) - 1) = Ok (r_val r).
Proof.
  intros n w i r H. replace ((i + 1) * (2 * n + 3) - 1) with (S (i * (2 * n + 3) + (2 * n + 1))) by nia.
  apply rs1_cell. rewrite H by lia. unfold cellof. destruct (Nat.eqb_spec (2 * n + 1) (2 * n + 2)); [lia|]. now rewrite Nat.eqb_refl.
Qed.
Lemma holds_axis : forall n w i r, holds n w i r -> rs1 w ((i + 1) * (2 * n + 3) - 2) = Ok (INR (r_axis r)).
Proof.
  intros n w i r H. replace ((i + 1) * (2 * n + 3) - 2) with (S (i * (2 * n + 3) + (2 * n))) by nia.
  apply rs1_cell. rewrite H by lia. unfold cellof. destruct (Nat.eqb_spec (2 * n) (2 * n + 2)); [lia|]. destruct (Nat.eqb_spec (2 * n) (2 * n + 1)); [lia|]. now rewrite Nat.eqb_refl.
Qed.
Lemma half_even : forall k, 2 * k / 2 = k.
Proof. intros k. rewrite Nat.mul_comm. now apply Nat.div_mul. Qed.
Lemma half_odd : forall k, (2 * k + 1) / 2 = k.
Proof. intros k. rewrite Nat.mul_comm, Nat.div_add_l by lia. cbn. lia. Qed.
Lemma holds_half : forall n w i r j, holds n w i r -> 1 <= j <= n -> rs1 w ((i + 1) * (2 * n + 3) - 2 * (j + 1)) = Ok (nth (j - 1) (r_half r) 0%R).
Proof.
  intros n w i r j H Hj. replace ((i + 1) * (2 * n + 3) - 2 * (j + 1)) with (S (i * (2 * n + 3) + (2 * (n - j)))) by nia.
  apply rs1_cell. rewrite H by lia. unfold cellof.
  destruct (Nat.eqb_spec (2 * (n - j)) (2 * n + 2)); [lia|]. destruct (Nat.eqb_spec (2 * (n - j)) (2 * n + 1)); [lia|]. destruct (Nat.eqb_spec (2 * (n - j)) (2 * n)); [lia|].
  rewrite half_even, Nat.even_mul. cbn [Nat.even orb]. do 3 f_equal. lia.
Qed.
Lemma holds_centre : forall n w i r j, holds n w i r -> 1 <= j <= n -> rs1 w ((i + 1) * (2 * n + 3) - 2 * (j + 1) + 1) = Ok (nth (j - 1) (r_centre r) 0%R).
Proof.
  intros n w i r j H Hj. replace ((i + 1) * (2 * n + 3) - 2 * (j + 1) + 1) with (S (i * (2 * n + 3) + (2 * (n - j) + 1))) by nia.
  apply rs1_cell. rewrite H by lia. unfold cellof.
  destruct (Nat.eqb_spec (2 * (n - j) + 1) (2 * n + 2)); [lia|]. destruct (Nat.eqb_spec (2 * (n - j) + 1) (2 * n + 1)); [lia|]. destruct (Nat.eqb_spec (2 * (n - j) + 1) (2 * n)); [lia|].
  rewrite half_odd, Nat.even_add, Nat.even_mul. cbn [Nat.even orb Bool.eqb]. do 3 f_equal. lia.
Qed.

(** Storing a region *)
Lemma store_ok : forall n i b c h w, length c = n -> length h = n -> (i + 1) * (2 * n + 3) <= length w ->
  exists w', store n ((i + 1) * (2 * n + 3)) b c h w = Ok w' /\ length w' = length w /\
    holds n w' i (Region (b_errest b) (b_basest b) (b_divaxn b) c h) /\
    forall p, ~ (i * (2 * n + 3) <= p < (i + 1) * (2 * n + 3)) -> cell w' p = cell w p.
Proof.
  intros n i b c h w Lc Lh L. unfold store.
  destruct (wr1_cell w (i * (2 * n + 3) + (2 * n + 2)) (Some (b_errest b))) as (w1 & E1 & L1 & C1); [nia|].
  replace (S (i * (2 * n + 3) + (2 * n + 2))) with ((i + 1) * (2 * n + 3)) in E1 by nia. rewrite E1. clear E1.
  replace ((i + 1) * (2 * n + 3) - 1) with (S (i * (2 * n + 3) + (2 * n + 1))) by nia.
  destruct (wr1_cell w1 (i * (2 * n + 3) + (2 * n + 1)) (Some (b_basest b))) as (w2 & -> & L2 & C2); [nia|].
  replace ((i + 1) * (2 * n + 3) - 2) with (S (i * (2 * n + 3) + (2 * n))) by nia.
  destruct (wr1_cell w2 (i * (2 * n + 3) + (2 * n)) (Some (INR (b_divaxn b)))) as (w3 & -> & L3 & C3); [nia|].
  set (r := Region (b_errest b) (b_basest b) (b_divaxn b) c h).
  match goal with |- context [iter (seq 1 n) ?x w3] => set (body := x) end.
  destruct (iter_up _ (fun j (w' : list (option R)) => length w' = length w /\
     (forall t, 2 * (n + 1 - j) <= t < 2 * n + 3 -> cell w' (i * (2 * n + 3) + t) = Some (Some (cellof n r t))) /\
     forall p, ~ (i * (2 * n + 3) <= p < (i + 1) * (2 * n + 3)) -> cell w' p = cell w p) n 1 body w3) as (w' & E & L' & C & O).
  - split; [congruence|]. split.
    + intros t Ht. rewrite C3, C2, C1. unfold cellof.
      destruct (Nat.eqb_spec (i * (2 * n + 3) + t) (i * (2 * n + 3) + 2 * n)) as [Q|Q], (Nat.eqb_spec (i * (2 * n + 3) + t) (i * (2 * n + 3) + (2 * n + 1))) as [Q'|Q'],
        (Nat.eqb_spec (i * (2 * n + 3) + t) (i * (2 * n + 3) + (2 * n + 2))) as [Q''|Q''],
        (Nat.eqb_spec t (2 * n + 2)), (Nat.eqb_spec t (2 * n + 1)), (Nat.eqb_spec t (2 * n)); try lia; try reflexivity.
    + intros p Hp. rewrite C3, C2, C1.
      destruct (Nat.eqb_spec p (i * (2 * n + 3) + 2 * n)), (Nat.eqb_spec p (i * (2 * n + 3) + (2 * n + 1))), (Nat.eqb_spec p (i * (2 * n + 3) + (2 * n + 2))); try reflexivity; exfalso; apply Hp; nia.
  - intros j s Hj (Ls & C & O). unfold body. cbv beta zeta.
    assert (Rc : forall l : list R, length l = n -> rd1 l j = Ok (nth (j - 1) l 0%R)).
    { intros l Hl. destruct j as [|j]; [lia|]. cbn [rd1]. rewrite Nat.sub_succ, Nat.sub_0_r. apply rd_nth. lia. }
    rewrite (Rc c Lc).
    replace ((i + 1) * (2 * n + 3) - 2 * (j + 1) + 1) with (S (i * (2 * n + 3) + (2 * (n - j) + 1))) by nia.
    destruct (wr1_cell s (i * (2 * n + 3) + (2 * (n - j) + 1)) (Some (nth (j - 1) c 0%R))) as (s1 & -> & K1 & D1); [nia|].
    rewrite (Rc h Lh).
    replace ((i + 1) * (2 * n + 3) - 2 * (j + 1)) with (S (i * (2 * n + 3) + (2 * (n - j)))) by nia.
    destruct (wr1_cell s1 (i * (2 * n + 3) + (2 * (n - j))) (Some (nth (j - 1) h 0%R))) as (s2 & -> & K2 & D2); [nia|].
    exists s2. split; [reflexivity|]. split; [congruence|]. split.
    + intros t Ht. rewrite D2, D1.
      destruct (Nat.eqb_spec (i * (2 * n + 3) + t) (i * (2 * n + 3) + 2 * (n - j))) as [Q|Q].
      * assert (T : t = 2 * (n - j)) by lia. unfold cellof.
        destruct (Nat.eqb_spec t (2 * n + 2)); [lia|]. destruct (Nat.eqb_spec t (2 * n + 1)); [lia|]. destruct (Nat.eqb_spec t (2 * n)); [lia|].
        rewrite T, half_even, Nat.even_mul. cbn [Nat.even orb]. unfold r. cbn [r_half]. do 3 f_equal. lia.
      * destruct (Nat.eqb_spec (i * (2 * n + 3) + t) (i * (2 * n + 3) + (2 * (n - j) + 1))) as [Q'|Q'].
        -- assert (T : t = 2 * (n - j) + 1) by lia. unfold cellof.
           destruct (Nat.eqb_spec t (2 * n + 2)); [lia|]. destruct (Nat.eqb_spec t (2 * n + 1)); [lia|]. destruct (Nat.eqb_spec t (2 * n)); [lia|].
           rewrite T, half_odd, Nat.even_add, Nat.even_mul. cbn [Nat.even orb Bool.eqb]. unfold r. cbn [r_centre]. do 3 f_equal. lia.
        -- apply C. lia.
    + intros p Hp. rewrite D2, D1.
      destruct (Nat.eqb_spec p (i * (2 * n + 3) + 2 * (n - j))), (Nat.eqb_spec p (i * (2 * n + 3) + (2 * (n - j) + 1))); try (now apply O); exfalso; apply Hp; nia.
  - exists w'. split; [exact E|]. split; [exact L'|]. split; [|exact O]. intros t Ht. apply C. lia.
Qed.

(** Loading a region *)
Lemma load_ok : forall n i r w c h, holds n w i r -> length (r_centre r) = n -> length (r_half r) = n -> length c = n -> length h = n ->
  load n ((i + 1) * (2 * n + 3)) w (c, h) = Ok (r_centre r, r_half r).
Proof.
  intros n i r w c h H Lrc Lrh Lc Lh. unfold load.
  match goal with |- iter _ ?x _ = _ => set (body := x) end.
  destruct (iter_up _ (fun j (s : list R * list R) => length (fst s) = n /\ length (snd s) = n /\
     forall k, k < j - 1 -> nth k (fst s) 0%R = nth k (r_centre r) 0%R /\ nth k (snd s) 0%R = nth k (r_half r) 0%R) n 1 body (c, h)) as (s & E & L1 & L2 & C).
  - cbn [fst snd]. split; [exact Lc|]. split; [exact Lh|]. intros k Hk. lia.
  - intros j [a b] Hj (La & Lb & C). cbn [fst snd] in *. unfold body. cbv beta zeta. cbn [fst snd].
    rewrite (holds_centre n w i r j H) by lia. rewrite (holds_half n w i r j H) by lia.
    destruct j as [|j]; [lia|]. cbn [wr1]. rewrite !wr_ok by lia. eexists. split; [reflexivity|]. cbn [fst snd].
    split; [rewrite upd_len; lia|]. split; [rewrite upd_len; lia|].
    intros k Hk. rewrite Nat.sub_succ, Nat.sub_0_r in *.
    assert (U : forall (l : list R) v, j < length l -> nth k (upd j v l) 0%R = if Nat.eqb k j then v else nth k l 0%R).
    { intros l v Hl. generalize (nth_upd R j v l k Hl). intros Q.
      destruct (Nat.eqb k j) eqn:X; [now apply nth_error_nth|].
      destruct (nth_error l k) eqn:Y; [rewrite (nth_error_nth _ _ _ Y); now apply nth_error_nth|].
      rewrite nth_overflow by (apply nth_error_None; exact Q). symmetry. apply nth_overflow. now apply nth_error_None. }
    rewrite !U by lia. destruct (Nat.eqb_spec k j) as [->|NE]; [split; reflexivity|]. apply C. lia.
  - destruct s as [a b]. cbn [fst snd] in *. rewrite E. f_equal. f_equal; (apply (nth_ext _ _ 0%R 0%R); [congruence|]); intros k Hk; apply C; lia.
Qed.

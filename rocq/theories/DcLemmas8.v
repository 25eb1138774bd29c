(** DTRHRE: the heap *)

From Coq Require Import List Bool Arith ZArith Reals Permutation Lra Lia.
From Verif Require Import Exn Instances McModel BaModel BaLemmas ObsModel ObsLemmas2 AdModel AdLemmas AdLemmas2 SyModel SyLemmas2 DcModel.
Import ListNotations.
Open Scope R_scope.

Definition nil_col : column := Column (fun _ => 0) (fun _ => 0) 0 0 [] [].
Definition col (cs : list column) (i : nat) : column := nth (i - 1) cs nil_col.
Definition gr (cs : list column) (i : nat) : R := c_great (col cs i).
Definition heap (n : nat) (cs : list column) : Prop := forall i, (2 <= i <= n)%nat -> gr cs i <= gr cs (i / 2).
Definition put (cs : list column) (i : nat) (r : column) : list column := upd (i - 1) r cs.

Lemma rd_col : forall cs i, (1 <= i <= length cs)%nat -> rd1 cs i = Ok (col cs i).
Proof. intros cs i H. unfold col. now apply rd1_nth. Qed.
Lemma wr_col : forall cs i r, (1 <= i <= length cs)%nat -> wr1 cs i r = Ok (put cs i r).
Proof. intros cs i r H. unfold put. now rewrite wr1_upd. Qed.
Lemma put_len : forall cs i r, (1 <= i <= length cs)%nat -> length (put cs i r) = length cs.
Proof. intros cs i r H. unfold put. apply upd_len. lia. Qed.
Lemma col_put : forall cs i j r, (1 <= i <= length cs)%nat -> (1 <= j)%nat -> col (put cs i r) j = if Nat.eqb j i then r else col cs j.
Proof.
  intros cs i j r H Hj. unfold col, put. rewrite nth_upd' by lia. destruct (Nat.eqb_spec (j - 1) (i - 1)), (Nat.eqb_spec j i); try lia; reflexivity.
Qed.
Lemma gr_put : forall cs i j r, (1 <= i <= length cs)%nat -> (1 <= j)%nat -> gr (put cs i r) j = if Nat.eqb j i then c_great r else gr cs j.
Proof. intros cs i j r H Hj. unfold gr. rewrite col_put by assumption. now destruct (Nat.eqb j i). Qed.
Lemma put_put : forall cs i r s, (1 <= i <= length cs)%nat -> put (put cs i r) i s = put cs i s.
Proof.
  intros cs i r s H. apply (nth_ext _ _ nil_col nil_col); [now rewrite !put_len by (rewrite ?put_len; assumption)|]. intros k _. unfold put. rewrite !nth_upd' by (rewrite ?upd_len; lia). now destruct (Nat.eqb k (i - 1)).
Qed.
Lemma put_same : forall cs i, (1 <= i <= length cs)%nat -> put cs i (col cs i) = cs.
Proof.
  intros cs i H. apply (nth_ext _ _ nil_col nil_col); [now rewrite put_len by assumption|]. intros k _. unfold put. rewrite nth_upd' by lia. unfold col. destruct (Nat.eqb_spec k (i - 1)) as [->|]; reflexivity.
Qed.
Lemma put_comm : forall cs i j r s, (1 <= i <= length cs)%nat -> (1 <= j <= length cs)%nat -> i <> j -> put (put cs i r) j s = put (put cs j s) i r.
Proof.
  intros cs i j r s Hi Hj N. apply (nth_ext _ _ nil_col nil_col); [now rewrite !put_len by (rewrite ?put_len; assumption)|]. intros k _. unfold put. rewrite !nth_upd' by (rewrite ?upd_len; lia).
  destruct (Nat.eqb_spec k (j - 1)), (Nat.eqb_spec k (i - 1)); try lia; reflexivity.
Qed.

(** Exchanging two elements *)
Lemma cons_upd : forall {A} (l : list A) i x y d, (i < length l)%nat -> nth i l d = y -> Permutation (y :: upd i x l) (x :: l).
Proof.
  intros A l i x y d H E. unfold upd. assert (L : l = firstn i l ++ y :: skipn (S i) l).
  { subst y. clear x. revert i H. induction l as [|a l IH]; intros [|i] H; cbn [length] in H; try lia; [reflexivity|]. cbn [firstn skipn nth app]. rewrite <- IH by lia. reflexivity. }
  rewrite L at 3. rewrite <- !Permutation_middle. apply perm_swap.
Qed.
Lemma perm_put : forall cs i r, (1 <= i <= length cs)%nat -> Permutation (col cs i :: put cs i r) (r :: cs).
Proof. intros cs i r H. apply (cons_upd cs (i - 1) r (col cs i) nil_col); [lia|reflexivity]. Qed.
Lemma first_put : forall cs n i r, (1 <= i <= n)%nat -> (n <= length cs)%nat -> firstn n (put cs i r) = put (firstn n cs) i r.
Proof.
  intros cs n i r H Hn. apply (nth_ext _ _ nil_col nil_col).
  - rewrite firstn_length, !put_len by (rewrite ?firstn_length; lia). rewrite firstn_length. reflexivity.
  - intros k Hk. rewrite firstn_length, put_len in Hk by lia. rewrite nth_firstn' || idtac. unfold put. rewrite nth_upd' by (rewrite firstn_length; lia).
    assert (NF : forall l, nth k (firstn n l) nil_col = nth k l nil_col).
    { intros l. rewrite <- (firstn_skipn n l) at 2. destruct (Nat.lt_ge_cases k (length (firstn n l))) as [L|L]; [now rewrite app_nth1|].
      rewrite (nth_overflow (firstn n l)) by exact L. rewrite firstn_length in L. assert (length l <= k)%nat by lia. rewrite firstn_skipn. now rewrite nth_overflow. }
    rewrite !NF, nth_upd' by lia. reflexivity.
Qed.
Lemma col_first : forall cs n i, (1 <= i <= n)%nat -> (n <= length cs)%nat -> col (firstn n cs) i = col cs i.
Proof.
  intros cs n i H Hn. unfold col. rewrite <- (firstn_skipn n cs) at 2. rewrite app_nth1; [reflexivity|]. rewrite firstn_length. lia.
Qed.
Lemma perm_swap2 : forall cs n p q r a, (1 <= p <= n)%nat -> (1 <= q <= n)%nat -> p <> q -> (n <= length cs)%nat -> col cs q = a -> Permutation (firstn n (put (put cs p a) q r)) (firstn n (put cs p r)).
Proof.
  intros cs n p q r a Hp Hq N Hn E. assert (LF : length (firstn n cs) = n) by (rewrite firstn_length; lia).
  rewrite !first_put by (rewrite ?put_len; lia). set (l := firstn n cs) in *.
  assert (P1 := perm_put (put l p a) q r ltac:(rewrite put_len; lia)). assert (P2 := perm_put l p a ltac:(lia)). assert (P3 := perm_put l p r ltac:(lia)).
  rewrite col_put in P1 by lia. destruct (Nat.eqb_spec q p); [lia|]. unfold l in P1 at 1. rewrite col_first, E in P1 by lia.
  apply (Permutation_cons_inv (a := a)). rewrite P1. apply (Permutation_cons_inv (a := col l p)). rewrite perm_swap, P2, perm_swap. rewrite (perm_swap a (col l p)). now rewrite P3, perm_swap.
Qed.

(** Moving down.  X is the array with r in its place p *)
Definition below (n p : nat) (X : list column) : Prop :=
  (forall i, (2 <= i <= n)%nat -> (i / 2)%nat <> p -> gr X i <= gr X (i / 2)) /\ (forall i, (2 <= i <= n)%nat -> (i / 2)%nat = p -> (2 <= p)%nat -> gr X i <= gr X (p / 2)).
Definition like (n : nat) (X Y : list column) : Prop := length X = length Y /\ Permutation (firstn n X) (firstn n Y) /\ forall i, (n < i)%nat -> col X i = col Y i.
Lemma like_refl : forall n X, like n X X.
Proof. intros n X. split; [reflexivity|split; [apply Permutation_refl|reflexivity]]. Qed.
Lemma like_trans : forall n X Y Z, like n X Y -> like n Y Z -> like n X Z.
Proof. intros n X Y Z (A & B & C) (A' & B' & C'). split; [congruence|]. split; [etransitivity; eassumption|]. intros i Hi. now rewrite C, C'. Qed.
Lemma like_swap : forall cs n p q r a, (1 <= p <= n)%nat -> (1 <= q <= n)%nat -> p <> q -> (n <= length cs)%nat -> col cs q = a -> like n (put (put cs p a) q r) (put cs p r).
Proof.
  intros cs n p q r a Hp Hq N Hn E. split; [rewrite !put_len by (rewrite ?put_len; lia); reflexivity|]. split; [now apply perm_swap2|]. intros i Hi. rewrite !col_put by (rewrite ?put_len; lia). destruct (Nat.eqb_spec i q), (Nat.eqb_spec i p); try lia; reflexivity.
Qed.
Lemma half_lt : forall i, (2 <= i)%nat -> (1 <= i / 2 < i)%nat.
Proof. intros i H. assert (A := Nat.div_lt i 2 ltac:(lia) ltac:(lia)). assert (B := Nat.div_le_mono 2 i 2 ltac:(lia) H). change (2 / 2)%nat with 1%nat in B. lia. Qed.
Lemma half_is : forall i p, (i / 2)%nat = p -> i = (2 * p)%nat \/ i = (2 * p + 1)%nat.
Proof. intros i p H. assert (A := Nat.div_mod i 2 ltac:(lia)). assert (B := Nat.mod_upper_bound i 2 ltac:(lia)). rewrite H in A. lia. Qed.
Lemma half_2 : forall p, (2 * p / 2)%nat = p.
Proof. intros p. rewrite Nat.mul_comm. apply Nat.div_mul. lia. Qed.
Lemma half_21 : forall p, ((2 * p + 1) / 2)%nat = p.
Proof. intros p. rewrite Nat.mul_comm, Nat.add_comm, Nat.div_add by lia. reflexivity. Qed.

Lemma down_ok : forall fuel n p r cs, (1 <= p)%nat -> (p <= n)%nat -> (n <= length cs)%nat -> (n + 2 <= fuel + p)%nat -> below n p (put cs p r) ->
  exists q cs', dtr_down fuel n p r cs = Ok (q, cs') /\ (1 <= q <= n)%nat /\ like n (put cs' q r) (put cs p r) /\ heap n (put cs' q r) /\ length cs' = length cs.
Proof.
  induction fuel as [|fuel IH]; intros n p r cs P1 P2 Hn Hf [B1 B2]; [lia|]. cbn [dtr_down].
  destruct (Nat.leb_spec (2 * p) n) as [L|L].
  - rewrite rd_col by lia.
    set (s := if Nat.eqb (2 * p) n then (2 * p)%nat else if Rltb (c_great (col cs (2 * p))) (c_great (col cs (2 * p + 1))) then (2 * p + 1)%nat else (2 * p)%nat).
    assert (ES : (if Nat.eqb (2 * p) n then Ok (2 * p)%nat else let! b := rd1 cs (2 * p + 1) in Ok (if Rltb (c_great (col cs (2 * p))) (c_great b) then (2 * p + 1)%nat else (2 * p)%nat)) = Ok s).
    { unfold s. destruct (Nat.eqb_spec (2 * p) n); [reflexivity|]. now rewrite rd_col by lia. }
    rewrite ES. clear ES.
    assert (HS : (s = 2 * p \/ s = 2 * p + 1)%nat /\ (s <= n)%nat /\ forall i, (2 <= i <= n)%nat -> (i / 2)%nat = p -> gr cs i <= gr cs s).
    { unfold s. destruct (Nat.eqb_spec (2 * p) n) as [E|E].
      - split; [now left|]. split; [lia|]. intros i Hi Ei. destruct (half_is i p Ei) as [->| ->]; [lra|lia].
      - destruct (Rltb (c_great (col cs (2 * p))) (c_great (col cs (2 * p + 1)))) eqn:C.
        + apply Rltb_spec in C. split; [now right|]. split; [lia|]. intros i Hi Ei. destruct (half_is i p Ei) as [->| ->]; unfold gr; lra.
        + apply Rltb_false in C. split; [now left|]. split; [lia|]. intros i Hi Ei. destruct (half_is i p Ei) as [->| ->]; unfold gr; lra. }
    clearbody s. destruct HS as (S1 & S2 & S3). assert (S4 : (s / 2)%nat = p) by (destruct S1 as [->| ->]; [apply half_2|apply half_21]).
    rewrite rd_col by lia. destruct (Rltb (c_great r) (c_great (col cs s))) eqn:C.
    + apply Rltb_spec in C. rewrite wr_col by lia. destruct (IH n s r (put cs p (col cs s))) as (q & cs' & Q1 & Q2 & Q3 & Q4 & Q5); rewrite ?put_len by lia; try lia.
      * assert (G : forall i, (1 <= i)%nat -> gr (put (put cs p (col cs s)) s r) i = if Nat.eqb i s then c_great r else if Nat.eqb i p then gr cs s else gr (put cs p r) i).
        { intros i Hi. rewrite !gr_put by (rewrite ?put_len; lia). destruct (Nat.eqb_spec i s), (Nat.eqb_spec i p); try lia; reflexivity. }
        assert (O : forall i, (1 <= i)%nat -> i <> p -> gr (put cs p r) i = gr cs i) by (intros i Hi N; rewrite gr_put by lia; destruct (Nat.eqb_spec i p); [lia|reflexivity]).
        split.
        -- intros i Hi Ni. assert (HL := half_lt i ltac:(lia)). rewrite !G by lia. destruct (Nat.eqb_spec (i / 2) s) as [|_]; [lia|].
           destruct (Nat.eqb_spec (i / 2) p) as [E|E].
           ++ destruct (Nat.eqb_spec i s) as [_|N]; [unfold gr; lra|]. destruct (Nat.eqb_spec i p) as [->|_]; [lia|]. rewrite O by lia. now apply S3.
           ++ destruct (Nat.eqb_spec i s) as [->|N]; [lia|]. destruct (Nat.eqb_spec i p) as [->|N'].
              ** rewrite <- (O s) by lia. apply B2; lia.
              ** now apply B1.
        -- intros i Hi Ei _. assert (HL := half_lt i ltac:(lia)). rewrite !G by lia. rewrite S4. destruct (Nat.eqb_spec i s); [lia|]. destruct (Nat.eqb_spec p s); [lia|]. rewrite Nat.eqb_refl. destruct (Nat.eqb_spec i p); [lia|].
           rewrite <- (O s) by lia. rewrite <- Ei. apply B1; lia.
      * exists q, cs'. split; [exact Q1|]. split; [exact Q2|]. split; [|split; [exact Q4|rewrite Q5; apply put_len; lia]]. eapply like_trans; [exact Q3|]. apply like_swap; try lia. reflexivity.
    + apply Rltb_false in C. exists p, cs. split; [reflexivity|]. split; [lia|]. split; [apply like_refl|]. split; [|reflexivity].
      intros i Hi. destruct (Nat.eq_dec (i / 2) p) as [E|E]; [|now apply B1]. assert (HL := half_lt i ltac:(lia)). rewrite E. rewrite !gr_put by lia. rewrite Nat.eqb_refl. destruct (Nat.eqb_spec i p); [lia|]. specialize (S3 i Hi E). unfold gr in *. lra.
  - exists p, cs. split; [reflexivity|]. split; [lia|]. split; [apply like_refl|]. split; [|reflexivity]. intros i Hi. apply B1; [exact Hi|]. intros E. destruct (half_is i p E); lia.
Qed.

(** Moving up *)
Definition above (n p : nat) (X : list column) : Prop :=
  (forall i, (2 <= i <= n)%nat -> i <> p -> gr X i <= gr X (i / 2)) /\ (forall i, (2 <= i <= n)%nat -> (i / 2)%nat = p -> (2 <= p)%nat -> gr X i <= gr X (p / 2)).
Lemma up_ok : forall fuel n p r cs, (1 <= p <= n)%nat -> (n <= length cs)%nat -> (p <= fuel)%nat -> above n p (put cs p r) ->
  exists q cs', dtr_up fuel p r cs = Ok (q, cs') /\ (1 <= q <= n)%nat /\ like n (put cs' q r) (put cs p r) /\ heap n (put cs' q r) /\ length cs' = length cs.
Proof.
  induction fuel as [|fuel IH]; intros n p r cs P Hn Hf [B1 B2]; [lia|]. cbn [dtr_up].
  destruct (Nat.leb_spec 1 (p / 2)) as [L|L].
  - assert (P2 : (2 <= p)%nat) by (destruct p as [|[|p]]; [lia|cbn in L; lia|lia]). assert (HL := half_lt p P2). set (s := (p / 2)%nat) in *.
    rewrite rd_col by lia. destruct (Rltb (c_great (col cs s)) (c_great r)) eqn:C.
    + apply Rltb_spec in C. rewrite wr_col by lia. destruct (IH n s r (put cs p (col cs s))) as (q & cs' & Q1 & Q2 & Q3 & Q4 & Q5); rewrite ?put_len by lia; try lia.
      * assert (G : forall i, (1 <= i)%nat -> gr (put (put cs p (col cs s)) s r) i = if Nat.eqb i s then c_great r else if Nat.eqb i p then gr cs s else gr (put cs p r) i).
        { intros i Hi. rewrite !gr_put by (rewrite ?put_len; lia). destruct (Nat.eqb_spec i s), (Nat.eqb_spec i p); try lia; reflexivity. }
        assert (O : forall i, (1 <= i)%nat -> i <> p -> gr (put cs p r) i = gr cs i) by (intros i Hi N; rewrite gr_put by lia; destruct (Nat.eqb_spec i p); [lia|reflexivity]).
        split.
        -- intros i Hi Ni. assert (HI := half_lt i ltac:(lia)). rewrite !G by lia. destruct (Nat.eqb_spec i s); [lia|]. destruct (Nat.eqb_spec i p) as [->|Np].
           ++ fold s. rewrite Nat.eqb_refl. unfold gr. lra.
           ++ destruct (Nat.eqb_spec (i / 2) s) as [E|E].
              ** assert (X := B1 i Hi Np). rewrite E, (O s) in X by lia. unfold gr in *. lra.
              ** destruct (Nat.eqb_spec (i / 2) p) as [E'|E']; [|now apply B1]. assert (X := B2 i Hi E' P2). fold s in X. rewrite (O s) in X by lia. exact X.
        -- intros i Hi Ei S2. assert (HI := half_lt i ltac:(lia)). assert (HS := half_lt s S2). rewrite !G by lia. destruct (Nat.eqb_spec i s); [lia|]. destruct (Nat.eqb_spec (s / 2) s); [lia|]. destruct (Nat.eqb_spec (s / 2) p); [lia|].
           assert (X : gr (put cs p r) s <= gr (put cs p r) (s / 2)) by (apply B1; lia). rewrite (O s) in X by lia. destruct (Nat.eqb_spec i p) as [->|Np]; [exact X|]. assert (Y := B1 i Hi Np). rewrite Ei, (O s) in Y by lia. lra.
      * exists q, cs'. split; [exact Q1|]. split; [exact Q2|]. split; [|split; [exact Q4|rewrite Q5; apply put_len; lia]]. eapply like_trans; [exact Q3|]. apply like_swap; try lia. reflexivity.
    + apply Rltb_false in C. exists p, cs. split; [reflexivity|]. split; [lia|]. split; [apply like_refl|]. split; [|reflexivity].
      intros i Hi. destruct (Nat.eq_dec i p) as [->|N]; [|now apply B1]. fold s. rewrite !gr_put by lia. rewrite Nat.eqb_refl. destruct (Nat.eqb_spec s p); [lia|]. unfold gr. lra.
  - assert (p = 1)%nat by (destruct p as [|[|p]]; [lia|reflexivity|assert (X := half_lt (S (S p)) ltac:(lia)); lia]). subst p.
    exists 1%nat, cs. split; [reflexivity|]. split; [lia|]. split; [apply like_refl|]. split; [|reflexivity]. intros i Hi. apply B1; lia.
Qed.

(** Taking the first region off *)
Lemma first_snoc : forall {A} (l : list A) n d, (n < length l)%nat -> firstn (S n) l = firstn n l ++ [nth n l d].
Proof. intros A. induction l as [|a l IH]; intros [|n] d H; cbn [length] in H; try lia; [reflexivity|]. cbn [firstn nth app]. f_equal. apply IH. lia. Qed.
Lemma remove_ok : forall n cs, (1 <= n <= length cs)%nat -> heap n cs ->
  exists cs', dtr_remove n cs = Ok ((n - 1)%nat, cs') /\ length cs' = length cs /\ heap (n - 1) cs' /\ Permutation (col cs 1 :: firstn (n - 1) cs') (firstn n cs) /\ forall i, (n <= i)%nat -> col cs' i = col cs i.
Proof.
  intros n cs Hn H. unfold dtr_remove. rewrite rd_col by lia. set (r := col cs n).
  assert (FN : firstn n cs = firstn (n - 1) cs ++ [r]).
  { unfold r, col. replace n with (S (n - 1)) at 1 by lia. apply first_snoc. lia. }
  destruct (Nat.ltb_spec 0 (n - 1)) as [L|L].
  - destruct (down_ok (S (n - 1)) (n - 1) 1 r cs) as (q & cs' & Q1 & Q2 & (Q3 & Q3' & Q3'') & Q4 & Q5); try lia.
    + split; [|intros; lia]. intros i Hi Ni. assert (HI := half_lt i ltac:(lia)). rewrite !gr_put by lia. destruct (Nat.eqb_spec i 1); [lia|]. destruct (Nat.eqb_spec (i / 2) 1); [lia|]. apply H. lia.
    + rewrite Q1. cbn [fst snd]. rewrite wr_col by lia. exists (put cs' q r). split; [reflexivity|]. split; [rewrite put_len; lia|]. split; [exact Q4|]. split.
      * rewrite Q3'. rewrite first_put, FN by lia. rewrite <- (col_first cs (n - 1) 1) by lia. rewrite (perm_put (firstn (n - 1) cs) 1 r) by (rewrite firstn_length; lia). apply Permutation_cons_append.
      * intros i Hi. rewrite Q3'' by lia. rewrite col_put by lia. destruct (Nat.eqb_spec i 1); [lia|reflexivity].
  - assert (n = 1)%nat by lia. subst n. cbn [Nat.sub dtr_down]. cbn [Nat.mul Nat.leb fst snd]. exists cs. split; [reflexivity|]. split; [reflexivity|]. split; [intros i Hi; lia|]. split; [|reflexivity].
    rewrite FN. cbn [Nat.sub firstn app]. apply Permutation_refl.
Qed.
(** Putting the last one in its place *)
Lemma insert_ok : forall n cs, (1 <= n <= length cs)%nat -> heap (n - 1) cs -> exists cs', dtr_insert n cs = Ok cs' /\ like n cs' cs /\ heap n cs'.
Proof.
  intros n cs Hn H. unfold dtr_insert. rewrite rd_col by lia. destruct (up_ok (S n) n n (col cs n) cs) as (q & cs' & Q1 & Q2 & Q3 & Q4 & Q5); try lia.
  - rewrite put_same by lia. split; [intros i Hi Ni; apply H; lia|]. intros i Hi Ei _. destruct (half_is i n Ei); lia.
  - rewrite Q1. cbn [fst snd]. destruct (Nat.ltb_spec 0 n); [|lia]. rewrite wr_col by lia. exists (put cs' q (col cs n)). rewrite put_same in Q3 by lia. auto.
Qed.
(** The first is the greatest *)
Lemma heap_top : forall n cs i, heap n cs -> (1 <= i <= n)%nat -> gr cs i <= gr cs 1.
Proof.
  intros n cs i H. induction i as [i IH] using lt_wf_ind. intros Hi. destruct (Nat.eq_dec i 1) as [->|N]; [lra|]. assert (HL := half_lt i ltac:(lia)). specialize (IH (i / 2)%nat ltac:(lia) ltac:(lia)). specialize (H i ltac:(lia)). lra.
Qed.

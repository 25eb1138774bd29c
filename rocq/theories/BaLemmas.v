From Coq Require Import List Bool Arith Reals Lia Lra Psatz.
From Verif Require Import Exn Instances McModel CountSpec CountLemmas BaModel BaSpec.
Import ListNotations.
Open Scope R_scope.

(** ** Sums *)
Lemma so_swap : forall n m (f : nat -> nat -> R) a b, sum_over a n (fun i => sum_over b m (f i)) = sum_over b m (fun j => sum_over a n (fun i => f i j)).
Proof.
  intros n. induction n as [|n IH]; intros m f a b.
  - rewrite so_0. symmetry. rewrite (so_ext m b _ (fun _ => 0)) by (intros; apply so_0). rewrite so_const. ring.
  - rewrite so_end, IH. rewrite <- so_plus. apply so_ext. intros i Hi. now rewrite so_end.
Qed.
Lemma so_scal_r : forall n a f c, sum_over a n (fun i => f i * c) = sum_over a n f * c.
Proof. intros n a f c. rewrite Rmult_comm, <- so_scal. apply so_ext. intros. ring. Qed.
Lemma so_minus : forall n a f g, sum_over a n (fun i => f i - g i) = sum_over a n f - sum_over a n g.
Proof.
  intros n a f g. rewrite (so_ext n a _ (fun i => f i + (-1) * g i)) by (intros; ring). rewrite so_plus, so_scal. ring.
Qed.
Lemma so_zero : forall n a f, (forall i, (a <= i < a + n)%nat -> f i = 0) -> sum_over a n f = 0.
Proof. intros n a f H. rewrite (so_ext n a f (fun _ => 0) H), so_const. ring. Qed.
Lemma so_trunc : forall n k f, (k <= n)%nat -> (forall i, (k <= i < n)%nat -> f i = 0) -> sum_over 0 n f = sum_over 0 k f.
Proof.
  intros n k f H Z. replace n with (k + (n - k))%nat by lia. rewrite so_app. rewrite (so_zero (n - k)); [ring|]. intros i Hi. apply Z. lia.
Qed.
Lemma so_drop : forall n k f, (k <= n)%nat -> (forall i, (i < k)%nat -> f i = 0) -> sum_over 0 n f = sum_over k (n - k) f.
Proof.
  intros n k f H Z. replace n with (k + (n - k))%nat at 1 by lia. rewrite so_app. rewrite (so_zero k); [cbn [Nat.add]; ring|]. intros i Hi. apply Z. lia.
Qed.
Lemma so_one : forall n a f i, (a <= i < a + n)%nat -> (forall j, (a <= j < a + n)%nat -> j <> i -> f j = 0) -> sum_over a n f = f i.
Proof.
  intros n. induction n as [|n IH]; intros a f i Hi Z; [lia|]. rewrite so_front. destruct (Nat.eq_dec i a) as [->|N].
  - rewrite so_zero; [ring|]. intros j Hj. apply Z; lia.
  - rewrite (Z a) by lia. rewrite (IH (S a) f i); [ring|lia|]. intros j Hj Nj. apply Z; lia.
Qed.
Lemma so_sq_zero : forall n a f, sum_over a n (fun i => f i * f i) <= 0 -> forall i, (a <= i < a + n)%nat -> f i = 0.
Proof.
  intros n. induction n as [|n IH]; intros a f H i Hi; [lia|]. rewrite so_front in H.
  assert (P : 0 <= sum_over (S a) n (fun i => f i * f i)) by (apply so_nonneg; intros; nra).
  destruct (Nat.eq_dec i a) as [->|N]; [nra|]. apply (IH (S a)); [nra|lia].
Qed.

(** ** Arrays *)
Lemma upd_len : forall A i (v : A) p, (i < length p)%nat -> length (upd i v p) = length p.
Proof. intros A i v p H. unfold upd. rewrite app_length. cbn [length]. rewrite firstn_length, skipn_length. lia. Qed.
Lemma rd_upd : forall A i (v : A) p j, (i < length p)%nat -> rd (upd i v p) j = if Nat.eqb j i then Ok v else rd p j.
Proof.
  intros A i v p j H. unfold rd, upd. destruct (Nat.eqb_spec j i) as [->|N].
  - rewrite nth_error_app2; rewrite firstn_length; [|lia]. replace (i - min i (length p))%nat with 0%nat by lia. reflexivity.
  - destruct (Nat.lt_ge_cases j i) as [L|L].
    + rewrite nth_error_app1 by (rewrite firstn_length; lia). rewrite <- (firstn_skipn i p) at 2. rewrite nth_error_app1 by (rewrite firstn_length; lia). reflexivity.
    + rewrite nth_error_app2 by (rewrite firstn_length; lia). rewrite firstn_length. replace (j - min i (length p))%nat with (S (j - S i)) by lia. cbn [nth_error].
      rewrite <- (firstn_skipn (S i) p) at 2. rewrite nth_error_app2 by (rewrite firstn_length; lia). rewrite firstn_length. now replace (j - min (S i) (length p))%nat with (j - S i)%nat by lia.
Qed.
Lemma wr_ok : forall A p i (v : A), (i < length p)%nat -> wr p i v = Ok (upd i v p).
Proof. intros A p i v H. unfold wr. now rewrite (proj2 (Nat.ltb_lt i (length p)) H). Qed.
Lemma rd_lt : forall A (p : list A) i, (i < length p)%nat -> exists v, rd p i = Ok v.
Proof. intros A p i H. unfold rd. destruct (nth_error p i) eqn:E; [eexists; reflexivity|]. apply nth_error_None in E. lia. Qed.
Lemma rd_nth : forall (p : list R) i, (i < length p)%nat -> rd p i = Ok (nth i p 0).
Proof. intros p i H. unfold rd. now rewrite (nth_error_nth' p 0 H). Qed.
Lemma nth_rd : forall (p : list R) i v, rd p i = Ok v -> nth i p 0 = v.
Proof. intros p i v H. unfold rd in H. destruct (nth_error p i) eqn:E; [|discriminate]. injection H as <-. now apply nth_error_nth. Qed.
Lemma rd_repeat : forall A (v : A) n i, (i < n)%nat -> rd (repeat v n) i = Ok v.
Proof. intros A v n i H. unfold rd. rewrite (nth_error_nth' (repeat v n) v) by now rewrite repeat_length. now rewrite nth_repeat. Qed.

(** Lists that hold a vector, and a square matrix. *)
Definition vrep (n : nat) (p : list R) (F : nat -> R) : Prop := length p = n /\ forall i, (i < n)%nat -> rd p i = Ok (F i).
Definition mrep (n : nat) (p : list R) (F : nat -> nat -> R) : Prop := length p = (n * n)%nat /\ forall i j, (i < n)%nat -> (j < n)%nat -> rd p (i * n + j) = Ok (F i j).
Lemma place : forall n i j, (i < n)%nat -> (j < n)%nat -> (i * n + j < n * n)%nat.
Proof. intros n i j Hi Hj. nia. Qed.
Lemma place_inj : forall n i j k l, (j < n)%nat -> (l < n)%nat -> (i * n + j = k * n + l)%nat -> i = k /\ j = l.
Proof. intros n i j k l Hj Hl E. assert (i = k) by nia. subst k. split; [reflexivity|lia]. Qed.
Lemma mrep_wr : forall n p F a b v, mrep n p F -> (a < n)%nat -> (b < n)%nat -> exists p', wr p (a * n + b) v = Ok p' /\ mrep n p' (fun i j => if (Nat.eqb i a && Nat.eqb j b)%bool then v else F i j).
Proof.
  intros n p F a b v [L H] A B. assert (LT : (a * n + b < length p)%nat) by (rewrite L; now apply place). exists (upd (a * n + b) v p). split; [now apply wr_ok|]. split; [now rewrite upd_len|].
  intros i j I J. rewrite rd_upd by exact LT. destruct (Nat.eqb_spec (i * n + j) (a * n + b)) as [E|E].
  - destruct (place_inj n i j a b J B E) as [-> ->]. now rewrite !Nat.eqb_refl.
  - destruct (Nat.eqb_spec i a) as [->|]; cbn [andb]; [|now apply H]. destruct (Nat.eqb_spec j b) as [->|]; [congruence|now apply H].
Qed.
Lemma vrep_wr : forall n p F a v, vrep n p F -> (a < n)%nat -> exists p', wr p a v = Ok p' /\ vrep n p' (fun i => if Nat.eqb i a then v else F i).
Proof.
  intros n p F a v [L H] A. exists (upd a v p). split; [apply wr_ok; lia|]. split; [rewrite upd_len; lia|]. intros i I. rewrite rd_upd by lia. destruct (Nat.eqb i a); [reflexivity|now apply H].
Qed.
Lemma mrep_ext : forall n p F G, mrep n p F -> (forall i j, (i < n)%nat -> (j < n)%nat -> F i j = G i j) -> mrep n p G.
Proof. intros n p F G [L H] E. split; [exact L|]. intros i j I J. rewrite <- E by assumption. now apply H. Qed.

(** ** Loops *)
Lemma iter_app : forall S l1 l2 body (s : S), iter (l1 ++ l2) body s = let! s' := iter l1 body s in iter l2 body s'.
Proof. intros S l1. induction l1 as [|i l1 IH]; intros l2 body s; [reflexivity|]. cbn. destruct (body i s); [apply IH|reflexivity]. Qed.
Lemma iter_up : forall S (P : nat -> S -> Prop) n lo body s, P lo s ->
  (forall i s, (lo <= i < lo + n)%nat -> P i s -> exists s', body i s = Ok s' /\ P (Datatypes.S i) s') -> exists s', iter (seq lo n) body s = Ok s' /\ P (lo + n)%nat s'.
Proof.
  intros S P n. induction n as [|n IH]; intros lo body s H0 H; cbn [seq iter].
  - exists s. split; [reflexivity|now rewrite Nat.add_0_r].
  - destruct (H lo s ltac:(lia) H0) as [s1 [E1 P1]]. rewrite E1. destruct (IH (Datatypes.S lo) body s1 P1) as [s2 [E2 P2]]; [intros i t Hi; apply H; lia|]. exists s2. split; [exact E2|]. now replace (lo + Datatypes.S n)%nat with (Datatypes.S lo + n)%nat by lia.
Qed.
Lemma iter_down : forall S (P : nat -> S -> Prop) n body s, P n s ->
  (forall i s, (i < n)%nat -> P (Datatypes.S i) s -> exists s', body i s = Ok s' /\ P i s') -> exists s', iter (rev (seq 0 n)) body s = Ok s' /\ P 0%nat s'.
Proof.
  intros S P n. induction n as [|n IH]; intros body s H0 H; [exists s; now split|]. rewrite seq_S, rev_app_distr. cbn [rev app iter Nat.add].
  destruct (H n s ltac:(lia) H0) as [s1 [E1 P1]]. rewrite E1. apply IH; [exact P1|]. intros i t Hi. apply H. lia.
Qed.
(** with a way out *)
Lemma iter_up_or : forall S (P : nat -> S -> Prop) (X : res S -> Prop) n lo body s, P lo s -> (forall r, X r -> exists e, r = Err e) ->
  (forall i s, (lo <= i < lo + n)%nat -> P i s -> (exists s', body i s = Ok s' /\ P (Datatypes.S i) s') \/ X (body i s)) ->
  (exists s', iter (seq lo n) body s = Ok s' /\ P (lo + n)%nat s') \/ X (iter (seq lo n) body s).
Proof.
  intros S P X n. induction n as [|n IH]; intros lo body s H0 HX H; cbn [seq iter].
  - left. exists s. split; [reflexivity|now rewrite Nat.add_0_r].
  - destruct (H lo s ltac:(lia) H0) as [[s1 [E1 P1]]|E1].
    + rewrite E1. destruct (IH (Datatypes.S lo) body s1 P1 HX) as [[s2 [E2 P2]]|E2]; [intros i t Hi; apply H; lia| |right; exact E2]. left. exists s2. split; [exact E2|]. now replace (lo + Datatypes.S n)%nat with (Datatypes.S lo + n)%nat by lia.
    + right. destruct (HX _ E1) as [e E]. rewrite E in *. exact E1.
Qed.

(** Loops that add up products *)
Lemma add_loop : forall n lo (p q : list R) (f g : nat -> nat) (X Y : nat -> R) s, (forall i, (lo <= i < lo + n)%nat -> rd p (f i) = Ok (X i) /\ rd q (g i) = Ok (Y i)) ->
  iter (seq lo n) (fun i sum => let! x := rd p (f i) in let! y := rd q (g i) in Ok (sum + x * y)) s = Ok (s + sum_over lo n (fun i => X i * Y i)).
Proof.
  intros n. induction n as [|n IH]; intros lo p q f g X Y s H; [cbn [seq iter rev]; rewrite so_0; f_equal; ring|]. cbn [seq iter]. destruct (H lo ltac:(lia)) as [-> ->]. rewrite (IH (S lo) p q f g X Y) by (intros i Hi; apply H; lia). rewrite so_front. f_equal. ring.
Qed.
Lemma sub_loop : forall n lo (p q : list R) (f g : nat -> nat) (X Y : nat -> R) s, (forall i, (lo <= i < lo + n)%nat -> rd p (f i) = Ok (X i) /\ rd q (g i) = Ok (Y i)) ->
  iter (seq lo n) (fun i sum => let! x := rd p (f i) in let! y := rd q (g i) in Ok (sum - x * y)) s = Ok (s - sum_over lo n (fun i => X i * Y i)).
Proof.
  intros n. induction n as [|n IH]; intros lo p q f g X Y s H; [cbn [seq iter rev]; rewrite so_0; f_equal; ring|]. cbn [seq iter]. destruct (H lo ltac:(lia)) as [-> ->]. rewrite (IH (S lo) p q f g X Y) by (intros i Hi; apply H; lia). rewrite so_front. f_equal. ring.
Qed.
Lemma sub_loop_down : forall n (p q : list R) (f g : nat -> nat) (X Y : nat -> R) s, (forall i, (i < n)%nat -> rd p (f i) = Ok (X i) /\ rd q (g i) = Ok (Y i)) ->
  iter (rev (seq 0 n)) (fun i sum => let! x := rd p (f i) in let! y := rd q (g i) in Ok (sum - x * y)) s = Ok (s - sum_over 0 n (fun i => X i * Y i)).
Proof.
  intros n. induction n as [|n IH]; intros p q f g X Y s H; [cbn [seq iter rev]; rewrite so_0; f_equal; ring|]. rewrite seq_S, rev_app_distr. cbn [rev app iter Nat.add]. destruct (H n ltac:(lia)) as [-> ->]. rewrite (IH p q f g X Y) by (intros i Hi; apply H; lia). rewrite so_end. cbn [Nat.add]. f_equal. ring.
Qed.

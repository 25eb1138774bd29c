(** Lemmas for the inclusion probabilities: sums over ordered samples. *)

From Coq Require Import ZArith List Bool Arith Reals Lia Lra.
From Verif Require Import Exn Instances CountSpec CountLemmas.
Import ListNotations.
Open Scope R_scope.

Definition mem (j : nat) (s : list nat) : bool := existsb (Nat.eqb j) s.
Lemma mem_in : forall j s, mem j s = true <-> In j s.
Proof.
  intros j s. unfold mem. rewrite existsb_exists. split; [intros [k [K E]]; apply Nat.eqb_eq in E; now subst|]. intros I. exists j. split; [exact I|apply Nat.eqb_refl].
Qed.
Lemma mem_ext : forall s s', (forall j, In j s <-> In j s') -> forall j, mem j s = mem j s'.
Proof. intros s s' H j. apply eq_true_iff_eq. rewrite !mem_in. apply H. Qed.

Section Sums.
Variable N : nat.
Variable l : nat -> R.

(** The sum over the positions not in s. *)
Definition rest (s : list nat) (f : nat -> R) : R := sum_over 0 N (fun j => if mem j s then 0 else f j).
Lemma rest_ext : forall s s' f g, (forall j, In j s <-> In j s') -> (forall j, (j < N)%nat -> ~ In j s -> f j = g j) -> rest s f = rest s' g.
Proof.
  intros s s' f g S F. unfold rest. apply so_ext. intros j J. rewrite (mem_ext s s' S j). destruct (mem j s') eqn:M; [reflexivity|].
  apply F; [lia|]. intros I. apply S in I. apply mem_in in I. congruence.
Qed.
Lemma rest_plus : forall s f g, rest s (fun j => f j + g j) = rest s f + rest s g.
Proof. intros s f g. unfold rest. rewrite <- so_plus. apply so_ext. intros j _. destruct (mem j s); ring. Qed.
Lemma rest_scal : forall s f c, rest s (fun j => c * f j) = c * rest s f.
Proof. intros s f c. unfold rest. rewrite <- so_scal. apply so_ext. intros j _. destruct (mem j s); ring. Qed.
Lemma so_single : forall n a i c, (a <= i < a + n)%nat -> sum_over a n (fun j => if Nat.eqb j i then c else 0) = c.
Proof.
  induction n as [|n IH]; intros a i c H; [lia|]. rewrite so_front. destruct (Nat.eqb_spec a i) as [->|D].
  - replace (sum_over (S i) n (fun j => if Nat.eqb j i then c else 0)) with (sum_over (S i) n (fun _ => 0)); [rewrite so_const; ring|].
    apply so_ext. intros j J. destruct (Nat.eqb_spec j i); [lia|reflexivity].
  - rewrite IH by lia. ring.
Qed.
Lemma rest_out : forall s i f, (i < N)%nat -> ~ In i s -> rest s f = f i + rest (i :: s) f.
Proof.
  intros s i f I H. unfold rest. rewrite <- (so_single N 0 i (f i)) at 1 by lia. rewrite <- so_plus. apply so_ext. intros j _.
  unfold mem. cbn [existsb]. destruct (Nat.eqb_spec j i) as [->|D]; cbn [orb]; [|destruct (existsb (Nat.eqb j) s); ring].
  destruct (existsb (Nat.eqb i) s) eqn:M; [|ring]. exfalso. apply H. now apply mem_in.
Qed.
Lemma rest_nonneg : forall s f, (forall j, (j < N)%nat -> 0 <= f j) -> 0 <= rest s f.
Proof. intros s f H. unfold rest. apply so_nonneg. intros j J. destruct (mem j s); [lra|apply H; lia]. Qed.
Lemma rest_pos : forall s f i, (forall j, (j < N)%nat -> 0 <= f j) -> (i < N)%nat -> ~ In i s -> 0 < f i -> 0 < rest s f.
Proof. intros s f i H I M P. rewrite (rest_out s i f I M). pose proof (rest_nonneg (i :: s) f H). lra. Qed.

(** The sum over ordered samples of m different positions, none in s, of the
    product of their values. *)
Fixpoint E (m : nat) (s : list nat) : R := match m with O => 1 | S m' => rest s (fun j => l j * E m' (j :: s)) end.
Lemma E_set : forall m s s', (forall j, In j s <-> In j s') -> E m s = E m s'.
Proof.
  induction m as [|m IH]; intros s s' H; [reflexivity|]. cbn [E]. apply rest_ext; [exact H|]. intros j _ _. f_equal. apply IH. intros k. cbn [In]. now rewrite H.
Qed.
Lemma E_swap : forall m i j s, E m (i :: j :: s) = E m (j :: i :: s).
Proof. intros m i j s. apply E_set. intros k. cbn [In]. tauto. Qed.
Lemma E_nonneg : forall m s, (forall j, (j < N)%nat -> 0 <= l j) -> 0 <= E m s.
Proof.
  induction m as [|m IH]; intros s H; cbn [E]; [lra|]. apply rest_nonneg. intros j J. apply Rmult_le_pos; [now apply H|now apply IH].
Qed.
(** Without or with i. *)
Lemma E_with : forall m s i, (i < N)%nat -> ~ In i s -> E (S m) s = E (S m) (i :: s) + INR (S m) * l i * E m (i :: s).
Proof.
  induction m as [|m IH]; intros s i I M.
  - change (E 1 s) with (rest s (fun j => l j * E 0 (j :: s))). rewrite (rest_out s i _ I M). cbn [E INR]. ring.
  - change (E (S (S m)) s) with (rest s (fun j => l j * E (S m) (j :: s))). rewrite (rest_out s i _ I M).
    replace (rest (i :: s) (fun j => l j * E (S m) (j :: s))) with (rest (i :: s) (fun j => l j * E (S m) (j :: i :: s) + (INR (S m) * l i) * (l j * E m (j :: i :: s)))).
    + rewrite rest_plus, rest_scal. change (rest (i :: s) (fun j => l j * E (S m) (j :: i :: s))) with (E (S (S m)) (i :: s)).
      change (rest (i :: s) (fun j => l j * E m (j :: i :: s))) with (E (S m) (i :: s)). rewrite (S_INR (S m)). ring.
    + apply rest_ext; [tauto|]. intros j J Q. rewrite (IH (j :: s) i I) by (cbn [In] in *; intros [->|K]; tauto). rewrite !(E_swap _ i j s). ring.
Qed.
(** The same sum over the samples that contain x. *)
Fixpoint H (x m : nat) (s : list nat) : R :=
  match m with O => if mem x s then 1 else 0 | S m' => rest s (fun j => l j * H x m' (j :: s)) end.
Lemma H_set : forall x m s s', (forall j, In j s <-> In j s') -> H x m s = H x m s'.
Proof.
  induction m as [|m IH]; intros s s' S; cbn [H]; [now rewrite (mem_ext s s' S)|]. apply rest_ext; [exact S|]. intros j _ _. f_equal. apply IH. intros k. cbn [In]. now rewrite S.
Qed.
Lemma H_in : forall x m s, In x s -> H x m s = E m s.
Proof.
  induction m as [|m IH]; intros s I; cbn [H E]; [now rewrite (proj2 (mem_in x s) I)|]. apply rest_ext; [tauto|]. intros j _ _. rewrite IH; [reflexivity|now right].
Qed.
Lemma H_out : forall x m s, (x < N)%nat -> ~ In x s -> H x m s = E m s - E m (x :: s).
Proof.
  induction m as [|m IH]; intros s X M; cbn [H E].
  - destruct (mem x s) eqn:B; [apply mem_in in B; contradiction|ring].
  - rewrite !(rest_out s x _ X M). rewrite H_in by now left.
    replace (rest (x :: s) (fun j => l j * H x m (j :: s))) with (rest (x :: s) (fun j => l j * E m (j :: s) + (-1) * (l j * E m (j :: x :: s)))).
    + rewrite rest_plus, rest_scal. ring.
    + apply rest_ext; [tauto|]. intros j J I. rewrite IH; [|exact X|cbn [In] in *; intros [->|K]; tauto]. rewrite (E_swap m x j s). ring.
Qed.

(** ** Proportional to size *)

Variable p : nat -> R.
Variable n : nat.
Hypothesis n1 : (1 <= n)%nat.
Hypothesis psum : sum_over 0 N p = 1.
Hypothesis rel : forall j, (j < N)%nat -> l j - p j = INR n * p j * l j.
Definition whole : R := sum_over 0 N (fun i => p i * E (n - 1) [i]).
Definition part (x : nat) : R := sum_over 0 N (fun i => p i * H x (n - 1) [i]).
Lemma so_rest : forall f, sum_over 0 N f = rest [] f.
Proof. intros f. apply so_ext. reflexivity. Qed.
Theorem part_is : forall x, (x < N)%nat -> part x = INR n * p x * whole.
Proof.
  intros x X. unfold part, whole. rewrite !so_rest. rewrite !(rest_out [] x _ X) by (intros []).
  rewrite H_in by now left. set (A := E (n - 1) [x]).
  replace (rest [x] (fun i => p i * H x (n - 1) [i])) with (rest [x] (fun i => p i * E (n - 1) [i] + (-1) * (p i * E (n - 1) [x; i]))).
  2: { apply rest_ext; [tauto|]. intros i I M. rewrite H_out; [ring|exact X|cbn [In] in *; intros [->|[]]; tauto]. }
  rewrite rest_plus, rest_scal. set (B := rest [x] (fun i => p i * E (n - 1) [x; i])). set (W := rest [x] (fun i => p i * E (n - 1) [i])).
  assert (P1 : p x + rest [x] p = 1) by (rewrite <- psum, so_rest; symmetry; apply rest_out; [exact X|intros []]).
  assert (R : l x - p x = INR n * p x * l x) by now apply rel.
  destruct n as [|[|m]] eqn:EN; [lia| |].
  - (* one item *)
    assert (B1 : B = 1 - p x). { replace (1 - p x) with (rest [x] p) by lra. unfold B. apply rest_ext; [tauto|]. intros i _ _. change (E (1 - 1) [x; i]) with 1. ring. }
    assert (W1 : W = 1 - p x). { replace (1 - p x) with (rest [x] p) by lra. unfold W. apply rest_ext; [tauto|]. intros i _ _. change (E (1 - 1) [i]) with 1. ring. }
    unfold A. change (E (1 - 1) [x]) with 1. rewrite B1, W1. cbn [INR]. ring.
  - set (B' := rest [x] (fun i => p i * E m [x; i])).
    assert (EW : W = B + INR (S m) * l x * B').
    { unfold W, B, B'. change (S (S m) - 1)%nat with (S m). rewrite <- rest_scal, <- rest_plus. apply rest_ext; [tauto|]. intros i I M. rewrite (E_with m [i] x X) by (cbn [In] in *; intros [->|[]]; tauto). ring. }
    assert (EA : A = rest [x] (fun i => l i * E m [x; i])).
    { unfold A. change (S (S m) - 1)%nat with (S m). cbn [E]. apply rest_ext; [tauto|]. intros i _ _. now rewrite (E_swap m i x []). }
    assert (EB : INR (S (S m)) * B = INR (S (S m)) * (1 - p x) * A - INR (S m) * A + INR (S m) * B').
    { rewrite EA at 2. replace (1 - p x) with (rest [x] p) by lra. unfold B, B'. change (S (S m) - 1)%nat with (S m).
      replace (INR (S (S m)) * rest [x] p * A) with (rest [x] (fun i => (INR (S (S m)) * A) * p i)) by (rewrite rest_scal; ring).
      rewrite <- !rest_scal. unfold Rminus. replace (- rest [x] (fun j => INR (S m) * (l j * E m [x; j]))) with (rest [x] (fun j => (-1) * (INR (S m) * (l j * E m [x; j])))) by (rewrite rest_scal; ring).
      rewrite <- !rest_plus. apply rest_ext; [tauto|]. intros i I M.
      assert (EX : A = E (S m) [x; i] + INR (S m) * l i * E m [x; i]).
      { unfold A. change (S (S m) - 1)%nat with (S m). rewrite (E_with m [x] i I) by (cbn [In] in *; tauto). now rewrite !(E_swap _ i x []). }
      rewrite EX. pose proof (rel i I) as Ri.
      replace (INR (S (S m)) * (p i * E (S m) [x; i])) with (INR (S (S m)) * p i * E (S m) [x; i]) by ring.
      replace (INR (S m) * (l i * E m [x; i])) with (INR (S m) * E m [x; i] * l i) by ring.
      replace (INR (S (S m)) * (E (S m) [x; i] + INR (S m) * l i * E m [x; i]) * p i) with (INR (S (S m)) * p i * E (S m) [x; i] + INR (S m) * E m [x; i] * (INR (S (S m)) * p i * l i)) by ring.
      rewrite <- Ri. ring. }
    assert (KL : INR (S (S m)) * p x * l x = l x - p x) by lra.
    rewrite EW. rewrite (S_INR (S m)) in *.
    (* p A + B + (n-1) l B' - B = n p (p A + B + (n-1) l B') *)
    replace (p x * A + (B + INR (S m) * l x * B' + -1 * B)) with (p x * A + INR (S m) * l x * B') by ring.
    replace ((INR (S m) + 1) * p x * (p x * A + (B + INR (S m) * l x * B'))) with
      ((INR (S m) + 1) * p x * p x * A + p x * ((INR (S m) + 1) * B) + INR (S m) * B' * ((INR (S m) + 1) * p x * l x)) by ring.
    rewrite EB, KL. ring.
Qed.

(** ** Something is drawn *)

Hypothesis p0 : forall j, (j < N)%nat -> 0 <= p j.
Hypothesis l0 : forall j, (j < N)%nat -> 0 <= l j /\ (0 < p j -> 0 < l j).
Hypothesis small : forall j, (j < N)%nat -> INR n * p j < 1.
Lemma support : forall s f, (forall j, (j < N)%nat -> ~ In j s -> f j = 0) -> (forall j, (j < N)%nat -> 0 <= f j /\ INR n * f j < 1) -> s <> [] -> (length s <= n)%nat -> INR n * sum_over 0 N f < INR (length s).
Proof.
  intros s f Z B S L. clear L.
  assert (G : forall s f, (forall j, (j < N)%nat -> ~ In j s -> f j = 0) -> (forall j, (j < N)%nat -> 0 <= f j /\ INR n * f j < 1) ->
    INR n * sum_over 0 N f <= INR (length s) /\ (s <> [] -> INR n * sum_over 0 N f < INR (length s))).
  { clear s f Z B S. induction s as [|a s IH]; intros f Z B.
    - rewrite (so_ext N 0 f (fun _ => 0)) by (intros j J; apply Z; [lia|intros []]). rewrite so_const. cbn. split; [lra|now intros []].
    - set (g := fun j => if Nat.eqb j a then 0 else f j).
      assert (Zg : forall j, (j < N)%nat -> ~ In j s -> g j = 0). { intros j J M. unfold g. destruct (Nat.eqb_spec j a) as [->|D]; [reflexivity|]. apply Z; [exact J|]. intros [K|K]; [congruence|contradiction]. }
      assert (Bg : forall j, (j < N)%nat -> 0 <= g j /\ INR n * g j < 1). { intros j J. unfold g. destruct (Nat.eqb j a); [split; lra|now apply B]. }
      destruct (IH g Zg Bg) as [I _]. change (length (a :: s)) with (S (length s)). rewrite S_INR.
      destruct (Nat.lt_ge_cases a N) as [J|J].
      + assert (EQ : sum_over 0 N f = f a + sum_over 0 N g).
        { rewrite <- (so_single N 0 a (f a)) by lia. rewrite <- so_plus. apply so_ext. intros j _. unfold g. destruct (Nat.eqb_spec j a) as [->|]; ring. }
        destruct (B a J) as [_ Ba]. rewrite EQ. split; [|intros _]; lra.
      + assert (EQ : sum_over 0 N f = sum_over 0 N g). { apply so_ext. intros j K. unfold g. destruct (Nat.eqb_spec j a); [lia|reflexivity]. }
        rewrite EQ. split; [|intros _]; lra. }
  now apply G.
Qed.
Lemma one_more : forall s, (length s <= n)%nat -> exists j, (j < N)%nat /\ ~ In j s /\ 0 < p j.
Proof.
  intros s L. destruct (List.Exists_dec (fun j => ~ In j s /\ 0 < p j) (seq 0 N)) as [X|X].
  - intros j. destruct (in_dec Nat.eq_dec j s) as [I|I]; [right; tauto|]. destruct (Rlt_dec 0 (p j)); [left; tauto|right; tauto].
  - apply Exists_exists in X. destruct X as [j [J [M P]]]. exists j. apply in_seq in J. split; [lia|]. tauto.
  - exfalso. assert (Z : forall j, (j < N)%nat -> ~ In j s -> p j = 0).
    { intros j J M. specialize (p0 j J). destruct (Rlt_dec 0 (p j)) as [P|P]; [|lra]. exfalso. apply X. apply Exists_exists. exists j. split; [apply in_seq; lia|tauto]. }
    destruct s as [|a s].
    + assert (sum_over 0 N p = 0); [|lra]. rewrite (so_ext N 0 p (fun _ => 0)) by (intros j J; apply Z; [lia|intros []]). rewrite so_const. ring.
    + pose proof (support (a :: s) p Z (fun j J => conj (p0 j J) (small j J)) ltac:(discriminate) L) as K. rewrite psum in K.
      apply le_INR in L. lra.
Qed.
Lemma E_pos : forall m s, (length s + m <= n)%nat -> 0 < E m s.
Proof.
  induction m as [|m IH]; intros s L; cbn [E]; [lra|]. destruct (one_more s ltac:(lia)) as [j [J [M P]]].
  apply rest_pos with j; [|exact J|exact M|].
  - intros k K. apply Rmult_le_pos; [apply (l0 k K)|]. apply E_nonneg. intros i I. apply (l0 i I).
  - apply Rmult_lt_0_compat; [now apply (l0 j J)|]. apply IH. cbn [length]. lia.
Qed.
Theorem whole_pos : 0 < whole.
Proof.
  unfold whole. rewrite so_rest. destruct (one_more [] ltac:(cbn; lia)) as [j [J [M P]]]. apply rest_pos with j; [|exact J|exact M|].
  - intros k K. apply Rmult_le_pos; [now apply p0|]. apply E_nonneg. intros i I. apply (l0 i I).
  - apply Rmult_lt_0_compat; [exact P|]. apply E_pos. cbn [length]. lia.
Qed.
End Sums.

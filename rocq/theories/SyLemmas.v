(** Sums over vectors of naturals and products of series *)

From Coq Require Import List Bool Arith ZArith Reals Permutation Lra Lia.
From Verif Require Import Exn.
Import ListNotations.
Open Scope R_scope.

(** The sum of g 0, ..., g d *)
Definition sg (d : nat) (g : nat -> R) : R := sum_f_R0 g d.
Lemma sg_0 : forall g, sg 0 g = g 0%nat.
Proof. reflexivity. Qed.
Lemma sg_S : forall d g, sg (S d) g = sg d g + g (S d).
Proof. reflexivity. Qed.
Lemma sg_ext : forall d g h, (forall i, (i <= d)%nat -> g i = h i) -> sg d g = sg d h.
Proof. intros d g h H. apply sum_eq. exact H. Qed.
Lemma sg_mul : forall d c g, c * sg d g = sg d (fun i => c * g i).
Proof. intros d c g. unfold sg. rewrite scal_sum. apply sum_eq. intros; ring. Qed.
Lemma sg_plus : forall d g h, sg d g + sg d h = sg d (fun i => g i + h i).
Proof. intros d g h. unfold sg. symmetry. apply plus_sum. Qed.
Lemma sg_first : forall d g, sg (S d) g = g 0%nat + sg d (fun i => g (S i)).
Proof. intros d g. induction d as [|d IH]; [reflexivity|]. rewrite sg_S, IH, (sg_S d (fun i => g (S i))). ring. Qed.
Lemma sg_zero : forall d g, (forall i, (i <= d)%nat -> g i = 0) -> sg d g = 0.
Proof. induction d as [|d IH]; intros g H; [apply H; lia|]. rewrite sg_S, IH, H by (intros; auto); ring. Qed.
Lemma sg_cut : forall m d g, (m <= d)%nat -> (forall i, (m < i <= d)%nat -> g i = 0) -> sg d g = sg m g.
Proof.
  intros m d g H. induction H as [|d H IH]; intros Z; [reflexivity|]. rewrite sg_S, (Z (S d)) by lia. rewrite IH; [ring|]. intros i Hi. apply Z. lia.
Qed.

(** Triangular sums *)
Lemma tri : forall d (H : nat -> nat -> R), sg d (fun q => sg q (fun p => H p (q - p)%nat)) = sg d (fun p => sg (d - p) (fun q => H p q)).
Proof.
  induction d as [|d IH]; intros H; [reflexivity|].
  rewrite sg_S, IH. rewrite (sg_first d (fun p => H p (S d - p)%nat)). rewrite (sg_first d (fun p => sg (S d - p) _)). rewrite !Nat.sub_0_r, sg_S.
  rewrite (sg_ext d (fun p => sg (S d - S p) (fun q => H (S p) q)) (fun p => sg (d - p) (fun q => H (S p) q))) by (intros; f_equal; lia).
  destruct d as [|d].
  - unfold sg. cbn [sum_f_R0 Nat.sub]. ring.
  - rewrite (sg_first d (fun p => sg (S d - p) (fun q => H p q))), Nat.sub_0_r.
    assert (E : sg d (fun i => sg (S d - S i) (fun q => H (S i) q)) + sg (S d) (fun i => H (S i) (S (S d) - S i)%nat) = sg (S d) (fun p => sg (S d - p) (fun q => H (S p) q))); [|lra].
    rewrite (sg_S d (fun i => H (S i) _)), (sg_S d (fun p => sg (S d - p) _)). cbv beta.
    replace (S d - S d)%nat with 0%nat by lia. rewrite sg_0.    replace (S (S d) - S (S d))%nat with 0%nat by lia.
    assert (X : sg d (fun i => sg (S d - S i) (fun q => H (S i) q)) + sg d (fun i => H (S i) (S (S d) - S i)%nat) = sg d (fun p => sg (S d - p) (fun q => H (S p) q))); [|lra].
    rewrite sg_plus. apply sg_ext. intros i Hi. replace (S d - i)%nat with (S (d - i)) by lia. rewrite sg_S. replace (S d - S i)%nat with (d - i)%nat by lia. do 2 f_equal. lia.
Qed.
Lemma tri_swap : forall d (H : nat -> nat -> R), sg d (fun p => sg (d - p) (fun q => H p q)) = sg d (fun q => sg (d - q) (fun p => H p q)).
Proof.
  intros d H. rewrite <- (tri d H), <- (tri d (fun q p => H p q)). apply sg_ext. intros q Hq.
  clear d Hq. revert H. induction q as [|q IH]; intros H; [reflexivity|].
  rewrite sg_S, sg_first. rewrite Nat.sub_diag, Nat.sub_0_r. rewrite Rplus_comm. f_equal.
  rewrite (sg_ext q (fun p => H p (S q - p)%nat) (fun p => (fun a b => H a (S b)) p (q - p)%nat)) by (intros i Hi; cbv beta; f_equal; lia). rewrite (IH (fun a b => H a (S b))). apply sg_ext. intros i Hi. f_equal.
Qed.
(** The two orders of the sum over p, q, k with p + q + k <= d *)
Lemma tri3 : forall d (G : nat -> nat -> nat -> R),
  sg d (fun q => sg q (fun p => sg (d - q) (fun k => G p (q - p)%nat k))) = sg d (fun j => sg j (fun p => sg (d - j) (fun q => G p q (j - p)%nat))).
Proof.
  intros d G.
  rewrite (sg_ext d (fun q => sg q (fun p => sg (d - q) (fun k => G p (q - p)%nat k))) (fun q => sg q (fun p => (fun p q' => sg (d - p - q') (fun k => G p q' k)) p (q - p)%nat))).
  2: { intros q Hq. apply sg_ext. intros p Hp. cbv beta. f_equal. lia. }
  rewrite (tri d (fun p q' => sg (d - p - q') (fun k => G p q' k))).
  rewrite (sg_ext d (fun j => sg j (fun p => sg (d - j) (fun q => G p q (j - p)%nat))) (fun j => sg j (fun p => (fun p k => sg (d - p - k) (fun q => G p q k)) p (j - p)%nat))).
  2: { intros q Hq. apply sg_ext. intros p Hp. cbv beta. f_equal. lia. }
  rewrite (tri d (fun p k => sg (d - p - k) (fun q => G p q k))).
  apply sg_ext. intros p Hp. apply (tri_swap (d - p) (fun q k => G p q k)).
Qed.

(** The coefficient of z^r in a product of series *)
Fixpoint conv (l : list (nat -> R)) (r : nat) : R :=
  match l with
  | [] => if Nat.eqb r 0 then 1 else 0
  | a :: l' => sg r (fun k => a k * conv l' (r - k))
  end.
Lemma conv_one : forall a r, conv [a] r = a r.
Proof.
  intros a r. cbn [conv]. destruct r as [|r]; [rewrite sg_0, Nat.sub_0_r; cbn; ring|]. rewrite sg_S, Nat.sub_diag. cbn [Nat.eqb]. rewrite sg_zero; [ring|].
  intros i Hi. destruct (Nat.eqb_spec (S r - i) 0); [lia|ring].
Qed.
Lemma conv_ext : forall l l', Forall2 (fun a b => forall k, a k = b k) l l' -> forall r, conv l r = conv l' r.
Proof. intros l l' H. induction H as [|a b l l' E H IH]; intros r; [reflexivity|]. cbn [conv]. apply sg_ext. intros i _. now rewrite E, IH. Qed.
Lemma conv_perm : forall l l', Permutation l l' -> forall r, conv l r = conv l' r.
Proof.
  intros l l' H. induction H as [|a l l' H IH|a b l|l l' l'' H IH H' IH']; intros r; [reflexivity| | |now rewrite IH, IH'].
  - cbn [conv]. apply sg_ext. intros i _. now rewrite IH.
  - cbn [conv]. rewrite (sg_ext r (fun k => b k * sg (r - k) (fun j => a j * conv l (r - k - j))) (fun k => sg (r - k) (fun j => b k * a j * conv l (r - k - j)))).
    2: { intros i _. rewrite sg_mul. apply sg_ext. intros; ring. }
    rewrite (tri_swap r (fun k j => b k * a j * conv l (r - k - j))). apply sg_ext. intros k Hk. rewrite sg_mul. apply sg_ext. intros j Hj.
    replace (r - j - k)%nat with (r - k - j)%nat by lia. ring.
Qed.

(** Sums over the vectors of n naturals with sum d *)
Fixpoint msum (n d : nat) (g : list nat -> R) : R :=
  match n with
  | O => if Nat.eqb d 0 then g [] else 0
  | S n' => sg d (fun j => msum n' (d - j) (fun p => g (j :: p)))
  end.
Lemma msum_ext : forall n d g h, (forall p, length p = n -> list_sum p = d -> g p = h p) -> msum n d g = msum n d h.
Proof.
  induction n as [|n IH]; intros d g h H; cbn [msum].
  - destruct (Nat.eqb_spec d 0) as [->|]; [now apply H|reflexivity].
  - apply sg_ext. intros j Hj. apply IH. intros p L E. apply H; [cbn [length]; lia|]. change (list_sum (j :: p)) with (j + list_sum p)%nat. lia.
Qed.
Lemma msum_mul : forall n d c g, c * msum n d g = msum n d (fun p => c * g p).
Proof.
  induction n as [|n IH]; intros d c g; cbn [msum]; [destruct (Nat.eqb d 0); ring|]. rewrite sg_mul. apply sg_ext. intros. apply IH.
Qed.
Lemma msum_plus : forall n d g h, msum n d g + msum n d h = msum n d (fun p => g p + h p).
Proof.
  induction n as [|n IH]; intros d g h; cbn [msum]; [destruct (Nat.eqb d 0); ring|]. rewrite sg_plus. apply sg_ext. intros. apply IH.
Qed.
Lemma msum_sg : forall n d e (g : nat -> list nat -> R), sg e (fun k => msum n d (g k)) = msum n d (fun p => sg e (fun k => g k p)).
Proof.
  intros n d e g. induction e as [|e IH]; [reflexivity|]. rewrite sg_S, IH, msum_plus. apply msum_ext. intros. now rewrite sg_S.
Qed.

(** The product of the values of functions *)
Fixpoint prods (Fl : list (nat -> R)) (p : list nat) : R :=
  match Fl, p with F :: Fl', j :: p' => F j * prods Fl' p' | _, _ => 1 end.

(** The sum of the rule is a product of series *)
Lemma smolyak : forall (a : nat -> nat -> R) Fl d,
  sg d (fun q => msum (length Fl) q (fun p => prods Fl p * conv (map (fun j k => a j (j + k)%nat) p) (d - q))) =
  conv (map (fun F j => sg j (fun p => a p j * F p)) Fl) d.
Proof.
  intros a Fl. induction Fl as [|F Fl IH]; intros d; cbn [length msum map conv].
  - destruct d as [|d]; [rewrite sg_0; cbn; ring|]. rewrite sg_zero; [reflexivity|]. intros i Hi. destruct (Nat.eqb_spec i 0) as [->|]; [cbn; ring|reflexivity].
  - pose (G := fun p q' k => F p * a p (p + k)%nat * msum (length Fl) q' (fun ps => prods Fl ps * conv (map (fun j k => a j (j + k)%nat) ps) (d - p - q' - k))).
    transitivity (sg d (fun q => sg q (fun j => sg (d - q) (fun k => G j (q - j)%nat k)))).
    + apply sg_ext. intros q Hq. apply sg_ext. intros j Hj. unfold G.
      rewrite (msum_ext _ _ _ (fun ps => sg (d - q) (fun k => F j * a j (j + k)%nat * (prods Fl ps * conv (map (fun j k => a j (j + k)%nat) ps) (d - q - k))))).
      * rewrite <- (msum_sg _ _ _ (fun k ps => F j * a j (j + k)%nat * (prods Fl ps * conv (map (fun j k => a j (j + k)%nat) ps) (d - q - k)))).
        apply sg_ext. intros k Hk. rewrite msum_mul. apply msum_ext. intros ps _ _. do 3 f_equal. lia.
      * intros ps _ _. cbn [map conv prods]. rewrite sg_mul. apply sg_ext. intros k _. ring.
    + rewrite (tri3 d G). apply sg_ext. intros j Hj. rewrite <- IH. unfold G.
      rewrite (Rmult_comm (sg j _)), sg_mul. apply sg_ext. intros p Hp. replace (p + (j - p))%nat with j by lia.
      rewrite (sg_ext (d - j) _ (fun q => a p j * F p * msum (length Fl) q (fun ps => prods Fl ps * conv (map (fun j k => a j (j + k)%nat) ps) (d - j - q)))).
      * rewrite <- sg_mul. ring.
      * intros q Hq. rewrite (Rmult_comm (F p)). f_equal. apply msum_ext. intros ps _ _. do 2 f_equal. lia.
Qed.

(** Series that end: the sum of the coefficients of their product *)
Fixpoint ends (bl : list (nat -> R)) (ml : list nat) : Prop :=
  match bl, ml with
  | [], [] => True
  | b :: bl', m :: ml' => (forall j, (m < j)%nat -> b j = 0) /\ ends bl' ml'
  | _, _ => False
  end.
Fixpoint whole_sums (bl : list (nat -> R)) (ml : list nat) : R :=
  match bl, ml with b :: bl', m :: ml' => sg m b * whole_sums bl' ml' | _, _ => 1 end.
Lemma conv_sum : forall bl ml D, ends bl ml -> (list_sum ml <= D)%nat -> sg D (conv bl) = whole_sums bl ml.
Proof.
  induction bl as [|b bl IH]; intros [|m ml] D H L; try contradiction; cbn [whole_sums].
  - destruct D as [|D]; [reflexivity|]. rewrite sg_first, sg_zero; [cbn; ring|]. intros; reflexivity.
  - destruct H as [Hb H]. change (list_sum (m :: ml)) with (m + list_sum ml)%nat in L. cbn [conv].
    rewrite (tri D (fun k e => b k * conv bl e)).
    rewrite (sg_cut m D) by (try lia; intros i Hi; apply sg_zero; intros; rewrite Hb by lia; ring).
    rewrite (sg_ext m _ (fun p => whole_sums bl ml * b p)).
    + rewrite <- sg_mul. ring.
    + intros p Hp. rewrite <- sg_mul. rewrite (IH ml) by (exact H || lia). ring.
Qed.

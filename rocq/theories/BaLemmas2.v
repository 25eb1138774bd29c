From Coq Require Import List Bool Arith Reals Lia Lra Psatz.
From Verif Require Import Exn Instances McModel CountSpec CountLemmas BaModel BaSpec BaLemmas.
Import ListNotations.
Open Scope R_scope.

(** ** Metric and projections *)
Section Data.
Variable dm sm : list R.
Variable nmod nsamp : nat.
Variable G : nat -> nat -> R.
Variable s : nat -> R.
Hypothesis HG : forall a i, (a < nmod)%nat -> (i < nsamp)%nat -> rd dm (a * nsamp + i) = Ok (G a i).
Hypothesis Hs : forall i, (i < nsamp)%nat -> rd sm i = Ok (s i).

Definition met (a b : nat) : R := sum_over 0 nsamp (fun i => G a i * G b i).
Definition prj (a : nat) : R := sum_over 0 nsamp (fun i => G a i * s i).

Lemma metric_is : exists m, c_metric dm nmod nsamp = Ok m /\ mrep nmod m met.
Proof.
  unfold c_metric. cbv zeta.
  destruct (iter_up (list R) (fun a m => exists F, mrep nmod m F /\ forall k l, (k < a)%nat -> (l < nmod)%nat -> F k l = met k l) nmod 0
    (fun a m => iter (seq 0 nmod) (fun b m => let! sum := dot dm (a * nsamp) dm (b * nsamp) nsamp in wr m (a * nmod + b) sum) m) (repeat 0 (nmod * nmod))) as [m [E [F [M H]]]].
  - exists (fun _ _ => 0). split; [|intros; lia]. split; [apply repeat_length|]. intros i j I J. apply rd_repeat. now apply place.
  - intros a m Ha [F [M H]].
    destruct (iter_up (list R) (fun b m => exists F, mrep nmod m F /\ (forall k l, (k < a)%nat -> (l < nmod)%nat -> F k l = met k l) /\ forall l, (l < b)%nat -> F a l = met a l) nmod 0
      (fun b m => let! sum := dot dm (a * nsamp) dm (b * nsamp) nsamp in wr m (a * nmod + b) sum) m) as [m' [E' [F' [M' [H1 H2]]]]].
    + exists F. split; [exact M|]. split; [exact H|]. intros; lia.
    + clear F m M H. intros b m Hb [F [M [H1 H2]]]. unfold dot.
      rewrite (add_loop nsamp 0 dm dm (fun i => a * nsamp + i)%nat (fun i => b * nsamp + i)%nat (G a) (G b)) by (intros i Hi; split; apply HG; lia).
      destruct (mrep_wr nmod m F a b (0 + sum_over 0 nsamp (fun i => G a i * G b i)) M ltac:(lia) ltac:(lia)) as [m' [E' M']]. exists m'. split; [exact E'|]. eexists. split; [exact M'|]. split.
      * intros k l K L. rewrite (proj2 (Nat.eqb_neq k a)) by lia. cbn [andb]. now apply H1.
      * intros l L. rewrite Nat.eqb_refl. cbn [andb]. destruct (Nat.eqb_spec l b) as [->|N]; [unfold met; ring|]. apply H2. lia.
    + exists m'. split; [exact E'|]. exists F'. split; [exact M'|]. intros k l K L. destruct (Nat.eq_dec k a) as [->|N]; [apply H2; lia|apply H1; lia].
  - exists m. split; [exact E|]. apply (mrep_ext nmod m F); [exact M|]. intros i j I J. apply H; lia.
Qed.
Lemma proj_is : exists p, c_proj dm sm nmod nsamp = Ok p /\ vrep nmod p prj.
Proof.
  unfold c_proj. cbv zeta.
  destruct (iter_up (list R) (fun a p => exists F, vrep nmod p F /\ forall k, (k < a)%nat -> F k = prj k) nmod 0
    (fun a p => let! sum := dot dm (a * nsamp) sm 0 nsamp in wr p a sum) (repeat 0 nmod)) as [p [E [F [P H]]]].
  - exists (fun _ => 0). split; [|intros; lia]. split; [apply repeat_length|]. intros i I. now apply rd_repeat.
  - intros a p Ha [F [P H]]. unfold dot.
    rewrite (add_loop nsamp 0 dm sm (fun i => a * nsamp + i)%nat (fun i => 0 + i)%nat (G a) s) by (intros i Hi; split; [apply HG|apply Hs]; lia).
    destruct (vrep_wr nmod p F a (0 + sum_over 0 nsamp (fun i => G a i * s i)) P ltac:(lia)) as [p' [E' P']]. exists p'. split; [exact E'|]. eexists. split; [exact P'|].
    intros k K. cbn beta. destruct (Nat.eqb_spec k a) as [->|N]; [unfold prj; ring|]. apply H. lia.
  - exists p. split; [exact E|]. destruct P as [L P]. split; [exact L|]. intros i I. rewrite <- H by lia. now apply P.
Qed.
End Data.

(** ** Cholesky factors *)
Section Chol.
Variable n : nat.
Variable M : nat -> nat -> R.
Hypothesis sym : forall i j, (i < n)%nat -> (j < n)%nat -> M i j = M j i.

(** The first a columns have been done. *)
Record done (a : nat) (F : nat -> nat -> R) (d : nat -> R) : Prop := {
  d_up : forall i j, (i <= j)%nat -> (j < n)%nat -> F i j = M i j;
  d_low : forall i j, (j < a)%nat -> (j < i)%nat -> (i < n)%nat -> F i j * d j = M j i - sum_over 0 j (fun m => F j m * F i m);
  d_pos : forall j, (j < a)%nat -> 0 < d j;
  d_sq : forall j, (j < a)%nat -> d j * d j = M j j - sum_over 0 j (fun m => F j m * F j m) }.
Definition drep (a : nat) (diag : list (option R)) (d : nat -> R) : Prop := length diag = n /\ forall j, (j < a)%nat -> rd diag j = Ok (Some (d j)).

Lemma prod_S : forall k f, prod_over (S k) f = prod_over k f * f k.
Proof.
  intros k f. unfold prod_over. rewrite seq_S, map_app. cbn [map Nat.add]. generalize (map f (seq 0 k)). induction l as [|x l IH]; cbn; [ring|]. rewrite IH. ring.
Qed.
Lemma prod_ext : forall k f g, (forall i, (i < k)%nat -> f i = g i) -> prod_over k f = prod_over k g.
Proof. induction k as [|k IH]; intros f g H; [reflexivity|]. rewrite !prod_S. rewrite (IH f g), (H k); [reflexivity|lia|intros; apply H; lia]. Qed.
Lemma prod_pos : forall k f, (forall i, (i < k)%nat -> 0 < f i) -> 0 < prod_over k f.
Proof. induction k as [|k IH]; intros f H; [unfold prod_over; cbn; lra|]. rewrite prod_S. apply Rmult_lt_0_compat; [apply IH; intros; apply H; lia|apply H; lia]. Qed.

(** No pivot: the matrix is not positive definite. *)
Definition stuck : Prop := exists a F d, (a < n)%nat /\ done a F d /\ M a a - sum_over 0 a (fun m => F a m * F a m) <= 0.

Lemma less_is : forall cf F a b x, mrep n cf F -> (a < n)%nat -> (b < n)%nat -> c_less cf (a * n) (b * n) a x = Ok (x - sum_over 0 a (fun m => F a m * F b m)).
Proof.
  intros cf F a b x [_ H] A B. unfold c_less. apply (sub_loop_down a cf cf (fun m => a * n + m)%nat (fun m => b * n + m)%nat (F a) (F b)). intros i I. split; apply H; lia.
Qed.

Definition inner (a b : nat) (st : list R * list (option R) * R) : Prop :=
  let '(cf, diag, rdet) := st in exists F d, mrep n cf F /\ drep (S a) diag d /\ done a F d /\ 0 < d a /\ d a * d a = M a a - sum_over 0 a (fun m => F a m * F a m) /\
  (forall i, (a < i < b)%nat -> F i a * d a = M a i - sum_over 0 a (fun m => F a m * F i m)) /\ rdet = prod_over (S a) d.
Definition outer (a : nat) (st : list R * list (option R) * R) : Prop :=
  let '(cf, diag, rdet) := st in exists F d, mrep n cf F /\ drep a diag d /\ done a F d /\ rdet = prod_over a d.

Lemma column : forall a st, (a < n)%nat -> outer a st -> (exists st', iter (seq a (n - a)) (chol_body n a) st = Ok st' /\ outer (S a) st') \/ (iter (seq a (n - a)) (chol_body n a) st = Err ValueError /\ stuck).
Proof.
  intros a [[cf diag] rdet] A [F [d [MF [D [DN R]]]]]. replace (n - a)%nat with (S (n - S a)) by lia. cbn [seq iter]. unfold chol_body at 1. unfold chol_body at 2.
  destruct MF as [LM HM]. rewrite (HM a a A A). rewrite (less_is cf F a a (F a a)) by (try split; assumption). rewrite Nat.eqb_refl.
  assert (FA : F a a = M a a) by (apply (d_up a F d DN); lia). rewrite FA.
  destruct (Rle_dec (M a a - sum_over 0 a (fun m => F a m * F a m)) 0) as [L|L].
  - right. rewrite (proj2 (Rleb_spec _ _) L). split; [reflexivity|]. exists a, F, d. exact (conj A (conj DN L)).
  - rewrite (proj2 (Rleb_false _ _) L). set (sum := M a a - sum_over 0 a (fun m => F a m * F a m)) in *. assert (SP : 0 < sum) by lra.
    destruct D as [LD HD]. rewrite wr_ok by lia. left.
    set (d' := fun j => if Nat.eqb j a then sqrt sum else d j).
    assert (DN' : done a F d').
    { destruct DN as [U L1 P1 S1]. assert (E : forall j, (j < a)%nat -> d' j = d j) by (intros j J; unfold d'; now rewrite (proj2 (Nat.eqb_neq j a)) by lia).
      constructor; [exact U| | |]; intros; rewrite E by assumption; auto. }
    assert (I0 : inner a (S a) (cf, upd a (Some (sqrt sum)) diag, rdet * sqrt sum)).
    { exists F, d'. split; [split; assumption|]. split; [split; [rewrite upd_len; lia|]|].
      - intros j J. rewrite rd_upd by lia. unfold d'. destruct (Nat.eqb_spec j a); [reflexivity|]. apply HD. lia.
      - split; [exact DN'|]. assert (E : d' a = sqrt sum) by (unfold d'; now rewrite Nat.eqb_refl). rewrite E. split; [now apply sqrt_lt_R0|]. split; [apply sqrt_sqrt; now apply Rlt_le|]. split; [intros; lia|].
        rewrite prod_S, E, R. f_equal. apply prod_ext. intros i I. unfold d'. now rewrite (proj2 (Nat.eqb_neq i a)) by lia. }
    destruct (iter_up _ (inner a) (n - S a) (S a) (chol_body n a) _ I0) as [st' [E' I']].
    + clear - A. intros b [[cf diag] rdet] Hb [F [d [MF [D [DN [P [SQ [LO R]]]]]]]]. unfold chol_body. destruct MF as [LM HM]. rewrite (HM a b) by lia. rewrite (less_is cf F a b (F a b)) by (try split; auto; lia).
      rewrite (proj2 (Nat.eqb_neq a b)) by lia. destruct D as [LD HD]. rewrite (HD a) by lia. rewrite (d_up a F d DN a b) by lia.
      destruct (mrep_wr n cf F b a ((M a b - sum_over 0 a (fun m => F a m * F b m)) / d a) (conj LM HM) ltac:(lia) ltac:(lia)) as [cf' [E' M']]. rewrite E'. eexists. split; [reflexivity|].
      set (F' := fun i j => if (Nat.eqb i b && Nat.eqb j a)%bool then (M a b - sum_over 0 a (fun m => F a m * F b m)) / d a else F i j).
      exists F', d. split; [exact M'|]. split; [split; assumption|].
      assert (EF : forall i j, j <> a -> F' i j = F i j) by (intros i j N; unfold F'; rewrite (proj2 (Nat.eqb_neq j a) N); now rewrite andb_false_r).
      assert (ES : forall i k j, (j <= a)%nat -> sum_over 0 j (fun m => F' i m * F' k m) = sum_over 0 j (fun m => F i m * F k m)) by (intros i k j J; apply so_ext; intros m Hm; rewrite !EF by lia; reflexivity).
      split; [|split; [exact P|split; [|split; [|exact R]]]].
      * destruct DN as [U L1 P1 S1]. constructor.
        -- intros i j I J. destruct (Nat.eq_dec j a) as [->|N]; [|rewrite EF by exact N; now apply U]. unfold F'. rewrite (proj2 (Nat.eqb_neq i b)) by lia. cbn [andb]. now apply U.
        -- intros i j J I N. rewrite EF by lia. rewrite ES by lia. now apply L1.
        -- exact P1.
        -- intros j J. rewrite ES by lia. now apply S1.
      * rewrite ES by lia. exact SQ.
      * intros i I. rewrite ES by lia. destruct (Nat.eq_dec i b) as [->|N].
        -- unfold F'. rewrite !Nat.eqb_refl. cbn [andb]. field. lra.
        -- unfold F'. rewrite (proj2 (Nat.eqb_neq i b) N). cbn [andb]. apply LO. lia.
    + exists st'. split; [exact E'|]. clear - A I'. destruct st' as [[cf diag] rdet]. destruct I' as [F [d [MF [D [DN [P [SQ [LO R]]]]]]]]. exists F, d. split; [exact MF|]. split; [exact D|]. split; [|exact R].
      destruct DN as [U L1 P1 S1]. constructor; [exact U| | |].
      * intros i j J I N. destruct (Nat.eq_dec j a) as [->|NJ]; [apply LO; lia|apply L1; lia].
      * intros j J. destruct (Nat.eq_dec j a) as [->|NJ]; [exact P|apply P1; lia].
      * intros j J. destruct (Nat.eq_dec j a) as [->|NJ]; [exact SQ|apply S1; lia].
Qed.
Lemma cholesky_is : forall m, mrep n m M ->
  (exists cf diag rdet F d, c_cholesky m n = Ok (cf, diag, rdet) /\ mrep n cf F /\ drep n diag d /\ done n F d /\ rdet = prod_over n d) \/ (c_cholesky m n = Err ValueError /\ stuck).
Proof.
  intros m HM. unfold c_cholesky.
  destruct (iter_up_or _ outer (fun r => r = Err ValueError /\ stuck) n 0 (fun a st => iter (seq a (n - a)) (chol_body n a) st) (m, repeat None n, 1)) as [[[[cf diag] rdet] [E [F [d [H1 [H2 [H3 H4]]]]]]]|E].
  - exists M, (fun _ => 0). split; [exact HM|]. split; [split; [apply repeat_length|intros; lia]|]. split; [|reflexivity]. constructor; intros; try lia; reflexivity.
  - intros r [-> _]. eexists. reflexivity.
  - intros a st A O. apply column; [lia|exact O].
  - left. exists cf, diag, rdet, F, d. exact (conj E (conj H1 (conj H2 (conj H3 H4)))).
  - right. exact E.
Qed.

(** The factor *)
Definition low (F : nat -> nat -> R) (d : nat -> R) (i m : nat) : R := if Nat.ltb m i then F i m else if Nat.eqb m i then d i else 0.
Lemma low_lt : forall F d i m, (m < i)%nat -> low F d i m = F i m.
Proof. intros F d i m H. unfold low. now rewrite (proj2 (Nat.ltb_lt m i) H). Qed.
Lemma low_eq : forall F d i, low F d i i = d i.
Proof. intros F d i. unfold low. now rewrite Nat.ltb_irrefl, Nat.eqb_refl. Qed.
Lemma low_gt : forall F d i m, (i < m)%nat -> low F d i m = 0.
Proof. intros F d i m H. unfold low. rewrite (proj2 (Nat.ltb_ge m i)) by lia. now rewrite (proj2 (Nat.eqb_neq m i)) by lia. Qed.
(** Elements below column a are products of rows. *)
Lemma factor_le : forall a F d i j, done a F d -> (i < a)%nat -> (i <= j)%nat -> (j < n)%nat -> sum_over 0 a (fun m => low F d i m * low F d j m) = M i j.
Proof.
  intros a F d i j DN I IJ J. rewrite (so_trunc a (S i)) by (try lia; intros m Hm; rewrite low_gt by lia; ring). rewrite so_end. cbn [Nat.add]. rewrite low_eq.
  destruct (Nat.eq_dec i j) as [->|N].
  - rewrite low_eq. rewrite (d_sq a F d DN j I). rewrite (so_ext j 0 _ (fun m => F j m * F j m)) by (intros m Hm; rewrite !low_lt by lia; reflexivity). ring.
  - rewrite (low_lt F d j i) by lia. rewrite (Rmult_comm (d i)). rewrite (d_low a F d DN j i I) by lia. rewrite (so_ext i 0 _ (fun m => F i m * F j m)) by (intros m Hm; rewrite !low_lt by lia; reflexivity). ring.
Qed.
Lemma factor : forall F d i j, done n F d -> (i < n)%nat -> (j < n)%nat -> sum_over 0 n (fun m => low F d i m * low F d j m) = M i j.
Proof.
  intros F d i j DN I J. destruct (Nat.le_ge_cases i j) as [L|L]; [now apply factor_le|]. rewrite (so_ext n 0 _ (fun m => low F d j m * low F d i m)) by (intros; ring). rewrite (factor_le n F d j i) by assumption. now apply sym.
Qed.

(** Solving with the transposed factor, from row a-1 upwards *)
Lemma solve_up : forall a F (d : nat -> R) (x0 : nat -> R), (forall j, (j < a)%nat -> 0 < d j) -> forall k, (k <= a)%nat -> exists x, (forall i, (a <= i)%nat -> x i = x0 i) /\
  forall m, (a - k <= m < a)%nat -> x m * d m + sum_over (S m) (a - m) (fun i => F i m * x i) = 0.
Proof.
  intros a F d x0 P k. induction k as [|k IH]; intro K; [exists x0; split; [reflexivity|intros; lia]|].
  destruct IH as [x [X0 H]]; [lia|]. set (m0 := (a - S k)%nat). exists (fun i => if Nat.eqb i m0 then - sum_over (S m0) (a - m0) (fun i => F i m0 * x i) / d m0 else x i).
  split.
  - intros i I. cbn beta. rewrite (proj2 (Nat.eqb_neq i m0)) by (unfold m0; lia). now apply X0.
  - intros m Hm. cbn beta. rewrite (so_ext (a - m) (S m) _ (fun i => F i m * x i)) by (intros i Hi; rewrite (proj2 (Nat.eqb_neq i m0)) by (unfold m0; lia); reflexivity).
    destruct (Nat.eqb_spec m m0) as [->|N]; [|apply H; unfold m0 in *; lia]. assert (0 < d m0) by (apply P; unfold m0; lia). field. lra.
Qed.
(** a + 1 rows of the factor, the last without its pivot, are annihilated by
    some x that does not vanish *)
Lemma stuck_direction : stuck -> exists x, (exists i, (i < n)%nat /\ x i <> 0) /\ sum_over 0 n (fun i => sum_over 0 n (fun j => x i * x j * M i j)) <= 0.
Proof.
  intros [a [F [d [A [DN L]]]]]. set (p := M a a - sum_over 0 a (fun m => F a m * F a m)) in *.
  destruct (solve_up a F d (fun i => if Nat.eqb i a then 1 else 0) (d_pos a F d DN) a (le_n a)) as [x [X0 H]].
  exists x. split; [exists a; split; [exact A|]; rewrite X0 by lia; rewrite Nat.eqb_refl; lra|].
  set (l := fun i m => if Nat.ltb m i then F i m else if (Nat.eqb m i && Nat.ltb i a)%bool then d i else 0).
  assert (XZ : forall i, (a < i)%nat -> x i = 0) by (intros i I; rewrite X0 by lia; now rewrite (proj2 (Nat.eqb_neq i a)) by lia).
  assert (XA : x a = 1) by (rewrite X0 by lia; now rewrite Nat.eqb_refl).
  assert (E : forall i j, (i <= j)%nat -> (j <= a)%nat -> M i j = sum_over 0 a (fun m => l i m * l j m) + (if (Nat.eqb i a && Nat.eqb j a)%bool then p else 0)).
  { intros i j IJ J. destruct (Nat.eq_dec i a) as [->|N].
    - assert (j = a) by lia. subst j. rewrite !Nat.eqb_refl. cbn [andb]. rewrite (so_ext a 0 _ (fun m => F a m * F a m)); [unfold p; ring|]. intros m Hm. unfold l. rewrite (proj2 (Nat.ltb_lt m a)) by lia. reflexivity.
    - rewrite (proj2 (Nat.eqb_neq i a) N). cbn [andb]. rewrite Rplus_0_r. rewrite <- (factor_le a F d i j DN) by lia. apply so_ext. intros m Hm. unfold low, l. 
      destruct (Nat.ltb_spec m i); destruct (Nat.ltb_spec m j); try reflexivity; try lia; try (destruct (Nat.eqb_spec m i); [subst; rewrite (proj2 (Nat.ltb_lt i a)) by lia; cbn [andb]; try reflexivity|cbn [andb]; try ring]).
      destruct (Nat.eqb_spec i j) as [<-|]; [rewrite (proj2 (Nat.ltb_lt i a)) by lia; cbn [andb]; reflexivity|cbn [andb]; ring]. }
  assert (EE : forall i j, (i < n)%nat -> (j < n)%nat -> x i * x j * M i j = sum_over 0 a (fun m => x i * l i m * (x j * l j m)) + (if (Nat.eqb i a && Nat.eqb j a)%bool then p else 0)).
  { intros i j I J. destruct (Nat.lt_ge_cases a i) as [Q|Q]; [|destruct (Nat.lt_ge_cases a j) as [Q2|Q2]].
    - rewrite (XZ i Q). rewrite so_zero by (intros; ring). rewrite (proj2 (Nat.eqb_neq i a)) by lia. cbn [andb]. ring.
    - rewrite (XZ j Q2). rewrite so_zero by (intros; ring). rewrite (proj2 (Nat.eqb_neq j a)) by lia. rewrite andb_false_r. ring.
    - assert (E1 : M i j = sum_over 0 a (fun m => l i m * l j m) + (if (Nat.eqb i a && Nat.eqb j a)%bool then p else 0)).
      { destruct (Nat.le_ge_cases i j) as [R|R]; [now apply E|]. rewrite sym by assumption. rewrite (E j i) by assumption. rewrite andb_comm. f_equal. apply so_ext. intros. ring. }
      rewrite E1, Rmult_plus_distr_l, <- so_scal. f_equal; [apply so_ext; intros; ring|]. destruct (Nat.eqb_spec i a) as [->|]; cbn [andb]; [|ring]. destruct (Nat.eqb_spec j a) as [->|]; cbn [andb]; [rewrite XA; ring|ring]. }
  rewrite (so_ext n 0 _ (fun i => sum_over 0 n (fun j => sum_over 0 a (fun m => x i * l i m * (x j * l j m))) + sum_over 0 n (fun j => if (Nat.eqb i a && Nat.eqb j a)%bool then p else 0))).
  2:{ intros i I. rewrite <- so_plus. apply so_ext. intros j J. apply EE; lia. }
  rewrite so_plus. rewrite (so_one n 0 (fun i => sum_over 0 n (fun j => if (Nat.eqb i a && Nat.eqb j a)%bool then p else 0)) a).
  2: lia.
  2:{ intros j J N. apply so_zero. intros. now rewrite (proj2 (Nat.eqb_neq j a) N). }
  rewrite (so_one n 0 (fun j => if (Nat.eqb a a && Nat.eqb j a)%bool then p else 0) a); [|lia|intros j J N; rewrite (proj2 (Nat.eqb_neq j a) N); now rewrite andb_false_r]. rewrite Nat.eqb_refl. cbn [andb].
  assert (Z : sum_over 0 n (fun i => sum_over 0 n (fun j => sum_over 0 a (fun m => x i * l i m * (x j * l j m)))) = 0).
  { rewrite (so_ext n 0 _ (fun i => sum_over 0 a (fun m => x i * l i m * sum_over 0 n (fun j => x j * l j m)))).
    2:{ intros i I. rewrite so_swap. apply so_ext. intros m Hm. now rewrite so_scal. }
    apply so_zero. intros i I. apply so_zero. intros m Hm.
    assert (V : sum_over 0 n (fun j => x j * l j m) = 0); [|rewrite V; ring].
    rewrite (so_trunc n (S a)) by (try lia; intros j J; rewrite XZ by lia; ring). rewrite (so_drop (S a) m).
    2: lia.
    2:{ intros j J. unfold l. rewrite (proj2 (Nat.ltb_ge m j)) by lia. rewrite (proj2 (Nat.eqb_neq m j)) by lia. cbn [andb]. ring. }
    replace (S a - m)%nat with (S (a - m)) by lia. rewrite so_front. rewrite <- (H m) by lia. f_equal.
    - unfold l. rewrite Nat.ltb_irrefl, Nat.eqb_refl. rewrite (proj2 (Nat.ltb_lt m a)) by lia. reflexivity.
    - apply so_ext. intros j J. unfold l. rewrite (proj2 (Nat.ltb_lt m j)) by lia. ring. }
  rewrite Z, Rplus_0_l. exact L.
Qed.

(** ** The factor in place *)
Lemma tidy_is : forall cf diag F d, mrep n cf F -> drep n diag d -> exists cf', c_tidy cf diag n = Ok cf' /\ mrep n cf' (low F d).
Proof.
  intros cf diag F d HF [LD HD]. unfold c_tidy. cbv zeta.
  destruct (iter_up (list R) (fun a cf => exists H, mrep n cf H /\ (forall i j, (i < a)%nat -> (j < n)%nat -> H i j = low F d i j) /\ forall i j, (a <= i)%nat -> (i < n)%nat -> (j < n)%nat -> H i j = F i j) n 0
    (fun a cf => iter (seq a (n - a)) (fun b cf => if Nat.eqb a b then let! o := rd diag a in match o with None => Err BadMemory | Some d => wr cf (a * n + a) d end else wr cf (a * n + b) 0) cf) cf) as [cf' [E [H [MH [H1 H2]]]]].
  - exists F. split; [exact HF|]. split; [intros; lia|reflexivity].
  - clear cf HF. intros a cf A [H [MH [H1 H2]]].
    destruct (iter_up (list R) (fun b cf => exists H, mrep n cf H /\ (forall i j, (i < a)%nat -> (j < n)%nat -> H i j = low F d i j) /\ (forall i j, (a < i)%nat -> (i < n)%nat -> (j < n)%nat -> H i j = F i j) /\
       (forall j, (j < a)%nat -> H a j = F a j) /\ forall j, (a <= j < b)%nat -> H a j = low F d a j) (n - a) a
       (fun b cf => if Nat.eqb a b then let! o := rd diag a in match o with None => Err BadMemory | Some d => wr cf (a * n + a) d end else wr cf (a * n + b) 0) cf) as [cf' [E [K [MK [K1 [K2 [K3 K4]]]]]]].
    + exists H. split; [exact MH|]. split; [exact H1|]. split; [intros; apply H2; lia|]. split; [intros; apply H2; lia|intros; lia].
    + clear cf H MH H1 H2. intros b cf B [H [MH [H1 [H2 [H3 H4]]]]].
      assert (W : exists cf', wr cf (a * n + b) (low F d a b) = Ok cf' /\ exists K, mrep n cf' K /\ (forall i j, (i < a)%nat -> (j < n)%nat -> K i j = low F d i j) /\ (forall i j, (a < i)%nat -> (i < n)%nat -> (j < n)%nat -> K i j = F i j) /\
       (forall j, (j < a)%nat -> K a j = F a j) /\ forall j, (a <= j < S b)%nat -> K a j = low F d a j).
      { destruct (mrep_wr n cf H a b (low F d a b) MH ltac:(lia) ltac:(lia)) as [cf' [E' M']]. exists cf'. split; [exact E'|]. eexists. split; [exact M'|]. cbn beta. split; [|split; [|split]].
        - intros i j I J. rewrite (proj2 (Nat.eqb_neq i a)) by lia. cbn [andb]. now apply H1.
        - intros i j I I2 J. rewrite (proj2 (Nat.eqb_neq i a)) by lia. cbn [andb]. now apply H2.
        - intros j J. rewrite (proj2 (Nat.eqb_neq j b)) by lia. rewrite andb_false_r. now apply H3.
        - intros j J. rewrite Nat.eqb_refl. cbn [andb]. destruct (Nat.eqb_spec j b) as [->|N]; [reflexivity|]. apply H4. lia. }
      destruct W as [cf' [W1 W2]]. exists cf'. split; [|exact W2]. destruct (Nat.eqb_spec a b) as [<-|N].
      * rewrite HD by lia. rewrite low_eq in W1. exact W1.
      * rewrite low_gt in W1 by lia. exact W1.
    + exists cf'. split; [exact E|]. exists K. split; [exact MK|]. split; [|intros; apply K2; lia].
      intros i j I J. destruct (Nat.eq_dec i a) as [->|N]; [|apply K1; lia]. destruct (Nat.lt_ge_cases j a) as [Q|Q]; [rewrite K3 by exact Q; now rewrite low_lt|]. apply K4. lia.
  - exists cf'. split; [exact E|]. apply (mrep_ext n cf' H); [exact MH|]. intros i j I J. apply H1; lia.
Qed.
End Chol.

(** ** Substitutions *)
Section Solve.
Variable n : nat.
Variable L : nat -> nat -> R.
Variable cf : list R.
Hypothesis HL : mrep n cf L.
Hypothesis low0 : forall i j, (i < j)%nat -> (j < n)%nat -> L i j = 0.
Hypothesis diag0 : forall i, (i < n)%nat -> L i i <> 0.

Lemma forward_is : forall p P ad Y0, vrep n p P -> vrep n ad Y0 -> exists ad' y, c_forward cf p n ad = Ok ad' /\ vrep n ad' y /\ forall i, (i < n)%nat -> sum_over 0 n (fun m => L i m * y m) = P i.
Proof.
  intros p P ad Y0 [LP HP] HY. unfold c_forward. cbv zeta.
  destruct (iter_up (list R) (fun a ad => exists y, vrep n ad y /\ forall i, (i < a)%nat -> sum_over 0 (S i) (fun m => L i m * y m) = P i) n 0
    (fun a ad => let! s := rd p a in let! sum := iter (rev (seq 0 a)) (fun b sum => let! x := rd cf (a * n + b) in let! y := rd ad b in Ok (sum - x * y)) s in let! d := rd cf (a * n + a) in wr ad a (sum / d)) ad) as [ad' [E [y [V H]]]].
  - exists Y0. split; [exact HY|intros; lia].
  - clear ad Y0 HY. intros a ad A [y [[LV V] H]]. rewrite HP by lia. destruct HL as [_ HL'].
    rewrite (sub_loop_down a cf ad (fun b => a * n + b)%nat (fun b => b) (L a) y) by (intros i I; split; [apply HL'|apply V]; lia). rewrite HL' by lia.
    destruct (vrep_wr n ad y a ((P a - sum_over 0 a (fun i => L a i * y i)) / L a a) (conj LV V) ltac:(lia)) as [ad' [E' V']]. exists ad'. split; [exact E'|]. eexists. split; [exact V'|]. cbn beta.
    intros i I. rewrite so_end. cbn [Nat.add]. rewrite (so_ext i 0 _ (fun m => L i m * y m)) by (intros m Hm; rewrite (proj2 (Nat.eqb_neq m a)) by lia; reflexivity).
    destruct (Nat.eqb_spec i a) as [->|N]; [field; apply diag0; lia|]. rewrite <- (H i) by lia. now rewrite so_end.
  - exists ad', y. split; [exact E|]. split; [exact V|]. intros i I. rewrite (so_trunc n (S i)) by (try lia; intros m Hm; rewrite low0 by lia; ring). apply H. lia.
Qed.
Lemma backward_is : forall ad y, vrep n ad y -> exists ad' x, c_backward cf n ad = Ok ad' /\ vrep n ad' x /\ forall i, (i < n)%nat -> sum_over 0 n (fun m => L m i * x m) = y i.
Proof.
  intros ad y HY. unfold c_backward.
  destruct (iter_down (list R) (fun a ad => exists x, vrep n ad x /\ (forall i, (i < a)%nat -> x i = y i) /\ forall i, (a <= i < n)%nat -> sum_over i (n - i) (fun m => L m i * x m) = y i) n
    (fun a ad => let! s := rd ad a in let! sum := iter (seq (a + 1) (n - (a + 1))) (fun b sum => let! x := rd cf (b * n + a) in let! y := rd ad b in Ok (sum - x * y)) s in let! d := rd cf (a * n + a) in wr ad a (sum / d)) ad) as [ad' [E [x [V [_ H]]]]].
  - exists y. split; [exact HY|]. split; [reflexivity|intros; lia].
  - clear ad HY. intros a ad A [x [[LV V] [H1 H2]]]. rewrite V by lia. destruct HL as [_ HL'].
    rewrite (sub_loop (n - (a + 1)) (a + 1) cf ad (fun b => b * n + a)%nat (fun b => b) (fun b => L b a) x) by (intros i I; split; [apply HL'|apply V]; lia). rewrite HL' by lia.
    destruct (vrep_wr n ad x a ((x a - sum_over (a + 1) (n - (a + 1)) (fun i => L i a * x i)) / L a a) (conj LV V) ltac:(lia)) as [ad' [E' V']]. exists ad'. split; [exact E'|]. eexists. split; [exact V'|]. cbn beta. split.
    + intros i I. rewrite (proj2 (Nat.eqb_neq i a)) by lia. apply H1. lia.
    + intros i I. replace (n - i)%nat with (S (n - (i + 1))) by lia. rewrite so_front. rewrite (so_ext (n - (i + 1)) (S i) _ (fun m => L m i * x m)) by (intros m Hm; rewrite (proj2 (Nat.eqb_neq m a)) by lia; reflexivity).
      destruct (Nat.eqb_spec i a) as [->|N].
      * rewrite (H1 a) by lia. rewrite Nat.add_1_r. field. apply diag0. lia.
      * rewrite <- (H2 i) by lia. replace (n - i)%nat with (S (n - (i + 1))) by lia. now rewrite so_front.
  - exists ad', x. split; [exact E|]. split; [exact V|]. intros i I. rewrite (so_drop n i) by (try lia; intros m Hm; rewrite low0 by lia; ring). apply H. lia.
Qed.
End Solve.

(** Lemmas on drawing from the tables. *)

From Coq Require Import ZArith List Bool Arith Reals Lia Lra.
From Verif Require Import Exn Instances CountSpec CountLemmas2 McModel McSpec McLemmas McLemmas3.
Import ListNotations.
Open Scope Z_scope.

(** ** From weights to integers *)

Lemma rsum_is : forall w, rsum w = sumR w.
Proof.
  intros w. unfold rsum, sumR. assert (H : forall w a, fold_left Rplus w a = (a + fold_right Rplus 0 w)%R).
  { clear w. induction w as [|x w IH]; intros a; cbn [fold_left fold_right]; [ring|]. rewrite IH. ring. }
  rewrite H. ring.
Qed.
Lemma sum_ge_item : forall w x, List.Forall (fun x => 0 <= x)%R w -> In x w -> (x <= sumR w)%R.
Proof.
  induction w as [|a w IH]; intros x F I; [contradiction|]. inversion F as [|a' w' A F']; subst. unfold sumR in *. cbn [fold_right].
  assert (0 <= fold_right Rplus 0 w)%R by (clear - F'; induction F'; cbn [fold_right]; lra).
  destruct I as [->|I]; [lra|]. specialize (IH x F' I). lra.
Qed.
Lemma bits30_length : forall w, length (bits30 w) = length w.
Proof. intros w. unfold bits30. now rewrite map_length. Qed.
Lemma bits30_nth : forall w i, (i < length w)%nat -> nth i (bits30 w) 0 = to_int (nth i w 0 / sumR w * 2 ^ 30)%R.
Proof.
  intros w i H. unfold bits30. rewrite rsum_is. rewrite (nth_indep _ 0 (to_int (0 / sumR w * 2 ^ 30)%R)) by now rewrite map_length.
  apply (map_nth (fun x => to_int (x / sumR w * 2 ^ 30)%R)).
Qed.
Lemma to_int_floor : forall x, (0 <= x)%R -> (IZR (to_int x) <= x < IZR (to_int x) + 1)%R.
Proof. intros x X. unfold to_int. rewrite (proj2 (Rltb_false x 0)) by lra. pose proof (Int_part_bounds x). lra. Qed.
Lemma share_nonneg : forall w x, weights_ok w -> (0 <= x)%R -> (0 <= x / sumR w * 2 ^ 30)%R.
Proof.
  intros w x [_ S] X. apply Rmult_le_pos; [|apply pow_le; lra]. apply Rmult_le_pos; [exact X|]. left. now apply Rinv_0_lt_compat.
Qed.
Lemma bits30_floor : forall w i, weights_ok w -> (i < length w)%nat ->
  (IZR (nth i (bits30 w) 0%Z) <= 2 ^ 30 * nth i w 0 / sumR w < IZR (nth i (bits30 w) 0%Z) + 1)%R.
Proof.
  intros w i O I. rewrite bits30_nth by exact I. replace (2 ^ 30 * nth i w 0 / sumR w)%R with (nth i w 0 / sumR w * 2 ^ 30)%R by (unfold Rdiv; ring).
  apply to_int_floor. apply share_nonneg; [exact O|]. destruct O as [F _]. rewrite Forall_forall in F. apply F. now apply nth_In.
Qed.
Lemma pow30 : (2 ^ 30)%R = IZR (2 ^ 30). Proof. change (2 ^ 30)%Z with 1073741824. cbn. lra. Qed.
Lemma bits30_sum : forall w, weights_ok w ->
  (IZR (zsum (bits30 w)) <= 2 ^ 30)%R /\ (2 ^ 30 < IZR (zsum (bits30 w)) + INR (length w))%R.
Proof.
  intros w O.
  assert (G : forall l, List.Forall (fun x => 0 <= x)%R l ->
    (IZR (zsum (map (fun x => to_int (x / sumR w * 2 ^ 30)%R) l)) <= sumR l / sumR w * 2 ^ 30)%R /\
    ((0 < length l)%nat -> sumR l / sumR w * 2 ^ 30 < IZR (zsum (map (fun x => to_int (x / sumR w * 2 ^ 30)%R) l)) + INR (length l))%R).
  { induction 1 as [|x l X F IH].
    - cbn. split; [unfold Rdiv; lra|lia].
    - cbn [map zsum]. rewrite plus_IZR. change (sumR (x :: l)) with (x + sumR l)%R.
      pose proof (to_int_floor _ (share_nonneg w x O X)) as T. replace ((x + sumR l) / sumR w * 2 ^ 30)%R with (x / sumR w * 2 ^ 30 + sumR l / sumR w * 2 ^ 30)%R by (unfold Rdiv; ring).
      destruct IH as [A B]. split; [lra|]. intros _. change (length (x :: l)) with (S (length l)). rewrite S_INR. destruct l as [|y l].
      + cbn [length INR sumR fold_right map zsum] in *. unfold Rdiv in *. lra.
      + specialize (B ltac:(cbn; lia)). lra. }
  destruct O as [F S]. destruct (G w F) as [A B].
  replace (sumR w / sumR w * 2 ^ 30)%R with (2 ^ 30)%R in * by (field; lra). unfold bits30. rewrite rsum_is. split; [exact A|]. apply B.
  destruct w; [unfold sumR in S; cbn in S; lra|cbn; lia].
Qed.
Lemma bits30_ok : forall w, weights_ok w -> Z.of_nat (length w) <= 2 ^ 30 ->
  List.Forall (fun m => 0 <= m <= 2 ^ 30) (bits30 w) /\ 0 < zsum (bits30 w) <= 2 ^ 30.
Proof.
  intros w O L. destruct (bits30_sum w O) as [A B]. rewrite pow30 in *. rewrite INR_IZR_INZ, <- plus_IZR in B. apply le_IZR in A. apply lt_IZR in B.
  assert (N : List.Forall (fun m => 0 <= m) (bits30 w)).
  { apply Forall_forall. intros m M. destruct (In_nth _ _ 0 M) as [i [I <-]]. rewrite bits30_length in I. rewrite bits30_nth by exact I.
    destruct O as [F S]. rewrite Forall_forall in F. pose proof (share_nonneg w (nth i w 0%R) (conj (proj2 (Forall_forall _ _) F) S) (F _ (nth_In _ _ I))) as H.
    pose proof (to_int_floor _ H) as T. assert (-1 < to_int (nth i w 0 / sumR w * 2 ^ 30)%R); [|lia]. apply lt_IZR. lra. }
  split; [|lia]. apply Forall_forall. intros m M. split; [rewrite Forall_forall in N; now apply N|]. pose proof (zsum_ge _ m N M). lia.
Qed.

(** ** Drawing *)

Definition sure_words (i k : nat) : list Z := if Nat.eqb k i then span 0 all30 else [].
Lemma sure_words_in : forall i k j, In j (sure_words i k) <-> k = i /\ 0 <= j < 2 ^ 30.
Proof.
  intros i k j. unfold sure_words. destruct (Nat.eqb_spec k i) as [->|D].
  - rewrite span_in, all30_Z. tauto.
  - split; [contradiction|]. tauto.
Qed.

Theorem words_in_proportion : forall w, weights_ok w -> Z.of_nat (length w) <= 2 ^ 30 ->
  exists s words, init_sampler5tbl w = Some s /\
    (forall i, NoDup (words i) /\ List.Forall (fun j => 0 <= j < 2 ^ 30) (words i)) /\
    (forall i k j, In j (words i) -> In j (words k) -> i = k) /\
    (forall i, (i < length w)%nat -> (INR (length (words i)) <= 2 ^ 30 * nth i w 0 / sumR w < INR (length (words i)) + 1)%R) /\
    (forall i, (length w <= i)%nat -> words i = []) /\
    ((exists i, Z.of_nat (length (words i)) = 2 ^ 30 /\ (forall fuel g, Dran fuel s g = (g, Ok i)) /\ forall fuel n g, Dran_array fuel s n g = (g, Ok (repeat i n))) \/
     (exists t, s = Tabled t /\ forall y, 0 <= y < 2 ^ 32 ->
        match look_up t (Z.shiftr y 2) with Item i => stands_for words y i | Again => forall i, ~ stands_for words y i | Outside => False end)).
Proof.
  intros w O L. destruct (bits30_ok w O L) as [F S]. unfold init_sampler5tbl. rewrite rsum_is.
  rewrite (proj2 (Rleb_false (sumR w) 0)) by (destruct O; lra).
  destruct (build_cases (bits30 w) F S) as [[i [I [E [N A]]]]|[t [E [C B]]]]; rewrite E.
  - exists (Sure i), (sure_words i). rewrite bits30_length in I. split; [reflexivity|]. split; [|split; [|split; [|split]]].
    + intros k. split; [|apply Forall_forall; intros j J; apply (proj1 (sure_words_in _ _ _)) in J; exact (proj2 J)].
      unfold sure_words. destruct (Nat.eqb k i); [apply span_nodup|constructor].
    + intros k k' j J J'. apply (proj1 (sure_words_in _ _ _)) in J. apply (proj1 (sure_words_in _ _ _)) in J'. destruct J, J'. congruence.
    + intros k K. pose proof (bits30_floor w k O K) as B. rewrite INR_IZR_INZ.
      replace (Z.of_nat (length (sure_words i k))) with (nth k (bits30 w) 0); [exact B|].
      unfold sure_words. destruct (Nat.eqb_spec k i) as [->|D].
      * unfold span. rewrite map_length, seq_length, all30_Z. exact N.
      * cbn [length]. now apply A.
    + intros k K. unfold sure_words. destruct (Nat.eqb_spec k i); [lia|reflexivity].
    + left. exists i. split; [|split].
      * unfold sure_words. rewrite Nat.eqb_refl. unfold span. rewrite map_length, seq_length. exact all30_Z.
      * intros fuel g. now destruct fuel.
      * intros fuel n g. reflexivity.
  - exists (Tabled t), (item_words t). split; [reflexivity|]. split; [|split; [|split; [|split]]].
    + intros i. split; [apply NoDup_filter, span_nodup|]. apply Forall_forall. intros j J. apply (proj1 (item_words_in _ _ _)) in J. exact (proj1 J).
    + intros i k j J J'. apply (proj1 (item_words_in _ _ _)) in J. apply (proj1 (item_words_in _ _ _)) in J'. destruct J as [_ J], J' as [_ J']. congruence.
    + intros i I. rewrite INR_IZR_INZ, C. now apply bits30_floor.
    + intros i I. specialize (C i). rewrite nth_overflow in C by (rewrite bits30_length; exact I). destruct (item_words t i); [reflexivity|cbn in C; lia].
    + right. exists t. split; [reflexivity|]. intros y Y. rewrite Z.shiftr_div_pow2 by lia. change (2 ^ 2) with 4.
      assert (J : 0 <= y / 4 < 2 ^ 30) by (split; [apply Z.div_pos; lia|apply Z.div_lt_upper_bound; lia]). unfold stands_for.
      destruct (B _ J) as [[i [_ K]]|K]; rewrite K.
      * apply (proj2 (item_words_in _ _ _)). split; [exact J|exact K].
      * intros i I. apply (proj1 (item_words_in _ _ _)) in I. destruct I as [_ I]. congruence.
Qed.

Theorem draw_one : forall t words g g' y fuel, good g ->
  (forall y, 0 <= y < 2 ^ 32 -> match look_up t (Z.shiftr y 2) with Item i => stands_for words y i | Again => forall i, ~ stands_for words y i | Outside => False end) ->
  rk_random g = (g', Ok y) ->
  (exists i, stands_for words y i /\ Dran (S fuel) (Tabled t) g = (g', Ok i)) \/
  ((forall i, ~ stands_for words y i) /\ Dran (S fuel) (Tabled t) g = Dran fuel (Tabled t) g').
Proof.
  intros t words g g' y fuel G H E. destruct (random_good g G) as [g1 [y1 [E1 [G1 Y]]]]. rewrite E in E1. injection E1 as <- <-.
  specialize (H y Y). cbn [Dran]. unfold bind. rewrite E. destruct (look_up t (Z.shiftr y 2)) as [i| |].
  - left. exists i. split; [exact H|reflexivity].
  - right. split; [exact H|]. destruct fuel; reflexivity.
  - contradiction.
Qed.

Theorem draw_many : forall t words,
  (forall y, 0 <= y < 2 ^ 32 -> match look_up t (Z.shiftr y 2) with Item i => stands_for words y i | Again => forall i, ~ stands_for words y i | Outside => False end) ->
  forall fuel n g g' r, good g -> Dran_array fuel (Tabled t) n g = (g', r) ->
  good g' /\ (r = Err OutOfFuel \/ exists out ys, r = Ok out /\ length out = n /\ outputs g ys g' /\ stand_for words ys out).
Proof.
  intros t words H fuel n g g' r G E. unfold Dran_array in E.
  assert (L : forall fuel n pre g, good g -> dran_loop fuel t n pre g = (g', r) ->
    good g' /\ (r = Err OutOfFuel \/ exists out ys, r = Ok (pre ++ out) /\ length out = n /\ outputs g ys g' /\ stand_for words ys out)).
  { clear fuel n g G E. induction fuel as [|fuel IH]; intros n pre g G E.
    - destruct n; injection E as <- <-; (split; [exact G|]); [right|now left].
      exists [], []. rewrite app_nil_r. split; [reflexivity|]. split; [reflexivity|]. split; constructor.
    - destruct n as [|n].
      + injection E as <- <-. split; [exact G|right]. exists [], []. rewrite app_nil_r. split; [reflexivity|]. split; [reflexivity|]. split; constructor.
      + cbn [dran_loop] in E. unfold bind in E. destruct (random_good g G) as [g1 [y [E1 [G1 Y]]]]. rewrite E1 in E. specialize (H y Y).
        destruct (look_up t (Z.shiftr y 2)) as [i| |]; [| |contradiction].
        * destruct (IH n (pre ++ [i]) g1 G1 E) as [G' [D|[out [ys [D [Ln [Ou St]]]]]]]; (split; [exact G'|]); [now left|right].
          exists (i :: out), (y :: ys). rewrite <- app_assoc in D. split; [exact D|]. split; [cbn; congruence|].
          split; [econstructor; eassumption|]. now constructor.
        * destruct (IH (S n) pre g1 G1 E) as [G' [D|[out [ys [D [Ln [Ou St]]]]]]]; (split; [exact G'|]); [now left|right].
          exists out, (y :: ys). split; [exact D|]. split; [exact Ln|]. split; [econstructor; eassumption|]. now constructor 3. }
  exact (L fuel n [] g G E).
Qed.
Lemma stand_for_in : forall words ys out, stand_for words ys out -> List.Forall (fun i => words i <> []) out.
Proof.
  induction 1 as [|y ys i out S T IH|y ys out N T IH]; [constructor| |exact IH]. constructor; [|exact IH].
  unfold stands_for in S. intros E. rewrite E in S. contradiction.
Qed.

Theorem draws_in_proportion : forall w, weights_ok w -> Z.of_nat (length w) <= 2 ^ 30 ->
  exists s words, init_sampler5tbl w = Some s /\
    (forall i, NoDup (words i) /\ List.Forall (fun j => 0 <= j < 2 ^ 30) (words i)) /\
    (forall i k j, In j (words i) -> In j (words k) -> i = k) /\
    (forall i, (i < length w)%nat -> (INR (length (words i)) <= 2 ^ 30 * nth i w 0 / sumR w < INR (length (words i)) + 1)%R) /\
    (forall i, (length w <= i)%nat -> words i = []) /\
    ((exists i, Z.of_nat (length (words i)) = 2 ^ 30 /\ (forall fuel g, Dran fuel s g = (g, Ok i)) /\ forall fuel n g, Dran_array fuel s n g = (g, Ok (repeat i n))) \/
     ((forall fuel g g' y, good g -> rk_random g = (g', Ok y) ->
        (exists i, stands_for words y i /\ Dran (S fuel) s g = (g', Ok i)) \/
        ((forall i, ~ stands_for words y i) /\ Dran (S fuel) s g = Dran fuel s g')) /\
      forall fuel n g g' r, good g -> Dran_array fuel s n g = (g', r) ->
        good g' /\ (r = Err OutOfFuel \/ exists out ys, r = Ok out /\ length out = n /\ outputs g ys g' /\ stand_for words ys out))).
Proof.
  intros w O L. destruct (words_in_proportion w O L) as [s [words [E [A [B [C [D K]]]]]]]. exists s, words.
  split; [exact E|]. split; [exact A|]. split; [exact B|]. split; [exact C|]. split; [exact D|].
  destruct K as [[i [N K]]|[t [-> T]]]; [left; exists i; split; [exact N|exact K]|right]. split.
  - intros fuel g g' y G R. now apply draw_one.
  - intros fuel n g g' r G R. now apply (draw_many t words T fuel n g).
Qed.
Lemma words_positive : forall w (words : nat -> list Z) i, weights_ok w ->
  (forall i, (i < length w)%nat -> (INR (length (words i)) <= 2 ^ 30 * nth i w 0 / sumR w < INR (length (words i)) + 1)%R) ->
  (forall i, (length w <= i)%nat -> words i = []) -> words i <> [] -> (i < length w)%nat /\ (0 < nth i w 0)%R.
Proof.
  intros w words i [F S] B N W. destruct (Nat.lt_ge_cases i (length w)) as [I|I]; [|now specialize (N i I)]. split; [exact I|].
  specialize (B i I). destruct (words i) as [|j l] eqn:E; [contradiction|]. change (length (j :: l)) with (Datatypes.S (length l)) in B.
  rewrite S_INR in B. pose proof (pos_INR (length l)). apply Rnot_le_lt. intros X.
  assert (2 ^ 30 * nth i w 0 / sumR w <= 0)%R; [|lra]. rewrite Forall_forall in F. pose proof (F _ (nth_In w 0%R I)) as Y.
  replace (nth i w 0%R) with 0%R by lra. unfold Rdiv. lra.
Qed.
(** An item from Dran, and its generator. *)
Theorem dran_positive : forall w s, weights_ok w -> Z.of_nat (length w) <= 2 ^ 30 -> init_sampler5tbl w = Some s ->
  forall fuel g g' r, good g -> Dran fuel s g = (g', r) ->
  good g' /\ (exists ys, outputs g ys g') /\ (r = Err OutOfFuel \/ exists i, r = Ok i /\ (i < length w)%nat /\ (0 < nth i w 0)%R).
Proof.
  intros w s O L E. destruct (words_in_proportion w O L) as [s' [words [E' [A [B [C [D K]]]]]]].
  rewrite E in E'. injection E' as <-. destruct K as [[i [N [K _]]]|[t [-> T]]].
  - intros fuel g g' r G H. rewrite K in H. injection H as <- <-. split; [exact G|]. split; [exists []; constructor|]. right. exists i. split; [reflexivity|].
    apply (words_positive w words i O C D). intros X. rewrite X in N. discriminate N.
  - induction fuel as [|fuel IH]; intros g g' r G H; [injection H as <- <-; split; [exact G|split; [exists []; constructor|now left]]|].
    destruct (random_good g G) as [g1 [y [E1 [G1 Y]]]].
    destruct (draw_one t words g g1 y fuel G T E1) as [[i [St Q]]|[_ Q]]; rewrite Q in H.
    + injection H as <- <-. split; [exact G1|]. split; [exists [y]; now apply outputs_one|]. right. exists i. split; [reflexivity|].
      apply (words_positive w words i O C D). unfold stands_for in St. intros X. rewrite X in St. contradiction.
    + destruct (IH g1 g' r G1 H) as [G' [[ys Ou] R]]. split; [exact G'|]. split; [|exact R]. exists (y :: ys). econstructor; eassumption.
Qed.
Theorem array_positive : forall w s, weights_ok w -> Z.of_nat (length w) <= 2 ^ 30 -> init_sampler5tbl w = Some s ->
  forall fuel n g g' r, good g -> Dran_array fuel s n g = (g', r) ->
  good g' /\ (r = Err OutOfFuel \/ exists out ys, r = Ok out /\ length out = n /\ outputs g ys g' /\ List.Forall (fun i => (i < length w)%nat /\ (0 < nth i w 0)%R) out).
Proof.
  intros w s O L E fuel n g g' r G H. destruct (draws_in_proportion w O L) as [s' [words [E' [A [B [C [D K]]]]]]].
  rewrite E in E'. injection E' as <-. destruct K as [[i [N [_ K]]]|[_ K]].
  - rewrite K in H. injection H as <- <-. split; [exact G|]. right. exists (repeat i n), []. split; [reflexivity|]. split; [apply repeat_length|].
    split; [constructor|]. apply Forall_forall. intros x X. apply repeat_spec in X. subst x.
    apply (words_positive w words i O C D). intros X. rewrite X in N. discriminate N.
  - destruct (K fuel n g g' r G H) as [G' [R|[out [ys [R [Ln [Ou St]]]]]]]; (split; [exact G'|]); [now left|right].
    exists out, ys. split; [exact R|]. split; [exact Ln|]. split; [exact Ou|].
    eapply Forall_impl; [|exact (stand_for_in _ _ _ St)]. intros i X. now apply (words_positive w words i O C D).
Qed.

(** ** More items than words *)

Lemma sum_repeat : forall x n, sumR (repeat x n) = (INR n * x)%R.
Proof. intros x n. induction n as [|n IH]; [cbn; ring|]. cbn [repeat]. change (sumR (x :: repeat x n)) with (x + sumR (repeat x n))%R. rewrite IH, S_INR. ring. Qed.
Lemma map_rep : forall A B (f : A -> B) x n, map f (repeat x n) = repeat (f x) n.
Proof. intros A B f x n. induction n as [|n IH]; [reflexivity|]. cbn [repeat map]. now rewrite IH. Qed.
Theorem too_many : forall n, 2 ^ 30 < Z.of_nat n -> exists s, init_sampler5tbl (repeat 1%R n) = Some s /\ forall fuel g, Dran fuel s g = (g, Err BadMemory).
Proof.
  intros n N. assert (NP : (1 <= INR n)%R) by (rewrite INR_IZR_INZ; apply IZR_le; lia).
  unfold init_sampler5tbl. rewrite rsum_is, sum_repeat. rewrite (proj2 (Rleb_false _ 0)) by lra.
  assert (Bz : bits30 (repeat 1%R n) = repeat 0 n).
  { unfold bits30. rewrite rsum_is, sum_repeat, Rmult_1_r. rewrite map_rep. f_equal.
    assert (B : (0 <= 1 / INR n * 2 ^ 30 < 1)%R).
    { rewrite pow30. split.
      - apply Rmult_le_pos; [|apply IZR_le; lia]. apply Rmult_le_pos; [lra|]. left. apply Rinv_0_lt_compat. lra.
      - apply Rmult_lt_reg_r with (INR n); [lra|]. replace (1 / INR n * IZR (2 ^ 30) * INR n)%R with (IZR (2 ^ 30)) by (field; lra).
        rewrite Rmult_1_l, INR_IZR_INZ. now apply IZR_lt. }
    pose proof (to_int_floor _ (proj1 B)) as T. assert (-1 < to_int (1 / INR n * 2 ^ 30)%R < 1); [|lia]. split; apply lt_IZR; lra. }
  rewrite Bz. exists Unset.
  assert (Z0 : forall k, 1 <= k <= 5 -> size (repeat 0 n) k = 0).
  { intros k K. rewrite size_is. clear - K. induction n as [|n IH]; [reflexivity|]. cbn [repeat map zsum]. rewrite IH, (proj2 (top_digits k K)). reflexivity. }
  assert (S0 : forall i, sure_event (repeat 0 n) i = None).
  { clear. induction n as [|n IH]; intros i; [reflexivity|]. cbn [repeat sure_event]. change (Z.land (Z.shiftr 0 30) 63 =? 1) with false. cbv iota. apply IH. }
  unfold build_tables. rewrite !Z0 by lia. cbn [Z.add Z.leb Z.compare]. rewrite S0. split; [reflexivity|]. intros fuel g. now destruct fuel.
Qed.

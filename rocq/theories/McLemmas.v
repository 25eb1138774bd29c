(** Lemmas on randomkit.c. *)

From Coq Require Import ZArith List Bool Arith Reals Lia Lra.
From Verif Require Import Exn Instances CountSpec McModel McSpec.
Import ListNotations.
Open Scope Z_scope.

(** ** Bits *)

Definition word (x : Z) : Prop := 0 <= x < 2 ^ 32.
Lemma range_shiftr : forall n x, 0 <= n -> (0 <= x < 2 ^ n <-> Z.shiftr x n = 0).
Proof.
  intros n x N. rewrite Z.shiftr_div_pow2 by exact N. assert (P : 0 < 2 ^ n) by (apply Z.pow_pos_nonneg; lia). split.
  - intros H. now apply Z.div_small.
  - intros H. apply Z.div_small_iff in H; lia.
Qed.
Lemma word_lxor : forall x y, word x -> word y -> word (Z.lxor x y).
Proof.
  intros x y A B. apply (range_shiftr 32) in A; [|lia]. apply (range_shiftr 32) in B; [|lia]. apply range_shiftr; [lia|].
  rewrite Z.shiftr_lxor, A, B. reflexivity.
Qed.
Lemma word_land : forall x y, word y -> word (Z.land x y).
Proof.
  intros x y B. apply (range_shiftr 32) in B; [|lia]. apply range_shiftr; [lia|].
  rewrite Z.shiftr_land, B. apply Z.land_0_r.
Qed.
Lemma word_shiftr : forall x n, 0 <= n -> word x -> word (Z.shiftr x n).
Proof.
  intros x n N [A B]. rewrite Z.shiftr_div_pow2 by exact N. assert (P : 0 < 2 ^ n) by (apply Z.pow_pos_nonneg; lia). split.
  - apply Z.div_pos; lia.
  - apply Z.le_lt_trans with x; [apply Z.div_le_upper_bound; nia|exact B].
Qed.
Lemma temper_is : forall y, rk_temper y = tempered y.
Proof. intros y. unfold rk_temper, tempered. now rewrite !Z.shiftr_div_pow2, !Z.shiftl_mul_pow2 by lia. Qed.
Lemma temper_word : forall y, word y -> word (rk_temper y).
Proof.
  intros y H. unfold rk_temper.
  repeat (apply word_lxor || (apply word_land; unfold word; lia) || (apply word_shiftr; [lia|]) || exact H).
Qed.

Lemma upper_lower : forall a b, word a ->
  Z.lor (Z.land a UPPER_MASK) (Z.land b LOWER_MASK) = 2 ^ 31 * (a / 2 ^ 31) + b mod 2 ^ 31.
Proof.
  intros a b A. replace (Z.land b LOWER_MASK) with (b mod 2 ^ 31) by (rewrite <- Z.land_ones by lia; reflexivity).
  assert (E : Z.land a UPPER_MASK = Z.shiftl (Z.shiftr a 31) 31).
  { apply Z.bits_inj'. intros n N. rewrite Z.land_spec, Z.shiftl_spec by exact N.
    replace UPPER_MASK with (2 ^ 31) by reflexivity. rewrite Z.pow2_bits_eqb by lia.
    destruct (Z.eqb_spec 31 n) as [<-|D].
    - rewrite Z.shiftr_spec, andb_true_r by lia. f_equal.
    - rewrite andb_false_r. destruct (Z.ltb_spec n 31).
      + symmetry. apply Z.testbit_neg_r. lia.
      + rewrite Z.shiftr_spec by lia. replace (n - 31 + 31) with n by lia. symmetry.
        destruct (Z.eq_dec a 0) as [->|NZ]; [apply Z.bits_0|].
        apply Z.bits_above_log2; [unfold word in A; lia|]. apply Z.log2_lt_pow2; [unfold word in A; lia|]. apply Z.lt_le_trans with (2 ^ 32); [apply A|].
        apply Z.pow_le_mono_r; lia. }
  rewrite E. rewrite <- Z.shiftr_div_pow2 by lia. replace (2 ^ 31 * Z.shiftr a 31) with (Z.shiftl (Z.shiftr a 31) 31) by (rewrite Z.shiftl_mul_pow2; lia).
  rewrite <- Z.lxor_lor; [|apply Z.bits_inj'; intros n N; rewrite Z.land_spec, Z.shiftl_spec, Z.bits_0 by exact N; destruct (Z.ltb_spec n 31)].
  - symmetry. apply Z.add_nocarry_lxor.
    apply Z.bits_inj'; intros n N; rewrite Z.land_spec, Z.shiftl_spec, Z.bits_0 by exact N; destruct (Z.ltb_spec n 31).
    + rewrite Z.testbit_neg_r by lia. reflexivity.
    + rewrite Z.mod_pow2_bits_high by lia. apply andb_false_r.
  - rewrite Z.testbit_neg_r by lia. reflexivity.
  - rewrite Z.mod_pow2_bits_high by lia. apply andb_false_r.
Qed.
Lemma odd_mask : forall y, Z.land (Z.modulo (- Z.land y 1) (2 ^ 32)) MATRIX_A = if Z.odd y then 2567483615 else 0.
Proof.
  intros y. change 1 with (Z.ones 1). rewrite Z.land_ones by lia. rewrite Zmod_odd. now destruct (Z.odd y).
Qed.

(** ** The recurrence *)

Definition next_word (a b far : Z) : Z :=
  let y := 2 ^ 31 * (a / 2 ^ 31) + b mod 2 ^ 31 in Z.lxor far (Z.lxor (y / 2) (if Z.odd y then 2567483615 else 0)).
Lemma next_word_word : forall a b far, word a -> word b -> word far -> word (next_word a b far).
Proof.
  intros a b far A B F. unfold next_word. apply word_lxor; [exact F|]. apply word_lxor.
  - pose proof (Z.mod_pos_bound b (2 ^ 31) ltac:(lia)). assert (0 <= a / 2 ^ 31 < 2).
    { split; [apply Z.div_pos; unfold word in A; lia|apply Z.div_lt_upper_bound; unfold word in A; lia]. }
    split; [apply Z.div_pos; lia|apply Z.div_lt_upper_bound; lia].
  - destruct (Z.odd _); split; lia.
Qed.

Fixpoint window (key : list Z) (k : nat) : list Z :=
  match k with
  | O => key
  | S k => let w := window key k in tl w ++ [next_word (nth 0 w 0) (nth 1 w 0) (nth 397 w 0)]
  end.
Definition words_of (key : list Z) (k : nat) : Z := nth 0 (window key k) 0.
Lemma window_length : forall key k, length key = 624%nat -> length (window key k) = 624%nat.
Proof.
  intros key k H. induction k as [|k IH]; [exact H|]. cbn [window]. rewrite app_length. cbn [length].
  destruct (window key k); [discriminate IH|]. cbn [tl length] in *. lia.
Qed.
Lemma window_nth : forall j key k, length key = 624%nat -> (j < 624)%nat -> nth j (window key k) 0 = words_of key (k + j).
Proof.
  induction j as [|j IH]; intros key k H J; [now rewrite Nat.add_0_r|].
  rewrite Nat.add_succ_r, <- Nat.add_succ_l, <- IH by (trivial; lia). cbn [window].
  pose proof (window_length key k H) as L. destruct (window key k) as [|a w] eqn:E; [discriminate L|]. cbn [tl nth length] in *.
  rewrite app_nth1 by lia. reflexivity.
Qed.
Lemma words_start : forall key i, length key = 624%nat -> (i < 624)%nat -> words_of key i = nth i key 0.
Proof. intros key i H I. change i with (0 + i)%nat at 1. rewrite <- (window_nth i key 0) by assumption. reflexivity. Qed.
Lemma words_twisted : forall key, length key = 624%nat -> twisted (words_of key).
Proof.
  intros key H k. replace (k + 624)%nat with (S k + 623)%nat by lia. rewrite <- (window_nth 623) by (trivial; lia).
  cbn [window]. pose proof (window_length key k H) as L. rewrite app_nth2 by (destruct (window key k); cbn [tl length] in *; lia).
  replace (623 - length (tl (window key k)))%nat with 0%nat by (destruct (window key k); cbn [tl length] in *; lia).
  cbn [nth]. rewrite !(window_nth) by (trivial; lia). rewrite Nat.add_0_r. reflexivity.
Qed.
Lemma words_word : forall key, length key = 624%nat -> List.Forall word key -> forall k, word (words_of key k).
Proof.
  intros key H F.
  assert (W : forall k, List.Forall word (window key k)).
  { induction k as [|k IH]; [exact F|]. cbn [window]. apply Forall_app. split.
    - destruct (window key k); [constructor|]. now inversion IH.
    - constructor; [|constructor]. pose proof (window_length key k H) as L. rewrite Forall_forall in IH.
      apply next_word_word; apply IH; apply nth_In; lia. }
  intros k. specialize (W k). rewrite Forall_forall in W. apply W. apply nth_In. rewrite (window_length key k H). lia.
Qed.

(** ** Regeneration *)

Lemma upd_length : forall A i (v : A) l, (i < length l)%nat -> length (upd i v l) = length l.
Proof. intros A i v l H. unfold upd. rewrite app_length, firstn_length. cbn [length]. rewrite skipn_length. lia. Qed.
Lemma upd_nth : forall A i (v : A) l d j, (i < length l)%nat -> nth j (upd i v l) d = if Nat.eqb j i then v else nth j l d.
Proof.
  intros A i v l d j H. unfold upd. destruct (Nat.eqb_spec j i) as [->|D].
  - rewrite app_nth2; rewrite firstn_length_le by lia; [|lia]. now rewrite Nat.sub_diag.
  - destruct (Nat.ltb_spec j i).
    + rewrite app_nth1 by (rewrite firstn_length_le; lia). rewrite <- (firstn_skipn i l) at 2. rewrite app_nth1; [reflexivity|rewrite firstn_length_le; lia].
    + rewrite app_nth2; rewrite firstn_length_le by lia; [|lia]. destruct (j - i)%nat as [|k] eqn:E; [lia|]. cbn [nth].
      rewrite <- (firstn_skipn (S i) l) at 2. rewrite app_nth2; rewrite firstn_length_le by lia; [|lia]. f_equal. lia.
Qed.

Definition swept (x : nat -> Z) (i : nat) (key : list Z) : Prop :=
  length key = 624%nat /\ (forall j, (j < i)%nat -> nth j key 0 = x (624 + j)%nat) /\ (forall j, (i <= j < 624)%nat -> nth j key 0 = x j).
Lemma sweep_step : forall x i next far key, twisted x -> (forall k, word (x k)) -> swept x i key -> (i < 624)%nat ->
  nth next key 0 = x (i + 1)%nat -> nth far key 0 = x (i + 397)%nat -> swept x (S i) (rk_twist key i next far).
Proof.
  intros x i next far key T W [L [A B]] I N F.
  assert (E : nth i key 0 = x i) by (apply B; lia). unfold rk_twist. rewrite N, F, E, upper_lower by apply W. rewrite odd_mask.
  rewrite Z.shiftr_div_pow2 by lia. change (2 ^ 1) with 2. rewrite Z.lxor_assoc.
  split; [rewrite upd_length; lia|]. split; intros j J; rewrite upd_nth by lia.
  - destruct (Nat.eqb_spec j i) as [->|D]; [|apply A; lia]. rewrite (Nat.add_comm 624 i), (T i). reflexivity.
  - destruct (Nat.eqb_spec j i) as [->|D]; [lia|]. apply B; lia.
Qed.
Lemma sweep_loop : forall x far n i key, twisted x -> (forall k, word (x k)) -> swept x i key -> (i + n < 624)%nat ->
  (forall key j, swept x j key -> (i <= j < i + n)%nat -> nth (far j) key 0 = x (j + 397)%nat) ->
  swept x (i + n) (fold_left (fun k i => rk_twist k i (i + 1) (far i)) (seq i n) key).
Proof.
  intros x far n. induction n as [|n IH]; intros i key T W S I F; [now rewrite Nat.add_0_r|].
  cbn [seq fold_left]. rewrite Nat.add_succ_r, <- Nat.add_succ_l. apply IH; [exact T|exact W| |lia|].
  - apply sweep_step; [exact T|exact W|exact S|lia| |].
    + destruct S as [_ [_ B]]. rewrite B by lia. reflexivity.
    + apply F; [exact S|lia].
  - intros k j Sj J. apply F; [exact Sj|lia].
Qed.
Lemma regen_is : forall x key, twisted x -> (forall k, word (x k)) -> swept x 0 key -> swept x 624 (rk_regen key).
Proof.
  intros x key T W S. unfold rk_regen.
  pose proof (sweep_loop x (fun i => (i + 397)%nat) (624 - 397) 0 key T W S ltac:(cbn; lia)) as S1.
  cbv beta in S1. specialize (S1 ltac:(intros k j [_ [_ B]] J; apply B; cbn in J; lia)).
  change (0 + (624 - 397))%nat with (624 - 397)%nat in S1.
  set (key1 := fold_left _ (seq 0 (624 - 397)) key) in *.
  pose proof (sweep_loop x (fun i => (i - (624 - 397))%nat) 396 (624 - 397) key1 T W S1 ltac:(cbn; lia)) as S2.
  cbv beta in S2. specialize (S2 ltac:(intros k j [_ [A _]] J; rewrite A by (cbn in J |- *; lia); f_equal; cbn in J |- *; lia)).
  set (key2 := fold_left _ (seq (624 - 397) 396) key1) in *.
  change (624 - 397 + 396)%nat with 623%nat in S2.
  apply (sweep_step x 623 0 396 key2 T W S2); [lia| |]; destruct S2 as [_ [A _]]; rewrite A by lia; reflexivity.
Qed.

(** ** Numbers from the generator *)

Definition at_word (x : nat -> Z) (q : nat) (g : rk) : Prop :=
  exists off, length (rk_key g) = 624%nat /\ (forall j, (j < 624)%nat -> nth j (rk_key g) 0 = x (off + j)%nat) /\
    0 <= rk_pos g <= 624 /\ Z.of_nat q = Z.of_nat off + rk_pos g.
Lemma twisted_shift : forall x off, twisted x -> twisted (fun j => x (off + j)%nat).
Proof. intros x off T k. cbv beta. rewrite !Nat.add_assoc. apply T. Qed.
Lemma random_step : forall x q g, twisted x -> (forall k, word (x k)) -> at_word x q g ->
  exists g', rk_random g = (g', Ok (tempered (x q))) /\ at_word x (S q) g'.
Proof.
  intros x q g T W [off [L [K [P Q]]]]. unfold rk_random.
  assert (M : exists off, let s := (if rk_pos g =? 624 then Rk (rk_regen (rk_key g)) 0 else g) in
     length (rk_key s) = 624%nat /\ (forall j, (j < 624)%nat -> nth j (rk_key s) 0 = x (off + j)%nat) /\
    0 <= rk_pos s < 624 /\ Z.of_nat q = Z.of_nat off + rk_pos s).
  { destruct (Z.eqb_spec (rk_pos g) 624) as [E|E]; [|exists off; cbv zeta; repeat split; trivial; lia].
    exists (off + 624)%nat. cbv zeta. cbn [rk_key rk_pos].
    destruct (regen_is (fun j => x (off + j)%nat) (rk_key g) (twisted_shift x off T) (fun k => W _)) as [L' [A _]].
    { split; [exact L|]. split; [intros j J; lia|]. intros j J. apply K; lia. }
    split; [exact L'|]. split; [intros j J; rewrite A by exact J; f_equal; lia|]. split; lia. }
  clear off L K P Q. destruct M as [off M]. cbv zeta in M. destruct M as [L [K [P Q]]].
  set (s := if rk_pos g =? 624 then Rk (rk_regen (rk_key g)) 0 else g) in *.
  destruct (Z.ltb_spec (rk_pos s) 0); [lia|].
  rewrite (nth_error_nth' (rk_key s) 0) by lia. rewrite K by lia.
  exists (Rk (rk_key s) (rk_pos s + 1)). split.
  - rewrite temper_is. repeat f_equal. lia.
  - exists off. cbn [rk_key rk_pos]. repeat split; trivial; lia.
Qed.
Lemma at_word_good : forall x q g, (forall k, word (x k)) -> at_word x q g -> good g.
Proof.
  intros x q g W [off [L [K [P Q]]]]. split; [exact L|]. split; [|exact P]. apply Forall_forall. intros k I.
  destruct (In_nth _ _ 0 I) as [j [J <-]]. rewrite K by lia. apply W.
Qed.
Lemma good_at : forall g, good g -> at_word (words_of (rk_key g)) (Z.to_nat (rk_pos g)) g.
Proof.
  intros g [L [F P]]. exists 0%nat. split; [exact L|]. split; [intros j J; symmetry; now apply words_start|]. split; [exact P|lia].
Qed.
Lemma at_outputs : forall x n q g, twisted x -> (forall k, word (x k)) -> at_word x q g ->
  exists g', outputs g (map (fun k => tempered (x k)) (seq q n)) g' /\ at_word x (q + n) g'.
Proof.
  intros x n. induction n as [|n IH]; intros q g T W A.
  - exists g. rewrite Nat.add_0_r. split; [constructor|exact A].
  - destruct (random_step x q g T W A) as [g1 [E A1]]. destruct (IH (S q) g1 T W A1) as [g2 [O A2]].
    exists g2. split; [cbn [seq map]; econstructor; eassumption|]. now replace (q + S n)%nat with (S q + n)%nat by lia.
Qed.
Theorem generator_is_twister : forall g, good g ->
  exists x, (forall i, (i < 624)%nat -> x i = nth i (rk_key g) 0) /\ twisted x /\
    forall n, exists ys g', outputs g ys g' /\ length ys = n /\ good g' /\
      forall k, (k < n)%nat -> nth k ys 0 = tempered (x (Z.to_nat (rk_pos g) + k)%nat) /\ 0 <= nth k ys 0 < 2 ^ 32.
Proof.
  intros g G. assert (L : length (rk_key g) = 624%nat) by apply G. exists (words_of (rk_key g)).
  pose proof (words_twisted _ L) as T. assert (W : forall k, word (words_of (rk_key g) k)) by (apply words_word; [exact L|apply G]).
  split; [intros i I; now apply words_start|]. split; [exact T|]. intros n.
  destruct (at_outputs _ n _ g T W (good_at g G)) as [g' [O A]].
  exists (map (fun k => tempered (words_of (rk_key g) k)) (seq (Z.to_nat (rk_pos g)) n)), g'.
  split; [exact O|]. split; [now rewrite map_length, seq_length|]. split; [eapply at_word_good; eassumption|].
  intros k K. rewrite (nth_indep _ 0 (tempered (words_of (rk_key g) 0))) by now rewrite map_length, seq_length.
  rewrite (map_nth (fun k => tempered (words_of (rk_key g) k))), seq_nth by exact K. split; [reflexivity|].
  rewrite <- temper_is. apply (temper_word _ (W _)).
Qed.
Lemma random_good : forall g, good g -> exists g' y, rk_random g = (g', Ok y) /\ good g' /\ 0 <= y < 2 ^ 32.
Proof.
  intros g G. assert (L : length (rk_key g) = 624%nat) by apply G. pose proof (words_twisted _ L) as T.
  assert (W : forall k, word (words_of (rk_key g) k)) by (apply words_word; [exact L|apply G]).
  destruct (random_step _ _ g T W (good_at g G)) as [g' [E A]]. exists g'. eexists. split; [exact E|].
  split; [eapply at_word_good; eassumption|]. rewrite <- temper_is. apply (temper_word _ (W _)).
Qed.
Lemma outputs_app : forall g ys g1 zs g2, outputs g ys g1 -> outputs g1 zs g2 -> outputs g (ys ++ zs) g2.
Proof. intros g ys g1 zs g2 O. revert zs g2. induction O; intros zs g3 P; [exact P|]. cbn [app]. econstructor; eauto. Qed.
Lemma outputs_one : forall g y g', rk_random g = (g', Ok y) -> outputs g [y] g'.
Proof. intros. econstructor; [eassumption|constructor]. Qed.

(** Lemmas on sampling with equal probabilities and on populations. *)

From Coq Require Import ZArith List Bool Arith Reals Lia Lra Sorting.Sorted Sorting.Permutation.
From Verif Require Import Exn Instances CountSpec McModel McSpec McLemmas McLemmas2 McLemmas3 McLemmas4.
Import ListNotations.
Open Scope nat_scope.

(** ** Picks *)

Fixpoint chosen {A} (d : A) (n : nat) (pool : list A) (picks : list nat) : list A :=
  match picks with [] => [] | q :: picks' => nth q pool d :: chosen d (n - 1) (upd q (nth (n - 1) pool d) pool) picks' end.
Fixpoint left_over {A} (d : A) (n : nat) (pool : list A) (picks : list nat) : list A :=
  match picks with [] => pool | q :: picks' => left_over d (n - 1) (upd q (nth (n - 1) pool d) pool) picks' end.
Lemma map_upd : forall A B (f : A -> B) i v l, map f (upd i v l) = upd i (f v) (map f l).
Proof. intros A B f i v l. unfold upd. rewrite map_app. cbn [map]. now rewrite firstn_map, skipn_map. Qed.
Lemma chosen_map : forall A B (f : A -> B) d picks n pool, chosen (f d) n (map f pool) picks = map f (chosen d n pool picks).
Proof.
  intros A B f d. induction picks as [|q picks IH]; intros n pool; [reflexivity|]. cbn [chosen map]. now rewrite !map_nth, <- map_upd, IH.
Qed.
Lemma pick_loop_is : forall C (rand : C -> C * Z) m rs c c' n pool pre, rands rand c rs c' ->
  pick_loop C rand m (length rs) n pool pre c = (c', (pre ++ chosen 0%Z n pool (picks_from m n rs), left_over 0%Z n pool (picks_from m n rs))).
Proof.
  intros C rand m rs c c' n pool pre R. revert n pool pre. induction R as [c|c r c1 rs c2 E R IH]; intros n pool pre.
  - cbn. now rewrite app_nil_r.
  - cbn [length pick_loop picks_from chosen left_over]. rewrite E. rewrite IH. unfold pick_of. now rewrite <- app_assoc.
Qed.
Lemma nth_upd_first : forall A (d : A) n q pool, n <= length pool -> q < n -> forall j, j < n - 1 ->
  nth j (upd q (nth (n - 1) pool d) pool) d = if Nat.eqb j q then nth (n - 1) pool d else nth j pool d.
Proof. intros A d n q pool L Q j J. apply upd_nth. lia. Qed.
Definition apart {A} (d : A) (n : nat) (pool : list A) : Prop := forall i j, i < n -> j < n -> nth i pool d = nth j pool d -> i = j.
Definition among {A} (d : A) (n : nat) (pool : list A) (x : A) : Prop := exists i, i < n /\ nth i pool d = x.
Section Step.
Context {A : Type} (d : A) (n q : nat) (pool : list A).
Hypothesis L : n <= length pool.
Hypothesis Q : q < n.
Hypothesis AP : apart d n pool.
Let pool' := upd q (nth (n - 1) pool d) pool.
Lemma step_length : length pool' = length pool. Proof. apply upd_length. lia. Qed.
Lemma step_apart : apart d (n - 1) pool'.
Proof.
  intros i j I J E. unfold pool' in E. rewrite !nth_upd_first in E by lia.
  destruct (Nat.eqb_spec i q) as [->|Di]; destruct (Nat.eqb_spec j q) as [->|Dj]; [reflexivity| | |].
  - apply AP in E; lia.
  - apply AP in E; lia.
  - apply AP in E; lia.
Qed.
Lemma step_among : forall x, among d (n - 1) pool' x <-> among d n pool x /\ x <> nth q pool d.
Proof.
  intros x. split.
  - intros [i [I <-]]. unfold pool'. rewrite nth_upd_first by lia. destruct (Nat.eqb_spec i q) as [->|D].
    + split; [exists (n - 1); split; [lia|reflexivity]|]. intros E. apply AP in E; lia.
    + split; [exists i; split; [lia|reflexivity]|]. intros E. apply AP in E; lia.
  - intros [[i [I <-]] N]. destruct (Nat.eq_dec i (n - 1)) as [->|D].
    + exists q. assert (q <> n - 1) by (intros ->; now apply N). split; [lia|]. unfold pool'. rewrite nth_upd_first by lia. now rewrite Nat.eqb_refl.
    + exists i. split; [lia|]. unfold pool'. rewrite nth_upd_first by lia. destruct (Nat.eqb_spec i q) as [->|_]; [now contradict N|reflexivity].
Qed.
End Step.

Lemma chosen_ok : forall A (d : A) picks n pool, n <= length pool -> apart d n pool -> picks_ok n picks ->
  length (chosen d n pool picks) = length picks /\ NoDup (chosen d n pool picks) /\ List.Forall (among d n pool) (chosen d n pool picks).
Proof.
  intros A d. induction picks as [|q picks IH]; intros n pool L AP P.
  - split; [reflexivity|]. split; constructor.
  - cbn [chosen picks_ok] in *. destruct P as [Q P].
    destruct (IH (n - 1) (upd q (nth (n - 1) pool d) pool)) as [IL [IN IF]].
    + rewrite (step_length d n q pool L Q). lia.
    + now apply step_apart.
    + exact P.
    + split; [cbn [length]; now rewrite IL|]. split.
      * constructor; [|exact IN]. intros I. rewrite Forall_forall in IF. apply IF in I. apply (step_among d n q pool L Q AP) in I. now apply (proj2 I).
      * constructor; [exists q; split; [exact Q|reflexivity]|]. eapply Forall_impl; [|exact IF]. intros x X. now apply (step_among d n q pool L Q AP) in X.
Qed.
Lemma chosen_onto : forall A (d : A) ps n pool, n <= length pool -> apart d n pool -> NoDup ps -> List.Forall (among d n pool) ps ->
  exists picks, picks_ok n picks /\ length picks = length ps /\ chosen d n pool picks = ps.
Proof.
  intros A d. induction ps as [|p ps IH]; intros n pool L AP ND F.
  - exists []. split; [exact I|]. split; reflexivity.
  - inversion ND as [|? ? N ND']; subst. inversion F as [|? ? [q [Q E]] F']; subst.
    destruct (IH (n - 1) (upd q (nth (n - 1) pool d) pool)) as [picks [P [PL PC]]].
    + rewrite (step_length d n q pool L Q). lia.
    + now apply step_apart.
    + exact ND'.
    + rewrite Forall_forall in *. intros x X. apply (step_among d n q pool L Q AP). split; [now apply F'|]. intros ->. contradiction.
    + exists (q :: picks). split; [split; assumption|]. split; [cbn; now rewrite PL|]. cbn [chosen]. now rewrite PC.
Qed.
Lemma chosen_inj : forall A (d : A) picks picks' n pool, n <= length pool -> apart d n pool -> picks_ok n picks -> picks_ok n picks' ->
  chosen d n pool picks = chosen d n pool picks' -> picks = picks'.
Proof.
  intros A d. induction picks as [|q picks IH]; intros [|q' picks'] n pool L AP P P' E; [reflexivity|discriminate|discriminate|].
  cbn [chosen picks_ok] in *. destruct P as [Q P], P' as [Q' P']. injection E as E1 E2. apply AP in E1; [|exact Q|exact Q']. subst q'. f_equal.
  apply (IH picks' (n - 1) (upd q (nth (n - 1) pool d) pool)); trivial.
  - rewrite (step_length d n q pool L Q). lia.
  - now apply step_apart.
Qed.

Definition places (n : nat) (picks : list nat) : list nat := chosen 0 n (seq 0 n) picks.
Lemma seq_apart : forall n, apart 0 n (seq 0 n).
Proof. intros n i j I J E. rewrite !seq_nth in E by lia. lia. Qed.
Lemma seq_among : forall n x, among 0 n (seq 0 n) x <-> x < n.
Proof.
  intros n x. split; [intros [i [I <-]]; rewrite seq_nth; lia|]. intros X. exists x. split; [exact X|]. now rewrite seq_nth.
Qed.
Lemma places_selection : forall n picks, picks_ok n picks -> selection n (length picks) (places n picks).
Proof.
  intros n picks P. destruct (chosen_ok nat 0 picks n (seq 0 n)) as [L [ND F]]; [rewrite seq_length; lia|apply seq_apart|exact P|].
  split; [exact L|]. split; [exact ND|]. eapply Forall_impl; [|exact F]. intros x X. now apply seq_among in X.
Qed.
Lemma places_onto : forall n k ps, selection n k ps -> exists picks, picks_ok n picks /\ length picks = k /\ places n picks = ps.
Proof.
  intros n k ps [L [ND F]]. destruct (chosen_onto nat 0 ps n (seq 0 n)) as [picks [P [PL PC]]]; [rewrite seq_length; lia|apply seq_apart|exact ND| |].
  - eapply Forall_impl; [|exact F]. intros x X. now apply seq_among.
  - exists picks. split; [exact P|]. split; [congruence|exact PC].
Qed.
Lemma places_inj : forall n picks picks', picks_ok n picks -> picks_ok n picks' -> places n picks = places n picks' -> picks = picks'.
Proof. intros n picks picks' P P' E. apply (chosen_inj nat 0 picks picks' n (seq 0 n)); trivial; [rewrite seq_length; lia|apply seq_apart]. Qed.
Lemma map_nth_seqZ : forall pool : list Z, map (fun i => nth i pool 0%Z) (seq 0 (length pool)) = pool.
Proof.
  intros w. induction w as [|x w IH]; [reflexivity|]. cbn [length seq map nth]. f_equal. rewrite <- seq_shift, map_map. exact IH.
Qed.
Lemma chosen_places_gen : forall picks n (pool : list Z) idx, picks_ok n picks -> n <= length idx -> List.Forall (fun i => i < length pool) idx ->
  chosen 0%Z n (map (fun i => nth i pool 0%Z) idx) picks = map (fun i => nth i pool 0%Z) (chosen 0 n idx picks).
Proof.
  induction picks as [|q picks IH]; intros n pool idx P L F; [reflexivity|].
  cbn [chosen map picks_ok] in *. destruct P as [Q P].
  assert (N : forall k, k < length idx -> nth k (map (fun i => nth i pool 0%Z) idx) 0%Z = nth (nth k idx 0) pool 0%Z).
  { intros k K. rewrite (nth_indep _ 0%Z (nth 0 pool 0%Z)) by now rewrite map_length. apply (map_nth (fun i => nth i pool 0%Z)). }
  rewrite !N by lia. f_equal. pose proof (map_upd _ _ (fun i => nth i pool 0%Z) q (nth (n - 1) idx 0) idx) as MU. cbv beta in MU. rewrite <- MU. apply IH; [exact P|rewrite upd_length; lia|].
  apply Forall_forall. intros x X. destruct (In_nth _ _ 0 X) as [j [J <-]]. rewrite upd_length in J by lia. rewrite upd_nth by lia. rewrite Forall_forall in F.
  destruct (Nat.eqb j q); apply F; apply nth_In; lia.
Qed.
Lemma chosen_places : forall pool picks, picks_ok (length pool) picks ->
  chosen 0%Z (length pool) pool picks = map (fun i => nth i pool 0%Z) (places (length pool) picks).
Proof.
  intros pool picks P. rewrite <- (map_nth_seqZ pool) at 2. apply chosen_places_gen; [exact P|rewrite seq_length; lia|].
  apply Forall_forall. intros x X. apply in_seq in X. lia.
Qed.
Lemma rands_take : forall C (rand : C -> C * Z) k c, exists rs c', rands rand c rs c' /\ length rs = k.
Proof.
  intros C rand. induction k as [|k IH]; intros c; [exists [], c; split; [constructor|reflexivity]|].
  destruct (rand c) as [c1 r] eqn:E. destruct (IH c1) as [rs [c2 [R L]]]. exists (r :: rs), c2. split; [econstructor; eassumption|cbn; congruence].
Qed.
Lemma rands_range : forall C (rand : C -> C * Z) m c rs c', rand_below rand m -> rands rand c rs c' -> List.Forall (fun r => (0 <= r < m)%Z) rs.
Proof.
  intros C rand m c rs c' B R. induction R as [c|c r c1 rs c2 E R IH]; constructor; [|exact IH]. specialize (B c). now rewrite E in B.
Qed.
Lemma picks_from_ok : forall m rs n, List.Forall (fun r => (0 <= r < m)%Z) rs -> length rs <= n -> picks_ok n (picks_from m n rs) /\ length (picks_from m n rs) = length rs.
Proof.
  intros m rs n F. revert n. induction F as [|r rs R F IH]; intros n L; [split; [exact I|reflexivity]|]. cbn [length] in L. cbn [picks_from picks_ok length].
  destruct (IH (n - 1) ltac:(lia)) as [P PL]. split; [|now rewrite PL]. split; [|exact P].
  assert (0 <= Z.of_nat n * r / m < Z.of_nat n)%Z; [|lia]. split; [apply Z.div_pos; lia|apply Z.div_lt_upper_bound; nia].
Qed.

Theorem equal_places : forall n k, exists F : list nat -> list nat,
  (forall picks, picks_ok n picks -> length picks = k -> selection n k (F picks)) /\
  (forall ps, selection n k ps -> exists picks, picks_ok n picks /\ length picks = k /\ F picks = ps /\
     forall picks', picks_ok n picks' -> length picks' = k -> F picks' = ps -> picks' = picks) /\
  (1 <= k <= n -> forall C (rand : C -> C * Z) m c rs c', rand_below rand m -> rands rand c rs c' -> length rs = k ->
     picks_ok n (picks_from m n rs) /\
     (forall pool, length pool = n -> equalprob C rand m (Z.of_nat k) pool c = (c', Ok (map (fun q => nth q pool 0%Z) (F (picks_from m n rs)), pool))) /\
     (forall pool, n <= length pool -> exists pool', equalprobi C rand m (Z.of_nat k) (Z.of_nat n) pool c = (c', Ok (map Z.of_nat (F (picks_from m n rs)), pool')) /\
        length pool' = length pool /\ skipn n pool' = skipn n pool)).
Proof.
  intros n k. exists (places n). split; [|split].
  - intros picks P L. rewrite <- L. now apply places_selection.
  - intros ps S. destruct (places_onto n k ps S) as [picks [P [L E]]]. exists picks. split; [exact P|]. split; [exact L|]. split; [exact E|].
    intros picks' P' L' E'. apply (places_inj n); trivial. congruence.
  - intros K C rand m c rs c' B R L. destruct (picks_from_ok m rs n (rands_range _ _ _ _ _ _ B R) ltac:(lia)) as [P PL]. split; [exact P|]. split.
    + intros pool <-. unfold equalprob. rewrite (proj2 (Z.leb_gt _ _)) by lia. rewrite (proj2 (Z.ltb_ge _ _)) by lia. rewrite Nat2Z.id, <- L, (pick_loop_is _ _ _ _ _ _ _ _ _ R).
      cbn [fst app]. now rewrite chosen_places by exact P.
    + intros pool LP. unfold equalprobi. rewrite (proj2 (Z.leb_gt _ _)) by lia. rewrite !(proj2 (Z.ltb_ge _ _)) by lia. rewrite !Nat2Z.id, <- L, (pick_loop_is _ _ _ _ _ _ _ _ _ R).
      cbn [app]. eexists.
      assert (E : chosen 0%Z n (map Z.of_nat (seq 0 n) ++ skipn n pool) (picks_from m n rs) = map Z.of_nat (places n (picks_from m n rs))).
      { assert (G : forall picks j (a : list nat) b, j <= length a -> picks_ok j picks -> chosen 0%Z j (map Z.of_nat a ++ b) picks = map Z.of_nat (chosen 0 j a picks)).
        { induction picks as [|q picks IH]; intros j a b J Pk; [reflexivity|]. cbn [chosen map picks_ok] in *. destruct Pk as [Q Pk].
          assert (NA : forall i, i < length a -> nth i (map Z.of_nat a ++ b) 0%Z = Z.of_nat (nth i a 0)).
          { intros i I. rewrite app_nth1 by now rewrite map_length. change 0%Z with (Z.of_nat 0). apply map_nth. }
          rewrite !NA by lia. f_equal. rewrite <- (IH (j - 1) (upd q (nth (j - 1) a 0) a) b); [|rewrite upd_length; lia|exact Pk]. f_equal.
          rewrite map_upd. unfold upd. rewrite firstn_app, skipn_app, map_length. replace (q - length a) with 0 by lia. replace (S q - length a) with 0 by lia.
          cbn [firstn skipn]. rewrite app_nil_r, <- app_assoc. reflexivity. }
        apply G; [rewrite seq_length; lia|exact P]. }
      rewrite E. split; [reflexivity|].
      assert (G : forall picks j (a b : list Z), j <= length a -> picks_ok j picks -> length (left_over 0%Z j (a ++ b) picks) = length (a ++ b) /\ skipn (length a) (left_over 0%Z j (a ++ b) picks) = b).
      { induction picks as [|q picks IH]; intros j a b J Pk.
        - split; [reflexivity|]. cbn [left_over]. rewrite skipn_app, Nat.sub_diag, skipn_all. reflexivity.
        - cbn [left_over picks_ok] in *. destruct Pk as [Q Pk].
          assert (EU : upd q (nth (j - 1) (a ++ b) 0%Z) (a ++ b) = upd q (nth (j - 1) (a ++ b) 0%Z) a ++ b).
          { unfold upd. rewrite firstn_app, skipn_app. replace (q - length a) with 0 by lia. replace (S q - length a) with 0 by lia. cbn [firstn skipn]. rewrite app_nil_r, <- app_assoc. reflexivity. }
          rewrite EU. set (v := nth (j - 1) (a ++ b) 0%Z). assert (LU : length (upd q v a) = length a) by (apply upd_length; lia).
          destruct (IH (j - 1) (upd q v a) b ltac:(lia) Pk) as [I1 I2]. rewrite LU in I2. split; [rewrite I1, !app_length, LU; reflexivity|exact I2]. }
      destruct (G (picks_from m n rs) n (map Z.of_nat (seq 0 n)) (skipn n pool)) as [G1 G2]; [rewrite map_length, seq_length; lia|exact P|].
      rewrite map_length, seq_length in G2. split; [|exact G2]. rewrite G1, app_length, map_length, seq_length, skipn_length. lia.
Qed.
Theorem pick_share : forall m n q, (0 < m)%Z -> q < n -> exists l, NoDup l /\
  (forall r, In r l <-> (0 <= r < m)%Z /\ Z.to_nat (Z.of_nat n * r / m) = q) /\ (m - Z.of_nat n < Z.of_nat n * Z.of_nat (length l) < m + Z.of_nat n)%Z.
Proof.
  intros m n q M Q. set (N := Z.of_nat n). set (k := Z.of_nat q). set (lo := (- (- (k * m) / N))%Z). set (hi := (- (- ((k + 1) * m) / N))%Z).
  assert (NP : (0 < N)%Z) by lia.
  assert (LO : (k * m <= N * lo < k * m + N)%Z). { unfold lo. pose proof (Z.div_mod (- (k * m)) N ltac:(lia)). pose proof (Z.mod_pos_bound (- (k * m)) N NP). lia. }
  assert (HI : ((k + 1) * m <= N * hi < (k + 1) * m + N)%Z). { unfold hi. pose proof (Z.div_mod (- ((k + 1) * m)) N ltac:(lia)). pose proof (Z.mod_pos_bound (- ((k + 1) * m)) N NP). lia. }
  assert (L0 : (0 <= lo)%Z) by nia. assert (LH : (lo <= hi)%Z) by nia. assert (HM : (hi <= m)%Z) by nia.
  exists (span lo (Z.to_nat (hi - lo))). split; [apply span_nodup|]. split.
  - intros r. rewrite span_in, Z2Nat.id by lia. split.
    + intros R. split; [lia|]. assert (N * r / m = k)%Z; [|lia]. symmetry. apply Z.div_unique with (N * r - k * m)%Z; [left; nia|ring].
    + intros [R E]. assert (D : (N * r / m = k)%Z). { assert (0 <= N * r / m)%Z by (apply Z.div_pos; nia). fold N in E. lia. }
      pose proof (Z.div_mod (N * r) m ltac:(lia)) as X. pose proof (Z.mod_pos_bound (N * r) m M) as Y. rewrite D in X. nia.
  - unfold span. rewrite map_length, seq_length, Z2Nat.id by lia. nia.
Qed.
Theorem equal_refused : forall C (rand : C -> C * Z) m k pool c, (k <= 0 \/ Z.of_nat (length pool) < k)%Z -> equalprob C rand m k pool c = (c, Err ValueError).
Proof.
  intros C rand m k pool c H. unfold equalprob. destruct (Z.leb_spec k 0); [reflexivity|]. destruct (Z.ltb_spec (Z.of_nat (length pool)) k); [reflexivity|lia].
Qed.

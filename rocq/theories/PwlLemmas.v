(** Lemmas for piecewise linear densities: regions. *)

From Coq Require Import ZArith List Bool Arith Reals Lia Lra Sorting.Sorted Sorting.Permutation.
From Verif Require Import Exn Instances CountSpec McModel McSpec McLemmas5 PwlModel PwlSpec.
Import ListNotations.
Open Scope R_scope.

(** ** Runs *)

Inductive runs : nat -> list (nat * nat) -> Prop :=
| runs_nil : forall b, runs b []
| runs_cons : forall b a len bs, (b <= a)%nat -> (1 <= len)%nat -> runs (a + len + 1) bs -> runs b ((a, len) :: bs).
Definition cells (bs : list (nat * nat)) : list nat := concat (map (fun b => seq (fst b) (snd b)) bs).

Lemma runs_le : forall b b' bs, runs b bs -> (b' <= b)%nat -> runs b' bs.
Proof. intros b b' bs R L. destruct R; constructor; try assumption; lia. Qed.
Lemma last_seq : forall len a, (1 <= len)%nat -> last (seq a len) 0%nat = (a + len - 1)%nat.
Proof.
  intros len a L. replace len with (len - 1 + 1)%nat at 1 by lia. rewrite seq_app. cbn [seq]. rewrite last_last. lia.
Qed.
Lemma seq_snoc : forall a len, seq a len ++ [(a + len)%nat] = seq a (len + 1).
Proof. intros a len. now rewrite seq_app. Qed.
Lemma group_runs : forall sel a len, (1 <= len)%nat -> StronglySorted lt sel -> List.Forall (fun i => (a + len <= i)%nat) sel ->
  exists bs, group (seq a len) sel = map (fun b => seq (fst b) (snd b)) bs /\ runs a bs /\ cells bs = seq a len ++ sel.
Proof.
  induction sel as [|i sel IH]; intros a len L S F.
  - exists [(a, len)]. split; [reflexivity|]. split; [constructor; [lia|lia|constructor]|]. unfold cells. cbn [map concat fst snd]. reflexivity.
  - cbn [group]. rewrite last_seq by exact L. inversion S as [|? ? S1 S2]; subst. inversion F as [|? ? F1 F2]; subst.
    destruct (Nat.eqb_spec i (a + len - 1 + 1)) as [E|E].
    + replace i with (a + len)%nat in * by lia. rewrite seq_snoc. destruct (IH a (len + 1)%nat) as [bs [E1 [R C]]]; [lia|exact S1|eapply Forall_impl; [|exact S2]; cbn beta; intros; lia|].
      exists bs. split; [exact E1|]. split; [exact R|]. rewrite C, <- seq_snoc, <- app_assoc. reflexivity.
    + destruct (IH i 1%nat) as [bs [E1 [R C]]]; [lia|exact S1|eapply Forall_impl; [|exact S2]; cbn beta; intros; lia|].
      exists ((a, len) :: bs). split; [cbn [map fst snd]; f_equal; exact E1|]. split.
      * constructor; [lia|exact L|]. eapply runs_le; [exact R|lia].
      * unfold cells in *. cbn [map concat fst snd]. rewrite C. reflexivity.
Qed.
Lemma cells_in : forall bs j, In j (cells bs) <-> exists a len, In (a, len) bs /\ (a <= j < a + len)%nat.
Proof.
  intros bs j. unfold cells. rewrite in_concat. split.
  - intros [l [L J]]. apply in_map_iff in L. destruct L as [[a len] [<- I]]. apply in_seq in J. now exists a, len.
  - intros [a [len [I J]]]. exists (seq a len). split; [apply in_map_iff; now exists (a, len)|now apply in_seq].
Qed.
Lemma runs_from : forall b bs a len, runs b bs -> In (a, len) bs -> (b <= a)%nat /\ (1 <= len)%nat.
Proof.
  intros b bs a len R. induction R as [|b a' len' bs B L R IH]; intros I; [destruct I|]. destruct I as [I|I]; [injection I as <- <-; now split|].
  destruct (IH I). split; lia.
Qed.
Lemma runs_gap : forall b bs, runs b bs -> forall a len, In (a, len) bs -> ~ In (a + len)%nat (cells bs) /\ (1 <= a -> ~ In (a - 1)%nat (cells bs))%nat.
Proof.
  intros b bs R. induction R as [|b a' len' bs B L R IH]; intros a len I; [destruct I|].
  assert (SP : forall j, In j (cells ((a', len') :: bs)) <-> (a' <= j < a' + len')%nat \/ In j (cells bs)) by (intros j; unfold cells; cbn [map concat fst snd]; now rewrite in_app_iff, in_seq).
  assert (AF : forall j, In j (cells bs) -> (a' + len' < j)%nat). { intros j J. apply cells_in in J. destruct J as [x [y [X J]]]. destruct (runs_from _ _ _ _ R X). lia. }
  rewrite !SP. destruct I as [I|I].
  - injection I as <- <-. split; [intros [K|K]; [lia|apply AF in K; lia]|]. intros A [K|K]; [lia|apply AF in K; lia].
  - destruct (runs_from _ _ _ _ R I) as [A1 A2]. destruct (IH a len I) as [G1 G2]. split; [intros [K|K]; [lia|contradiction]|]. intros A [K|K]; [lia|now apply G2].
Qed.

(** ** Increasing lists *)

Lemma sorted_same : forall l l' : list nat, StronglySorted lt l -> StronglySorted lt l' -> (forall j, In j l <-> In j l') -> l = l'.
Proof.
  induction l as [|x l IH]; intros l' S S' E.
  - destruct l' as [|y l']; [reflexivity|]. destruct (proj2 (E y)); now left.
  - destruct l' as [|y l']; [destruct (proj1 (E x)); now left|]. inversion S as [|? ? S1 S2]; subst. inversion S' as [|? ? S1' S2']; subst. rewrite Forall_forall in S2, S2'.
    assert (x = y). { destruct (proj1 (E x) (or_introl eq_refl)) as [K|K]; [now symmetry|]. destruct (proj2 (E y) (or_introl eq_refl)) as [K'|K']; [exact K'|]. specialize (S2 _ K'). specialize (S2' _ K). lia. }
    subst y. f_equal. apply IH; [exact S1|exact S1'|]. intros j. split; intros J.
    + destruct (proj1 (E j) (or_intror J)) as [K|K]; [subst; specialize (S2 _ J); lia|exact K].
    + destruct (proj2 (E j) (or_intror J)) as [K|K]; [subst; specialize (S2' _ J); lia|exact K].
Qed.
Lemma seq_sorted : forall len a, StronglySorted lt (seq a len).
Proof.
  induction len as [|len IH]; intros a; cbn [seq]; [constructor|]. constructor; [apply IH|]. apply Forall_forall. intros j J. apply in_seq in J. lia.
Qed.
Lemma filter_sorted : forall (f : nat -> bool) l, StronglySorted lt l -> StronglySorted lt (filter f l).
Proof.
  intros f l S. induction S as [|x l S IH F]; cbn [filter]; [constructor|]. destruct (f x); [|exact IH]. constructor; [exact IH|].
  rewrite Forall_forall in *. intros j J. apply filter_In in J. now apply F.
Qed.
Lemma sorted_app : forall l l', StronglySorted lt l -> StronglySorted lt l' -> (forall i j, In i l -> In j l' -> (i < j)%nat) -> StronglySorted lt (l ++ l').
Proof.
  intros l l' S S' H. induction S as [|x l S IH F]; cbn [app]; [exact S'|]. constructor.
  - apply IH. intros i j I J. apply H; [now right|exact J].
  - rewrite Forall_forall in *. intros j J. apply in_app_iff in J. destruct J as [J|J]; [now apply F|]. apply H; [now left|exact J].
Qed.

(** ** Ranges *)

Definition stretch (n : nat) (b : nat * nat) : nat * nat := (fst b - 1, Nat.min (fst b + snd b) (n - 1))%nat.
Definition spans (rs : list (nat * nat)) : list nat := concat (map (fun r => seq (fst r) (snd r - fst r)) rs).
Lemma in_turn_le : forall b b' rs, in_turn b rs -> (b' <= b)%nat -> in_turn b' rs.
Proof. intros b b' rs R L. destruct R; constructor; try assumption; lia. Qed.
Lemma in_turn_from : forall b rs lo hi, in_turn b rs -> In (lo, hi) rs -> (b <= lo < hi)%nat.
Proof.
  intros b rs lo hi R. induction R as [|b lo' hi' rs B R IH]; intros I; [destruct I|]. destruct I as [I|I]; [injection I as <- <-; exact B|]. specialize (IH I). lia.
Qed.
Lemma spans_in : forall rs j, In j (spans rs) <-> exists lo hi, In (lo, hi) rs /\ (lo <= j < hi)%nat.
Proof.
  intros rs j. unfold spans. rewrite in_concat. split.
  - intros [l [L J]]. apply in_map_iff in L. destruct L as [[lo hi] [<- I]]. apply in_seq in J. cbn [fst snd] in J. exists lo, hi. split; [exact I|lia].
  - intros [lo [hi [I J]]]. exists (seq lo (hi - lo)). split; [apply in_map_iff; now exists (lo, hi)|apply in_seq; lia].
Qed.
Lemma spans_sorted : forall b rs, in_turn b rs -> StronglySorted lt (spans rs).
Proof.
  intros b rs R. induction R as [|b lo hi rs B R IH]; [constructor|]. unfold spans in *. cbn [map concat fst snd]. apply sorted_app; [apply seq_sorted|exact IH|].
  intros i j I J. apply in_seq in I. apply spans_in in J. destruct J as [l [h [K J]]]. pose proof (in_turn_from _ _ _ _ R K). lia.
Qed.
Lemma stretch_turn : forall n b bs, (2 <= n)%nat -> runs b bs -> (forall j, In j (cells bs) -> (j < n)%nat) -> in_turn (b - 1) (map (stretch n) bs).
Proof.
  intros n b bs N R. induction R as [|b a len bs B L R IH]; intros H; cbn [map]; [constructor|].
  assert (H0 : (a + len <= n)%nat). { specialize (H (a + len - 1)%nat). assert ((a + len - 1 < n)%nat); [|lia]. apply H. apply cells_in. exists a, len. split; [now left|lia]. }
  unfold stretch at 1. cbn [fst snd]. constructor; [lia|]. eapply in_turn_le; [apply IH|lia].
  intros j J. apply H. unfold cells in *. cbn [map concat]. apply in_app_iff. now right.
Qed.

Lemma filter_split : forall (f : nat -> bool) l s sel, filter f l = s :: sel -> StronglySorted lt l -> StronglySorted lt sel /\ List.Forall (fun i => (s + 1 <= i)%nat) sel.
Proof.
  intros f l s sel E S. pose proof (filter_sorted f l S) as FS. rewrite E in FS. inversion FS as [|? ? S1 S2]; subst. split; [exact S1|]. eapply Forall_impl; [|exact S2]. cbn beta. intros; lia.
Qed.
(** The ranges made from a selection of positive values. *)
Theorem ranges_are : forall (bg : nat -> bool) wvals n s sel, (2 <= n)%nat -> filter bg (seq 0 n) = s :: sel ->
  (forall k, (k < n)%nat -> bg k = true -> 0 < nth k wvals 0) ->
  let rs := ranges wvals n (group [s] sel) in
  in_turn 0 rs /\
  (forall lo hi, In (lo, hi) rs -> (hi < n)%nat /\ (lo = 0%nat \/ bg lo = false) /\ (hi = (n - 1)%nat \/ bg hi = false) /\ (forall k, (lo < k < hi)%nat -> bg k = true)) /\
  spans rs = filter (fun j => bg j || bg (j + 1)%nat) (seq 0 (n - 1)).
Proof.
  intros bg wvals n s sel N E POS rs. destruct (filter_split bg _ s sel E (seq_sorted n 0)) as [ST F].
  destruct (group_runs sel s 1 (le_n 1) ST F) as [bs [E1 [R C]]]. cbn [seq app] in E1, C. rewrite <- E in C.
  assert (CB : forall j, In j (cells bs) <-> (j < n)%nat /\ bg j = true) by (intros j; rewrite C, filter_In, in_seq; intuition lia).
  assert (RS : rs = map (stretch n) bs).
  { unfold rs. rewrite E1. assert (W : forall first a len, In (a, len) bs -> (first = false -> (1 <= a)%nat) -> widen wvals n first (seq a len) = stretch n (a, len)).
    { intros first a len I A. destruct (runs_from _ _ _ _ R I) as [_ L]. unfold widen, stretch. cbn [fst snd]. rewrite last_seq by exact L. rewrite seq_nth by lia.
      assert (B1 : In a (cells bs)) by (apply cells_in; exists a, len; split; [exact I|lia]). assert (B2 : In (a + len - 1)%nat (cells bs)) by (apply cells_in; exists a, len; split; [exact I|lia]).
      apply CB in B1. apply CB in B2. pose proof (POS _ (proj1 B1) (proj2 B1)) as P1. pose proof (POS _ (proj1 B2) (proj2 B2)) as P2. rewrite Nat.add_0_r.
      rewrite (proj2 (Rltb_spec _ _) P1), (proj2 (Rltb_spec _ _) P2), !andb_true_r. f_equal.
      - destruct first; [destruct (Nat.ltb_spec 0 a); lia|reflexivity].
      - destruct (Nat.ltb_spec (a + len - 1) (n - 1)); lia. }
    destruct R as [|b a len bs B L R]; [reflexivity|]. cbn [map ranges fst snd]. f_equal; [apply W; [now left|discriminate]|].
    rewrite map_map. apply map_ext_in. intros [a' len'] I. cbn [fst snd]. apply W; [now right|]. intros _. destruct (runs_from _ _ _ _ R I). lia. }
  assert (T : in_turn 0 rs) by (rewrite RS; eapply in_turn_le; [apply stretch_turn with (b := s); [exact N|exact R|intros j J; now apply CB]|lia]).
  split; [exact T|]. split.
  - intros lo hi I. rewrite RS in I. apply in_map_iff in I. destruct I as [[a len] [K I]]. unfold stretch in K. cbn [fst snd] in K. injection K as <- <-.
    destruct (runs_from _ _ _ _ R I) as [_ L]. destruct (runs_gap _ _ R a len I) as [G1 G2]. rewrite CB in G1.
    assert (CR : forall k, (a <= k < a + len)%nat -> (k < n)%nat /\ bg k = true) by (intros k K; apply CB, cells_in; now exists a, len).
    split; [lia|]. split; [|split].
    + destruct a as [|a]; [left; lia|right]. specialize (G2 ltac:(lia)). rewrite CB in G2. destruct (bg (S a - 1)%nat) eqn:Q; [|reflexivity]. exfalso. apply G2. split; [|reflexivity]. specialize (CR (S a) ltac:(lia)). lia.
    + destruct (Nat.le_gt_cases (n - 1) (a + len)) as [Q|Q]; [left; lia|right]. rewrite Nat.min_l by lia. destruct (bg (a + len)%nat) eqn:B; [|reflexivity]. exfalso. apply G1. split; [lia|reflexivity].
    + intros k K. apply CR. lia.
  - apply sorted_same; [now apply spans_sorted with 0%nat|apply filter_sorted, seq_sorted|]. intros j. rewrite spans_in, filter_In, in_seq, orb_true_iff, RS. split.
    + intros [lo [hi [I J]]]. apply in_map_iff in I. destruct I as [[a len] [K I]]. unfold stretch in K. cbn [fst snd] in K. injection K as <- <-.
      assert (CR : forall k, (a <= k < a + len)%nat -> (k < n)%nat /\ bg k = true) by (intros k K; apply CB, cells_in; now exists a, len).
      split; [lia|]. destruct (runs_from _ _ _ _ R I) as [_ L]. destruct (Nat.le_gt_cases a j) as [Q|Q]; [left; apply CR; lia|right; apply CR; lia].
    + intros [J B]. assert (X : exists k, In k (cells bs) /\ (k = j \/ k = j + 1)%nat).
      { destruct B as [B|B]; [exists j|exists (j + 1)%nat]; (split; [apply CB; split; [lia|exact B]|tauto]). }
      destruct X as [k [K1 K2]]. apply cells_in in K1. destruct K1 as [a [len [I K]]].
      exists (a - 1)%nat, (Nat.min (a + len) (n - 1)). split; [apply in_map_iff; exists (a, len); now split|lia].
Qed.

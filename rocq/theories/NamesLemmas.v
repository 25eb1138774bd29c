(** Proofs about names. *)

From Coq Require Import List Bool Arith Ascii Sorting.Sorted Permutation Lia.
From Verif Require Import Exn NamesModel NamesSpec.
Import ListNotations.

Notation spc := (fun c => is_space c = true).

Lemma lstrip_split : forall s, exists b, s = b ++ lstrip s /\ Forall spc b.
Proof.
  induction s as [|c s (b & E & F)]; [exists []; split; [reflexivity|constructor]|].
  cbn. destruct (is_space c) eqn:Ec.
  - exists (c :: b). split; [cbn; congruence|constructor; auto].
  - exists []. split; [reflexivity|constructor].
Qed.
Lemma lstrip_blank : forall b c s, Forall spc b -> is_space c = false -> lstrip (b ++ c :: s) = c :: s.
Proof. induction 1 as [|d b Hd F IH]; intros Hc; cbn; [now rewrite Hc|]. rewrite Hd. auto. Qed.
Lemma rstrip_split : forall s, exists b, s = rstrip s ++ b /\ Forall spc b.
Proof.
  intros s. destruct (lstrip_split (rev s)) as (b & E & F). exists (rev b). split.
  - unfold rstrip. rewrite <- rev_app_distr, <- E. now rewrite rev_involutive.
  - now apply Forall_rev.
Qed.
Lemma startswith_spec : forall p s, startswith p s = true <-> exists t, s = p ++ t.
Proof.
  induction p as [|c p IH]; intros s; cbn.
  - split; eauto.
  - destruct s as [|d s]; [split; [discriminate|intros (t & E); discriminate]|].
    destruct (ascii_dec c d) as [->|Hn].
    + rewrite IH. split; intros (t & E); exists t; congruence.
    + split; [discriminate|intros (t & E); congruence].
Qed.
Lemma startswith_rstrip : forall p s, startswith (p ++ [equals]) (rstrip s) = startswith (p ++ [equals]) s.
Proof.
  intros p s. destruct (rstrip_split s) as (b & E & F). remember (rstrip s) as r. clear Heqr.
  apply eq_true_iff_eq. rewrite !startswith_spec. split.
  - intros (t & H). exists (t ++ b). rewrite E, H. now rewrite <- app_assoc.
  - intros (t & H). rewrite E in H. clear E s. revert r H.
    induction p as [|c p IH]; intros r H.
    + destruct r as [|d r]; cbn in *.
      * rewrite H in F. inversion F; subst. discriminate.
      * injection H as -> H. exists r. reflexivity.
    + destruct r as [|d r]; cbn in *.
      * rewrite H in F. exfalso. rewrite Forall_forall in F. specialize (F equals).
        discriminate F. right. apply in_or_app. left. apply in_or_app. right. now left.
      * injection H as -> H. destruct (IH r H) as (t' & ->). eauto.
Qed.

Lemma assigns_spec : forall n line, identifier n -> (assigns n (strip line) = true <-> declares n line).
Proof.
  intros n line (Hn & Hf). unfold assigns, strip, declares.
  change [space; equals] with ([space] ++ [equals]). rewrite app_assoc, !startswith_rstrip.
  rewrite orb_true_iff, !startswith_spec. destruct (lstrip_split line) as (b & E & F).
  destruct n as [|c n]; [now elim Hn|]. inversion Hf as [|? ? [Hc _] Hf']; subst. split.
  - intros [(t & H)|(t & H)]; exists b, t; (split; [exact F|]); [right|left]; rewrite E at 1; rewrite H;
      rewrite <- ?app_assoc; reflexivity.
  - intros (b' & t & F' & [H|H]); subst line; rewrite <- app_comm_cons, lstrip_blank by assumption.
    + right. exists t. cbn. now rewrite <- app_assoc.
    + left. exists t. cbn. now rewrite <- !app_assoc.
Qed.

Lemma ident_prefix : forall a b x y t u,
  Forall (fun c => is_space c = false /\ c <> equals) a ->
  Forall (fun c => is_space c = false /\ c <> equals) b ->
  (x = equals \/ x = space) -> (y = equals \/ y = space) ->
  a ++ x :: t = b ++ y :: u -> a = b.
Proof.
  induction a as [|c a IH]; intros [|d b] x y t u Fa Fb Hx Hy E; cbn in E; auto.
  - injection E as -> _. inversion Fb as [|? ? [H1 H2] _]; subst. destruct Hx; subst; [congruence|discriminate].
  - injection E as -> _. inversion Fa as [|? ? [H1 H2] _]; subst. destruct Hy; subst; [congruence|discriminate].
  - injection E as -> E. inversion Fa; inversion Fb; subst. f_equal. apply (IH b x y t u); assumption.
Qed.
Lemma declares_unique : forall a b line, identifier a -> identifier b ->
  declares a line -> declares b line -> a = b.
Proof.
  intros a b line (Na & Fa) (Nb & Fb) (ba & ta & Fba & Ha) (bb & tb & Fbb & Hb).
  assert (La : exists x t, lstrip line = a ++ x :: t /\ (x = equals \/ x = space)).
  { destruct a as [|c a]; [now elim Na|]. inversion Fa as [|? ? [Hc _] _]; subst.
    destruct Ha as [->| ->]; rewrite <- app_comm_cons, lstrip_blank by assumption; cbn; eauto. }
  assert (Lb : exists x t, lstrip line = b ++ x :: t /\ (x = equals \/ x = space)).
  { destruct b as [|c b]; [now elim Nb|]. inversion Fb as [|? ? [Hc _] _]; subst.
    destruct Hb as [->| ->]; rewrite <- app_comm_cons, lstrip_blank by assumption; cbn; eauto. }
  destruct La as (x & t & Ea & Hx). destruct Lb as (y & u & Eb & Hy). rewrite Ea in Eb.
  apply (ident_prefix a b x y t u); assumption.
Qed.

(** ** The scan *)
Lemma text_eqb_spec : forall a b, text_eqb a b = true <-> a = b.
Proof. intros. unfold text_eqb. destruct (list_eq_dec _ a b); split; auto; discriminate. Qed.
Lemma remove_first_app : forall l1 p l2, ~ In p l1 -> remove_first p (l1 ++ p :: l2) = l1 ++ l2.
Proof.
  induction l1 as [|x l1 IH]; intros p l2 H; cbn.
  - now rewrite (proj2 (text_eqb_spec p p) eq_refl).
  - destruct (text_eqb p x) eqn:E; [apply text_eqb_spec in E; subst; elim H; now left|].
    f_equal. apply IH. intros K. apply H. now right.
Qed.

Lemma scan_none : forall fuel pos line names found, length names <= fuel + pos ->
  (forall p, In p names -> assigns p line = false) ->
  scan fuel pos line names found = Some (names, found).
Proof.
  induction fuel as [|fuel IH]; intros pos line names found L H; cbn.
  - rewrite (proj2 (nth_error_None names pos)) by lia. reflexivity.
  - destruct (nth_error names pos) as [p|] eqn:E; [|reflexivity].
    rewrite (H p) by (eapply nth_error_In; eauto). apply IH; [lia|auto].
Qed.
Lemma scan_one : forall fuel pos line l1 p l2 found, length (l1 ++ p :: l2) <= fuel + pos ->
  pos <= length l1 -> assigns p line = true -> ~ In p l1 ->
  (forall q, In q (l1 ++ l2) -> assigns q line = false) ->
  scan fuel pos line (l1 ++ p :: l2) found = Some (l1 ++ l2, found ++ [p]).
Proof.
  induction fuel as [|fuel IH]; intros pos line l1 p l2 found L P A Ni H; cbn.
  - rewrite app_length in L. cbn in L. lia.
  - destruct (Nat.eq_dec pos (length l1)) as [->|Hd].
    + rewrite nth_error_app2, Nat.sub_diag by lia. cbn. rewrite A, remove_first_app by assumption.
      apply scan_none; [|exact H]. rewrite !app_length in *. cbn in L. lia.
    + destruct (nth_error (l1 ++ p :: l2) pos) as [q|] eqn:E.
      2: { apply nth_error_None in E. rewrite app_length in E. cbn in E. lia. }
      rewrite nth_error_app1 in E by lia. rewrite (H q).
      2: { apply in_or_app. left. eapply nth_error_In; eauto. }
      apply IH; auto; lia.
Qed.

Definition before (src : list text) (a b : text) : Prop :=
  exists i j, first_line src a i /\ first_line src b j /\ i < j.

Lemma first_shift : forall line src n i, ~ declares n line -> first_line src n i ->
  first_line (line :: src) n (S i).
Proof.
  intros line src n i Hn ((l & E & D) & H). split; [exists l; auto|].
  intros [|j] l' Hj El; [injection El as <-; exact Hn|]. apply (H j); [lia|exact El].
Qed.
Lemma before_shift : forall line src a b, ~ declares a line -> ~ declares b line ->
  before src a b -> before (line :: src) a b.
Proof.
  intros line src a b Ha Hb (i & j & Fa & Fb & L). exists (S i), (S j).
  split; [now apply first_shift|]. split; [now apply first_shift|lia].
Qed.

Lemma sorted_weaken : forall (R S : text -> text -> Prop) l,
  (forall a b, In a l -> In b l -> R a b -> S a b) -> StronglySorted R l -> StronglySorted S l.
Proof.
  intros R S l H Hs. induction Hs as [|a l Hs IH F]; constructor.
  - apply IH. intros. apply H; [now right|now right|assumption].
  - rewrite Forall_forall in *. intros x Hx. apply H; [now left|now right|auto].
Qed.

Lemma collect_spec : forall src names found, NoDup names -> Forall identifier names ->
  exists left o, collect src names found = Some (left, found ++ o)
    /\ Permutation names (o ++ left) /\ Forall (fun n => ~ declared n src) left
    /\ StronglySorted (before src) o /\ Forall (fun n => exists i, first_line src n i) o.
Proof.
  induction src as [|line src IH]; intros names found Nd Id.
  - exists names, []. cbn. rewrite app_nil_r. split; [reflexivity|]. split; [reflexivity|].
    split; [|split; constructor]. apply Forall_forall. intros n _ K. inversion K.
  - assert (X : (exists p, In p names /\ assigns p (strip line) = true)
             \/ forall p, In p names -> assigns p (strip line) = false).
    { clear. induction names as [|p names [(q & Hq & A)|H]].
      - right. intros p [].
      - left. exists q. split; [now right|exact A].
      - destruct (assigns p (strip line)) eqn:E; [left; exists p; split; [now left|exact E]|].
        right. intros q [<-|Hq]; auto. }
    rewrite Forall_forall in Id.
    assert (Sp : forall n, In n names -> (assigns n (strip line) = true <-> declares n line))
      by (intros; apply assigns_spec; auto).
    destruct X as [(p & Hp & A)|H].
    + apply in_split in Hp. destruct Hp as (l1 & l2 & ->).
      assert (Ip : In p (l1 ++ p :: l2)) by (apply in_or_app; right; now left).
      pose proof (NoDup_remove_1 _ _ _ Nd) as Nd'. pose proof (NoDup_remove_2 _ _ _ Nd) as Np.
      assert (Iq : forall q, In q (l1 ++ l2) -> In q (l1 ++ p :: l2)).
      { intros q Hq. apply in_app_or in Hq. apply in_or_app. destruct Hq; [now left|right; now right]. }
      assert (Nq : forall q, In q (l1 ++ l2) -> ~ declares q line).
      { intros q Hq D. assert (q = p); [|subst; contradiction].
        apply (declares_unique q p line); auto. now apply Sp. }
      cbn [collect]. rewrite scan_one; auto; cycle 1.
      { rewrite Nat.add_0_r. reflexivity. } { lia. }
      { intros K. apply Np. apply in_or_app. now left. }
      { intros q Hq. destruct (assigns q (strip line)) eqn:E; [|reflexivity].
        elim (Nq q Hq). apply Sp; auto. }
      destruct (IH (l1 ++ l2) (found ++ [p]) Nd') as (left & o & E & P & L & So & Fo).
      { apply Forall_forall. auto. }
      assert (In_o : forall q, In q o \/ In q left -> In q (l1 ++ l2)).
      { intros q Hq. apply (Permutation_in q (Permutation_sym P)). apply in_or_app. exact Hq. }
      exists left, (p :: o). split; [now rewrite E, <- app_assoc|]. split.
      { rewrite <- Permutation_middle. cbn. now constructor. }
      split.
      { rewrite Forall_forall in *. intros n Hn K. inversion K as [? ? D|? ? D]; subst.
        - apply (Nq n); auto.
        - apply (L n Hn D). }
      assert (Dp : first_line (line :: src) p 0).
      { split; [exists line; split; [reflexivity|now apply Sp]|]. intros; lia. }
      split.
      { constructor.
        - eapply sorted_weaken; [|exact So]. intros a b Ha Hb. apply before_shift; auto.
        - rewrite Forall_forall in *. intros b Hb. destruct (Fo b Hb) as (i & Hi).
          exists 0, (S i). split; [exact Dp|]. split; [|lia]. apply first_shift; auto. }
      { constructor; [eauto|]. rewrite Forall_forall in *. intros b Hb. destruct (Fo b Hb) as (i & Hi).
        exists (S i). apply first_shift; auto. }
    + cbn [collect]. rewrite scan_none; auto; [|lia].
      destruct (IH names found Nd) as (left & o & E & P & L & So & Fo); [apply Forall_forall; auto|].
      assert (Nq : forall q, In q names -> ~ declares q line).
      { intros q Hq D. apply Sp in D; auto. rewrite H in D by assumption. discriminate. }
      assert (In_o : forall q, In q o \/ In q left -> In q names).
      { intros q Hq. apply (Permutation_in q (Permutation_sym P)). apply in_or_app. exact Hq. }
      exists left, o. split; [exact E|]. split; [exact P|]. split.
      { rewrite Forall_forall in *. intros n Hn K. inversion K as [? ? D|? ? D]; subst.
        - apply (Nq n); auto.
        - apply (L n Hn D). }
      split.
      { eapply sorted_weaken; [|exact So]. intros a b Ha Hb. apply before_shift; auto. }
      rewrite Forall_forall in *. intros b Hb. destruct (Fo b Hb) as (i & Hi).
      exists (S i). apply first_shift; auto.
Qed.

Lemma first_line_fun : forall src n i j, first_line src n i -> first_line src n j -> i = j.
Proof.
  intros src n i j ((l & E & D) & H) ((l' & E' & D') & H').
  destruct (Nat.lt_trichotomy i j) as [L|[L|L]]; auto.
  - elim (H' i l L E D).
  - elim (H j l' L E' D').
Qed.
Lemma first_declared : forall src n i, first_line src n i -> declared n src.
Proof.
  intros src n i ((l & E & D) & _). apply Exists_exists. exists l. split; [|exact D].
  eapply nth_error_In; eauto.
Qed.

Lemma collect_all : forall src names, NoDup names -> Forall identifier names ->
  Forall (fun n => declared n src) names ->
  exists o, collect src names [] = Some ([], o) /\ source_order src names o.
Proof.
  intros src names Nd Id De. destruct (collect_spec src names [] Nd Id) as (left & o & E & P & L & So & _).
  assert (left = []).
  { destruct left as [|n left]; [reflexivity|]. inversion L as [|? ? Hn _]; subst. elim Hn.
    rewrite Forall_forall in De. apply De. apply (Permutation_in n (Permutation_sym P)).
    apply in_or_app. right. now left. }
  subst left. rewrite app_nil_r in P. exists o. split; [exact E|]. split; assumption.
Qed.
Lemma collect_missing : forall src names, NoDup names -> Forall identifier names ->
  Exists (fun n => ~ declared n src) names ->
  exists n left o, collect src names [] = Some (n :: left, o).
Proof.
  intros src names Nd Id Ex. destruct (collect_spec src names [] Nd Id) as (left & o & E & P & L & _ & Fo).
  destruct left as [|n left]; [|eauto]. exfalso. rewrite app_nil_r in P.
  apply Exists_exists in Ex. destruct Ex as (n & Hn & Hd). apply (Permutation_in n P) in Hn.
  rewrite Forall_forall in Fo. destruct (Fo n Hn) as (i & Hi). apply Hd. eapply first_declared; eauto.
Qed.

Lemma order_unique : forall src o o', StronglySorted (before src) o -> StronglySorted (before src) o' ->
  Permutation o o' -> o = o'.
Proof.
  intros src o o' So. revert o'. induction So as [|a l So IH F]; intros o' So' P.
  - apply Permutation_nil in P. now subst.
  - destruct o' as [|b l']; [apply Permutation_sym, Permutation_nil in P; discriminate|].
    inversion So' as [|? ? So2 F2]; subst.
    assert (a = b).
    { assert (Ha : In a (b :: l')) by (apply (Permutation_in a P); now left).
      assert (Hb : In b (a :: l)) by (apply (Permutation_in b (Permutation_sym P)); now left).
      destruct Ha as [->|Ha]; [reflexivity|]. destruct Hb as [->|Hb]; [reflexivity|].
      rewrite Forall_forall in F, F2. destruct (F b Hb) as (i & j & A1 & B1 & L1).
      destruct (F2 a Ha) as (j' & i' & B2 & A2 & L2).
      pose proof (first_line_fun _ _ _ _ A1 A2). pose proof (first_line_fun _ _ _ _ B1 B2). lia. }
    subst b. f_equal. apply IH; [assumption|]. eapply Permutation_cons_inv; eauto.
Qed.
Lemma source_order_unique : forall src names names' o o', Permutation names names' ->
  source_order src names o -> source_order src names' o' -> o = o'.
Proof.
  intros src names names' o o' P (P1 & S1) (P2 & S2). eapply order_unique; eauto.
  rewrite <- P1, <- P2. exact P.
Qed.

(** ** Making an inference *)
Section Init.
Variable source : nat -> option (list text).

Lemma signal_found : forall w s src, sourced source w Params s src ->
  exists w' a o, signal_params source (Some s) w = (w', Ok a) /\ lists w' a = o
    /\ source_order src (names_of Params w s) o
    /\ (forall b, b <> nextl w -> lists w' b = lists w b)
    /\ classes w' = classes w /\ nextc w' = nextc w /\ a = nextl w.
Proof.
  intros w s src (E & Nd & Id & De). unfold signal_params, get_signal_names, names_of in *.
  destruct (lookup Params w s) as [a|]; cbn.
  - rewrite E. destruct (collect_all _ _ Nd Id De) as (o & -> & So). cbn.
    eexists _, _, o. split; [reflexivity|]. cbn. unfold upd. rewrite Nat.eqb_refl.
    split; [reflexivity|]. split; [exact So|]. split; [|auto].
    intros b Hb. apply Nat.eqb_neq in Hb. now rewrite Hb.
  - eexists _, _, []. split; [reflexivity|]. cbn. unfold upd. rewrite Nat.eqb_refl.
    split; [reflexivity|]. split; [split; constructor|]. split; [|auto].
    intros b Hb. apply Nat.eqb_neq in Hb. now rewrite Hb.
Qed.
Lemma signal_missing : forall w s src, source s = Some src -> NoDup (names_of Params w s) ->
  Forall identifier (names_of Params w s) -> Exists (fun n => ~ declared n src) (names_of Params w s) ->
  exists w', signal_params source (Some s) w = (w', Ok (nextl w)) /\ lists w' (nextl w) = []
    /\ (forall b, b <> nextl w -> lists w' b = lists w b)
    /\ classes w' = classes w /\ nextc w' = nextc w.
Proof.
  intros w s src E Nd Id De. unfold signal_params, get_signal_names, names_of in *.
  destruct (lookup Params w s) as [a|]; cbn; [|inversion De].
  rewrite E. destruct (collect_missing _ _ Nd Id De) as (n & left & o & ->). cbn.
  eexists. split; [reflexivity|]. cbn. unfold upd. rewrite Nat.eqb_refl.
  split; [reflexivity|]. split; [|auto].
  intros b Hb. apply Nat.eqb_neq in Hb. now rewrite Hb.
Qed.

(** Lists of classes lie below nextl. *)
Definition bounded (w : world) : Prop := forall f c a, own f (classes w c) = Some a -> a < nextl w.

Lemma find_bounded : forall f w cs a, bounded w -> find_attr f w cs = Some a -> a < nextl w.
Proof.
  intros f w cs a B. induction cs as [|c cs IH]; cbn; [discriminate|].
  destruct (own f (classes w c)) as [b|] eqn:E; [|exact IH]. intros H; injection H as <-. eapply B; eauto.
Qed.
Lemma find_same : forall f w w' cs, classes w' = classes w -> find_attr f w' cs = find_attr f w cs.
Proof. intros f w w' cs E. induction cs as [|c cs IH]; cbn; [reflexivity|]. rewrite E. now rewrite IH. Qed.
Lemma lookup_same : forall f w w' c, classes w' = classes w -> lookup f w' c = lookup f w c.
Proof. intros. unfold lookup. rewrite H. now apply find_same. Qed.
Lemma names_same : forall f w w' c, bounded w -> classes w' = classes w ->
  (forall b, b <> nextl w -> lists w' b = lists w b) -> names_of f w' c = names_of f w c.
Proof.
  intros f w w' c B E L. unfold names_of. rewrite (lookup_same f w w' c E).
  destruct (lookup f w c) as [a|] eqn:Ea; [|reflexivity]. apply L.
  apply find_bounded in Ea; auto. lia.
Qed.

Lemma dup_false : forall l, NoDup l -> duplicated l = false.
Proof. intros l H. unfold duplicated. rewrite nodup_fixed_point by exact H. now rewrite Nat.eqb_refl. Qed.
Lemma order_nodup : forall src names o, NoDup names -> source_order src names o -> NoDup o.
Proof. intros src names o H (P & _). eapply Permutation_NoDup; eauto. Qed.

Lemma preds_found : forall w p src, sourced source w Params p src -> sourced source w Preds p src ->
  lookup Preds w p <> None ->
  exists po pr, get_pred_names source (Some p) w = Ok (po, pr)
    /\ source_order src (names_of Params w p) po /\ source_order src (names_of Preds w p) pr.
Proof.
  intros w p src (E & Nd & Id & De) (_ & Nd2 & Id2 & De2) Hp. unfold get_pred_names. rewrite E.
  unfold names_of in Nd2, Id2, De2. fold (names_of Params w p).
  assert (X : exists po, match names_of Params w p with [] => Some ([], []) | _ => collect src (names_of Params w p) [] end
      = Some ([], po) /\ source_order src (names_of Params w p) po).
  { destruct (collect_all _ _ Nd Id De) as (o & Eo & So). destruct (names_of Params w p) as [|n ns].
    - exists []. split; [reflexivity|split; constructor].
    - exists o. auto. }
  destruct X as (po & -> & So). unfold names_of at 2. destruct (lookup Preds w p) as [b|]; [|now elim Hp].
  destruct (collect_all _ _ Nd2 Id2 De2) as (pr & -> & So2). eauto 6.
Qed.

Lemma get_pred_same : forall w w' pred, bounded w -> classes w' = classes w ->
  (forall b, b <> nextl w -> lists w' b = lists w b) ->
  get_pred_names source pred w' = get_pred_names source pred w.
Proof.
  intros w w' [p|] B E L; [|reflexivity].
  assert (X : forall f, lookup f w' p = lookup f w p) by (intros; now apply lookup_same).
  assert (Y : forall f a, lookup f w p = Some a -> lists w' a = lists w a).
  { intros f a Ea. apply L. apply find_bounded in Ea; auto. lia. }
  unfold get_pred_names, unordered_pred_names. rewrite !X.
  pose proof (Y Params) as YP. pose proof (Y Preds) as YR.
  destruct (lookup Params w p) as [a|]; destruct (lookup Preds w p) as [b|];
    rewrite ?(YP _ eq_refl), ?(YR _ eq_refl); reflexivity.
Qed.

Lemma init_order : forall w s p src psrc, bounded w ->
  sourced source w Params s src -> sourced source w Params p psrc -> sourced source w Preds p psrc ->
  lookup Preds w p <> None ->
  (forall n, In n (names_of Params w s) -> ~ In n (names_of Params w p)) ->
  exists w' a preds o po, init source (Some s) (Some p) w = (w', Ok (a, preds))
    /\ lists w' a = o ++ po /\ source_order src (names_of Params w s) o
    /\ source_order psrc (names_of Params w p) po /\ source_order psrc (names_of Preds w p) preds.
Proof.
  intros w s p src psrc B Ss Sp Sr Hp Dj.
  destruct (signal_found w s src Ss) as (w1 & a & o & E1 & L1 & So & Fr & Cl & _ & ->).
  destruct (preds_found w p psrc Sp Sr Hp) as (po & pr & E2 & S2 & S3).
  unfold init, bind, get, modify. rewrite E1. rewrite (get_pred_same w w1) by auto. rewrite E2. cbn.
  unfold upd. rewrite Nat.eqb_refl. rewrite L1.
  rewrite dup_false.
  - eexists _, _, _, _, _. split; [reflexivity|]. cbn. unfold upd. rewrite Nat.eqb_refl. auto.
  - destruct Ss as (_ & Nd1 & _). destruct Sp as (_ & Nd2 & _).
    pose proof (order_nodup _ _ _ Nd1 So) as N1. pose proof (order_nodup _ _ _ Nd2 S2) as N2.
    destruct So as (P1 & _). destruct S2 as (P2 & _).
    assert (Dj' : forall n, In n o -> ~ In n po).
    { intros n H1 H2. apply (Dj n).
      - exact (Permutation_in n (Permutation_sym P1) H1).
      - exact (Permutation_in n (Permutation_sym P2) H2). }
    clear - N1 N2 Dj'. induction N1 as [|n o Hn N1 IH]; cbn; [exact N2|]. constructor.
    + intros K. apply in_app_or in K. destruct K; [contradiction|]. apply (Dj' n); [now left|assumption].
    + apply IH. intros m Hm. apply Dj'. now right.
Qed.

Lemma init_missing : forall w s p src psrc, bounded w ->
  source s = Some src -> NoDup (names_of Params w s) -> Forall identifier (names_of Params w s) ->
  Exists (fun n => ~ declared n src) (names_of Params w s) ->
  sourced source w Params p psrc -> sourced source w Preds p psrc -> lookup Preds w p <> None ->
  exists w' a preds po, init source (Some s) (Some p) w = (w', Ok (a, preds))
    /\ lists w' a = po /\ source_order psrc (names_of Params w p) po.
Proof.
  intros w s p src psrc B Es Nd Id De Sp Sr Hp.
  destruct (signal_missing w s src Es Nd Id De) as (w1 & E1 & L1 & Fr & Cl & _).
  destruct (preds_found w p psrc Sp Sr Hp) as (po & pr & E2 & S2 & S3).
  unfold init, bind, get, modify. rewrite E1. rewrite (get_pred_same w w1) by auto. rewrite E2. cbn.
  unfold upd. rewrite Nat.eqb_refl. rewrite L1. cbn [app].
  rewrite dup_false.
  - eexists _, _, _, _. split; [reflexivity|]. cbn. unfold upd. rewrite Nat.eqb_refl. auto.
  - destruct Sp as (_ & Nd2 & _). eapply order_nodup; eauto.
Qed.

(** With the source at hand no class is affected, whatever happens. *)
Lemma init_keeps : forall w sig pred, bounded w ->
  (forall s, sig = Some s -> source s <> None) ->
  let w' := fst (init source sig pred w) in
  classes w' = classes w /\ (forall f c, names_of f w' c = names_of f w c).
Proof.
  intros w sig pred B H.
  assert (X : forall w' , fst (init source sig pred w) = w' ->
     classes w' = classes w /\ (forall b, b <> nextl w -> lists w' b = lists w b)).
  { intros w' E. unfold init, bind, get, modify in E.
    assert (Y : exists w1 r, signal_params source sig w = (w1, r) /\ classes w1 = classes w
        /\ (forall b, b <> nextl w -> lists w1 b = lists w b)
        /\ (forall a, r = Ok a -> a = nextl w)).
    { unfold signal_params. destruct (get_signal_names source sig w) as [w1 r] eqn:Eg.
      assert (Z : (w1 = w /\ exists e, r = Err e) \/
                  (exists l, w1 = fst (new_list l w) /\ r = Ok (nextl w))).
      { unfold get_signal_names in Eg. destruct sig as [s|]; [|injection Eg as <- <-; eauto].
        destruct (lookup Params w s) as [a|]; [|injection Eg as <- <-; eauto].
        specialize (H s eq_refl). destruct (source s) as [src|]; [|now elim H].
        destruct (collect src (lists w a) []) as [[[|n l] o]|]; injection Eg as <- <-.
        - right. exists o. split; reflexivity.
        - left. eauto.
        - left. eauto. }
      destruct Z as [(-> & e & ->)|(l & -> & ->)].
      - destruct e; eexists _, _; (split; [reflexivity|]); cbn; (split; [reflexivity|]);
          (split; [intros b Hb; unfold upd; try (apply Nat.eqb_neq in Hb; rewrite Hb); reflexivity|]);
          intros a K; try discriminate; now injection K as <-.
      - eexists _, _. split; [reflexivity|]. cbn. split; [reflexivity|]. split; [|intros a K; now injection K as <-].
        intros b Hb. unfold upd. apply Nat.eqb_neq in Hb. now rewrite Hb. }
    destruct Y as (w1 & r & Es & Cl & Fr & Ha). rewrite Es in E.
    destruct r as [a|e]; [|cbn in E; subst; auto]. specialize (Ha a eq_refl). subst a.
    destruct (get_pred_names source pred w1) as [[po pr]|e]; [|cbn in E; subst; auto].
    cbn in E. destruct (duplicated _); cbn in E; subst w'; cbn; (split; [exact Cl|]);
      intros b Hb; unfold upd; (rewrite (proj2 (Nat.eqb_neq _ _) Hb)); auto. }
  destruct (X _ eq_refl) as [C L]. split; [exact C|]. intros f c. now apply names_same.
Qed.
End Init.

(** ** Class statements *)
Record Inv (w : world) : Prop := {
  i_bound : bounded w;
  i_new : forall c, nextc w <= c -> classes w c = Cls [] None None;
  i_mro : forall c, Forall (fun d => d < c) (c_mro (classes w c))
}.

Lemma report_spec : forall f c name w, bounded w ->
  let w' := report_name f c name w in
  bounded w' /\ nextc w' = nextc w
  /\ (forall d, d <> c -> classes w' d = classes w d) /\ c_mro (classes w' c) = c_mro (classes w c)
  /\ (forall g, g <> f -> own g (classes w' c) = own g (classes w c))
  /\ match lookup f w c with
     | Some a => lists w' a = lists w a ++ [name] /\ (forall b, b <> a -> lists w' b = lists w b)
                 /\ classes w' = classes w
     | None => own f (classes w' c) = Some (nextl w) /\ lists w' (nextl w) = [name]
               /\ (forall b, b <> nextl w -> lists w' b = lists w b)
     end.
Proof.
  intros f c name w B. unfold report_name. destruct (lookup f w c) as [a|] eqn:E; cbn.
  - split; [exact B|]. split; [reflexivity|]. split; [reflexivity|]. split; [reflexivity|].
    split; [reflexivity|]. unfold upd. rewrite Nat.eqb_refl. split; [reflexivity|]. split; [|reflexivity].
    intros b Hb. now rewrite (proj2 (Nat.eqb_neq _ _) Hb).
  - split.
    { intros g d a. cbn. unfold upd. destruct (Nat.eqb d c) eqn:Ed.
      - apply Nat.eqb_eq in Ed. subst d. destruct f, g; cbn; intros H; try (injection H as <-; lia).
        + specialize (B Preds c a H). lia.
        + specialize (B Params c a H). lia.
      - intros H. specialize (B g d a H). lia. }
    split; [reflexivity|]. unfold upd. rewrite !Nat.eqb_refl.
    split; [intros d Hd; now rewrite (proj2 (Nat.eqb_neq _ _) Hd)|].
    split; [now destruct f|]. split; [intros [] Hg; destruct f; try reflexivity; now elim Hg|].
    split; [now destruct f|]. split; [reflexivity|].
    intros b Hb. now rewrite (proj2 (Nat.eqb_neq _ _) Hb).
Qed.

Lemma find_old : forall f w w' cs, Forall (fun d => d < nextc w) cs ->
  (forall d, d < nextc w -> classes w' d = classes w d) -> find_attr f w' cs = find_attr f w cs.
Proof. induction 1 as [|c cs Hc F IH]; intros H; cbn; [reflexivity|]. rewrite H by assumption. rewrite IH; auto. Qed.

(** The class being defined, in the course of its definition. *)
Record Mid (w0 : world) (c : nat) (mro : list nat) (w : world) : Prop := {
  m_bound : bounded w;
  m_next : nextc w = S c;
  m_old : forall d, d <> c -> classes w d = classes w0 d;
  m_mro : c_mro (classes w c) = mro;
  m_new : forall f a, own f (classes w c) = Some a -> nextl w0 <= a;
  m_nextl : nextl w0 <= nextl w
}.

Lemma report_nextl : forall f c n w, nextl w <= nextl (report_name f c n w).
Proof. intros. unfold report_name. destruct (lookup f w c); cbn; lia. Qed.

Lemma mid_step : forall w0 c mro w f n, Mid w0 c mro w -> Mid w0 c mro (report_name f c n w).
Proof.
  intros w0 c mro w f n [B Nx O Mr Nw Nl]. destruct (report_spec f c n w B) as (B' & Nx' & O' & Mr' & G & X).
  pose proof (report_nextl f c n w) as Rl.
  constructor; try congruence; auto.
  - intros d Hd. rewrite O'; auto.
  - intros g a. destruct (lookup f w c) as [b|] eqn:E.
    + destruct X as (_ & _ & ->). apply Nw.
    + destruct X as (X & _). destruct (Nat.eq_dec 0 0) as [_|]; [|lia].
      assert (g = f \/ g <> f) as [->|Hg] by (destruct g, f; auto; right; discriminate).
      * rewrite X. intros K. injection K as <-. exact Nl.
      * rewrite G by assumption. apply Nw.
  - lia.
Qed.

Lemma mid_start : forall w mro, bounded w -> (forall c, nextc w <= c -> classes w c = Cls [] None None) ->
  Mid w (nextc w) mro
    (World (lists w) (nextl w) (upd (classes w) (nextc w) (Cls mro None None)) (S (nextc w))).
Proof.
  intros w mro B Nw. constructor; cbn; try reflexivity; try lia; unfold upd.
  - intros f c a. cbn. destruct (Nat.eqb c (nextc w)) eqn:E; [destruct f; discriminate|]. apply B.
  - intros d Hd. now rewrite (proj2 (Nat.eqb_neq _ _) Hd).
  - now rewrite Nat.eqb_refl.
  - rewrite Nat.eqb_refl. intros [] a K; discriminate.
Qed.
Lemma mid_fold : forall dict w0 c mro w, Mid w0 c mro w ->
  Mid w0 c mro (fold_left (fun w d => report_name (fst d) c (snd d) w) dict w).
Proof. induction dict as [|d dict IH]; intros w0 c mro w Mi; cbn; [exact Mi|]. apply IH. now apply mid_step. Qed.

Lemma reachable_inv : forall w, reachable w -> Inv w.
Proof.
  induction 1 as [|w mro dict R IH F].
  - constructor; cbn; [intros [] c a K; discriminate|reflexivity|constructor].
  - destruct IH as [B Nw Mr]. unfold define_class. cbn [fst].
    pose proof (mid_fold dict w (nextc w) mro _ (mid_start w mro B Nw)) as [B' Nx O Mm _ _].
    constructor; auto.
    + intros c Hc. rewrite Nx in Hc. rewrite O by lia. apply Nw. lia.
    + intros c. destruct (Nat.eq_dec c (nextc w)) as [->|Hc].
      * rewrite Mm. exact F.
      * rewrite O by assumption. apply Mr.
Qed.

Lemma lookup_mid : forall w0 c mro w f, Mid w0 c mro w -> Forall (fun d => d < c) mro ->
  lookup f w c = match own f (classes w c) with Some a => Some a | None => find_attr f w0 mro end.
Proof.
  intros w0 c mro w f [_ _ O Mr _ _] F. unfold lookup. cbn. rewrite Mr.
  destruct (own f (classes w c)); [reflexivity|]. clear - O F. induction F as [|d cs Hd F IH]; cbn; [reflexivity|].
  rewrite O by lia. now rewrite IH.
Qed.
Lemma lookup_mid_old : forall w0 c mro w f d, Mid w0 c mro w ->
  Forall (fun e => e < d) (c_mro (classes w0 d)) -> d < c -> lookup f w d = lookup f w0 d.
Proof.
  intros w0 c mro w f d [_ _ O _ _ _] F Hd. unfold lookup. cbn. rewrite (O d) by lia.
  destruct (own f (classes w0 d)); [reflexivity|]. clear - O F Hd.
  induction F as [|e cs He F IH]; cbn; [reflexivity|]. rewrite O by lia. now rewrite IH.
Qed.

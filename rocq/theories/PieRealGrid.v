(** do_grid over the reals: cells hold scores at the lattice points. *)

From Coq Require Import ZArith List Bool Arith Lia Reals Lra.
From Verif Require Import Exn PieModel PieSpec PieLemmas PieLemmas2 PieGridModel PieGridSpec
  PieGridLemmas PieGridLemmas2 PieGridLemmas3 PieKeep PieExact Instances PieRealSpec PieRealLemmas.
Import ListNotations.
Open Scope exn_scope.

Section Gen.
Context {N : num}.
Notation state := (st N).

Lemma grid_step_other : forall (s : state) q, Inv s -> p_status (ps s q) <> Stepping ->
  ps (fst (grid_step s)) q = ps s q.
Proof.
  intros s q I H.
  assert (K : keeps q (fun h => h = ps s q) grid_step).
  { apply keeps_grid.
    - intros h -> E. congruence.
    - intros t It E. split; [apply (p_next_good q t t It (track_refl _ _))|].
      unfold p_next_step, bind, hnd.
      destruct (status_eqb_spec (p_status (ps t q)) Stepping); [congruence|exact E].
    - intros t It E. split; [apply (p_prev_good q t t It (track_refl _ _))|].
      unfold p_prev_step, bind, hnd.
      destruct (status_eqb_spec (p_status (ps t q)) Stepping); [congruence|exact E]. }
  now apply K.
Qed.

Lemma grid_step_lists : forall s : state, Inv s ->
  let s' := fst (grid_step s) in
  Inv s' /\ fixedl s' = fixedl s /\ varyl s' = varyl s /\ stepl s' = stepl s.
Proof.
  assert (K : forall l lst (s : state), Inv s -> (forall q, In q l -> In q (stepl s)) ->
    let s' := fst (grid_step_loop lst l s) in
    Inv s' /\ fixedl s' = fixedl s /\ varyl s' = varyl s /\ stepl s' = stepl s).
  2:{ intros s I. unfold grid_step, bind, get.
      destruct (stepl s) as [|q0 l0] eqn:El; [cbn; now rewrite El|].
      rewrite <- El at 5. apply K; auto. now rewrite El. }
  induction l as [|q l IH]; intros lst s I G; [cbn; auto|].
  cbn [grid_step_loop]. destruct (info s q) as [d|]; [|cbn; auto].
  set (m := match d with Nextd => p_next_step q | Prevd => p_prev_step q end).
  assert (K : Inv (fst (m s)) /\ fixedl (fst (m s)) = fixedl s
     /\ varyl (fst (m s)) = varyl s /\ stepl (fst (m s)) = stepl s).
  { unfold m; destruct d.
    - split; [apply (p_next_good q s s I (track_refl _ _))|].
      destruct (p_next_step q s) eqn:E. apply p_next_lists in E. cbn. tauto.
    - split; [apply (p_prev_good q s s I (track_refl _ _))|].
      destruct (p_prev_step q s) eqn:E. apply p_prev_lists in E. cbn. tauto. }
  destruct K as (I1 & K1 & K2 & K3).
  destruct (m s) as [s1 [u|e]]; cbn [fst] in *; [auto|].
  destruct e; try (now auto).
  destruct (Nat.eqb q lst).
  - destruct (reset_good s1 I1) as (s2 & E & I2 & R). unfold bind. rewrite E. cbn.
    split; [exact I2|]. rewrite (rr_f _ _ R), (rr_v _ _ R), (rr_s _ _ R). auto.
  - unfold bind, modify.
    destruct (IH lst (set_info q (Some (reverse_direction d)) s1)) as (A & B & C & D).
    + apply set_info_Inv; auto. rewrite K3. apply G. now left.
    + intros r Hr. cbn. rewrite K3. apply G. now right.
    + cbn in B, C, D. split; [exact A|]. split; [congruence|]. split; congruence.
Qed.

(** any property of single parameters kept by grid steps and by the points
    holds wherever the traversal passes *)
Lemma traversal_inv : forall pt (s : state) inds os e (P : nat -> pst N -> Prop),
  traversal pt s inds os e -> kquiet pt -> Inv s ->
  (forall p, In p (stepl s) -> P p (ps s p)) ->
  (forall p (t : state), Inv t -> p_status (ps t p) = Stepping -> P p (ps t p) ->
     P p (ps (fst (grid_step t)) p)) ->
  forall ind o, In (ind, o) (combine inds os) ->
  exists t t', pt t = (t', Ok o) /\ Inv t /\ indices t ind
    /\ fixedl t = fixedl s /\ varyl t = varyl s /\ stepl t = stepl s
    /\ (forall q, p_status (ps s q) <> Stepping -> p_status (ps s q) <> Varying ->
          ps t q = ps s q)
    /\ (forall p, In p (stepl s) -> P p (ps t p)).
Proof.
  intros pt s inds os e P T Q. induction T as [s s1 e ind o Hi Hp Hg|s s1 s2 e ind o inds os Hi Hp Hg T IH];
    intros I HP HG ind' o' Hin.
  - cbn in Hin. destruct Hin as [Hin|[]]. injection Hin as <- <-.
    exists s, s1. refine (conj Hp (conj I (conj Hi (conj eq_refl (conj eq_refl (conj eq_refl (conj _ HP))))))).
    auto.
  - destruct Hin as [Hin|Hin].
    + injection Hin as <- <-. exists s, s1. refine (conj Hp (conj I (conj Hi (conj eq_refl (conj eq_refl (conj eq_refl (conj _ HP))))))).
    auto.
    + pose proof (Q s I) as Qs. rewrite Hp in Qs. cbn in Qs.
      assert (I1 : Inv s1) by apply Qs.
      destruct (grid_step_lists s1 I1) as (I2 & L1 & L2 & L3). rewrite Hg in *. cbn in I2, L1, L2, L3.
      assert (Es : stepl s2 = stepl s) by (rewrite L3; apply Qs).
      destruct (IH I2) with (ind := ind') (o := o') as (t & t' & A & B & C & D1 & D2 & D3 & E & F); auto.
      { intros p Hp'. rewrite Es in Hp'.
        assert (St : p_status (ps s p) = Stepping) by now apply (lm_step _ (iv_lm _ I)).
        assert (E1 : ps s1 p = ps s p) by (apply Qs; congruence).
        specialize (HG p s1 I1). rewrite E1 in HG. specialize (HG St (HP p Hp')).
        now rewrite Hg in HG. }
      exists t, t'. split; [exact A|]. split; [exact B|]. split; [exact C|].
      split; [rewrite D1, L1; apply Qs|]. split; [rewrite D2, L2; apply Qs|].
      split; [rewrite D3; exact Es|]. split.
      * intros q H1 H2. rewrite E.
        -- pose proof (grid_step_other s1 q I1) as K. rewrite Hg in K. cbn in K. rewrite K.
           ++ now apply Qs.
           ++ now rewrite (qt_st _ _ Qs).
        -- pose proof (grid_step_other s1 q I1) as K. rewrite Hg in K. cbn in K. rewrite K.
           ++ now rewrite (qt_st _ _ Qs).
           ++ now rewrite (qt_st _ _ Qs).
        -- pose proof (grid_step_other s1 q I1) as K. rewrite Hg in K. cbn in K. rewrite K.
           ++ now rewrite (qt_st _ _ Qs).
           ++ now rewrite (qt_st _ _ Qs).
      * intros p Hp'. apply F. now rewrite Es.
Qed.

End Gen.

Open Scope R_scope.

Lemma declared_lattice : forall dflt l p f n, declared dflt l p f n ->
  on_lattice f n (ps (run dflt l st0) p).
Proof.
  intros dflt l p f n (l1 & o & l2 & lo & hi & -> & Ok1 & Hl & Hn & Ho).
  assert (I1 : Inv (run dflt l1 st0)) by (apply run_Inv, Inv0).
  unfold run. rewrite fold_left_app. cbn [fold_left].
  destruct (run_op dflt o (fold_left (fun s o0 => fst (run_op dflt o0 s)) l1 st0)) as [s0 r] eqn:E.
  unfold run in Ok1. rewrite E in Ok1. cbn in Ok1. subst r. cbn [fst].
  assert (K : Inv s0 /\ on_lattice f n (ps s0 p)).
  { destruct Ho as [[-> ->]|[-> ->]].
    - destruct (linop_lattice dflt _ s0 p lo hi n I1 E Hn) as (A & B & _). auto.
    - destruct (logop_lattice dflt _ s0 p lo hi n I1 E Hn) as (_ & A & B & _). auto. }
  destruct K as [I0 L0]. exact (proj2 (lattice_run f n p dflt l2 s0 Hl I0 L0)).
Qed.

Lemma lattice_steppable : forall f n h, on_lattice f n h -> steppable h.
Proof.
  intros f n h L. split.
  - exists n. split; [apply L|]. destruct (ol_val _ _ _ L) as (k & _ & Hk & _). lia.
  - destruct L as [_ _ _ _ _ F]. destruct (p_stype h) as [[]|]; auto.
    + destruct F as (d & -> & _). discriminate.
    + destruct F as (d & -> & _). discriminate.
Qed.

Lemma grid_keeps_lattice : forall f n p (t : st numR), Inv t -> on_lattice f n (ps t p) ->
  on_lattice f n (ps (fst (grid_step t)) p).
Proof.
  intros f n p t I L.
  apply (lattice_run_op f n p (fun _ => None) OGridStep t); auto. exact Logic.I.
Qed.

Lemma nth_indices : forall (l : list nat) (g : nat -> option Z) ind i p k,
  map g l = map Some ind -> nth_error l i = Some p -> nth_error ind i = Some k -> g p = Some k.
Proof.
  induction l as [|q l IH]; intros g [|k0 ind] i p k E Hi Hk; try discriminate.
  - now destruct i.
  - cbn in E. injection E as E1 E2. destruct i; cbn in *.
    + congruence.
    + eapply IH; eauto.
Qed.

Lemma in_combine_snd : forall A B (l : list A) (l' : list B) a, length l = length l' -> In a l ->
  exists b, In (a, b) (combine l l').
Proof.
  induction l as [|x l IH]; intros [|y l'] a L H; try discriminate; [easy|].
  destruct H as [->|H]; [exists y; now left|].
  destruct (IH l' a) as (b & Hb); [now injection L|exact H|]. exists b. now right.
Qed.

Section Scores.
Variable preds : list nat.
Variable scoref : (nat -> option numR) -> numR.
Variable minimiser : st numR -> list numR -> list numR -> list (list numR) * (list numR * numR).
Variable sns : sense.
Variable unb : bool.
Notation do_grid := (do_grid preds scoref minimiser sns unb).

Lemma grid_scores_R : forall dflt l s f ns fuel,
  s = run dflt l st0 -> varyl s = [] -> stepl s <> [] -> at_start s ->
  (forall p, In p (stepl s) -> exists n, declared dflt l p (f p) n) ->
  sizes s ns -> (ncells ns <= fuel)%nat ->
  exists e r, do_grid fuel false s = (e, Ok r) /\ at_start e
    /\ g_shape (gr_grid r) = map Z.of_nat ns
    /\ (forall ind, in_grid ns ind -> exists vals,
          values_at s f ind vals /\ cell (gr_grid r) ind = Some (scoref vals))
    /\ (forall ind v, cell (gr_grid r) ind = Some v -> in_grid ns ind).
Proof.
  intros dflt l s f ns fuel Hs Hv Hne A Hd Hsz Hf.
  assert (I : Inv s) by (rewrite Hs; apply run_Inv, Inv0).
  assert (HL : forall p, In p (stepl s) -> exists n, on_lattice (f p) n (ps s p)).
  { intros p Hp. destruct (Hd p Hp) as (n & D). exists n. rewrite Hs. now apply declared_lattice. }
  assert (St : forall p, In p (stepl s) -> steppable (ps s p)).
  { intros p Hp. destruct (HL p Hp) as (n & L). now apply lattice_steppable in L. }
  destruct (do_grid_correct preds scoref minimiser sns unb fuel false s ns I Hne A St Hsz Hf) as [T1 T2].
  rewrite Hv in T1, T2. destruct T1 as (e & r & E); auto.
  destruct (T2 e r E) as (os & Tr & C1 & C2 & C3 & C4 & C5 & (D1 & D2 & D3)).
  exists e, r. split; [exact E|]. split; [exact D2|]. split; [exact C1|]. split; [|exact C3].
  intros ind Hin. apply snake_complete in Hin.
  destruct (in_combine_snd _ _ (snake ns) os ind (traversal_length _ _ _ _ _ Tr) Hin) as (o & Ho).
  destruct (traversal_inv _ s (snake ns) os e
     (fun p h => exists n, on_lattice (f p) n h) Tr (kquiet_point _ _ _ _ _ false) I HL) with (ind := ind) (o := o)
    as (t & t' & E1 & It & Hi & L1 & L2 & L3 & Off & On); auto.
  { intros p t It Stp (n & L). exists n. now apply grid_keeps_lattice. }
  exists (values t). split.
  - split.
    + intros p Hp. unfold values. rewrite Off; auto.
      * intros K. apply Hp. now apply (lm_step _ (iv_lm _ I)).
      * intros K. apply (lm_vary _ (iv_lm _ I)) in K. now rewrite Hv in K.
    + intros i p k H1 H2. unfold values.
      assert (Hp : In p (stepl s)) by (eapply nth_error_In; eauto).
      destruct (On p Hp) as (n & L). destruct (ol_val _ _ _ L) as (k' & K1 & K2 & K3).
      unfold indices, step_nums in Hi. rewrite L3 in Hi.
      pose proof (nth_indices _ _ _ _ _ _ Hi H1 H2) as K4. cbn in K4.
      assert (k' = k) by congruence. subst k'. exact K3.
  - rewrite (C2 ind o Ho). cbn in E1. destruct (score_total preds scoref t) as (t1 & E2 & _).
    unfold bind in E1. rewrite E2 in E1. unfold ret in E1. injection E1 as _ <-. reflexivity.
Qed.

(** the first best of a list of scores *)
Lemma better_irrefl : forall a : numR, better (N := numR) sns a a = false.
Proof. intros a. unfold better. destruct sns; cbn; apply Rltb_false; lra. Qed.

Lemma first_best_some : forall l (b : numR) bi,
  exists l1 m i l2, first_best (N := numR) (better sns) (Some (b, bi)) l = Some (m, i) /\
    (bi, b) :: l = l1 ++ (i, m) :: l2
    /\ (forall x, In x l1 -> better sns m (snd x) = true)
    /\ (forall x, In x l2 -> better sns (snd x) m = false).
Proof.
  induction l as [|[i v] l IH]; intros b bi.
  - exists [], b, bi, []. repeat split; auto; easy.
  - cbn [first_best]. destruct (better sns v b) eqn:E.
    + destruct (IH v i) as (l1 & m & j & l2 & A & B & C & D).
      exists ((bi, b) :: l1), m, j, l2. split; [exact A|]. split; [exact (f_equal (cons (bi, b)) B)|].
      split; [|exact D]. intros x [<-|Hx]; [|now apply C]. cbn.
      destruct l1 as [|y l1].
      * injection B as -> -> ->. exact E.
      * injection B as <- B. assert (K := C (i, v) (or_introl eq_refl)). cbn in K.
        unfold better in *. destruct sns; cbn in *;
          rewrite Rltb_spec in *; lra.
    + destruct (IH b bi) as (l1 & m & j & l2 & A & B & C & D).
      destruct l1 as [|y l1].
      * injection B as Eb1 Eb2 B. subst bi b. exists [], m, j, ((i, v) :: l).
        split; [exact A|]. split; [reflexivity|]. split; [easy|].
        intros x [<-|Hx]; [exact E|]. apply D. now rewrite <- B.
      * injection B as <- B.
        exists ((bi, b) :: (i, v) :: l1), m, j, l2. split; [exact A|].
        split; [exact (f_equal (fun t => (bi, b) :: (i, v) :: t) B)|]. split; [|exact D].
        intros x [<-|[<-|Hx]].
        -- apply C. now left.
        -- assert (K := C (bi, b) (or_introl eq_refl)). cbn in K |- *.
           unfold better in *. destruct sns; cbn in *;
             rewrite ?Rltb_spec, ?Rltb_false in *; lra.
        -- apply C. now right.
Qed.

Lemma first_best_spec : forall l, l <> [] ->
  exists l1 m i l2, first_best (N := numR) (better sns) None l = Some (m, i) /\ l = l1 ++ (i, m) :: l2
    /\ (forall x, In x l1 -> better sns m (snd x) = true)
    /\ (forall x, In x l2 -> better sns (snd x) m = false).
Proof.
  intros [|[i v] l] H; [now elim H|]. cbn [first_best]. apply first_best_some.
Qed.

Lemma snake_nonempty : forall ns, Forall (fun n => 1 <= n)%nat ns -> snake ns <> [].
Proof.
  intros ns H E. assert (K : length (snake ns) = 0%nat) by now rewrite E.
  rewrite length_snake in K. clear E. induction H as [|n ns Hn F IH]; cbn in K; [discriminate|].
  apply Nat.mul_eq_0 in K as [K|K]; [lia|auto].
Qed.

Lemma map_fst_combine : forall A B (l : list A) (l' : list B), length l = length l' ->
  map fst (combine l l') = l.
Proof.
  induction l as [|a l IH]; intros [|b l'] L; try discriminate; [reflexivity|].
  cbn. f_equal. apply IH. now injection L.
Qed.

Lemma grid_opt_R : forall dflt l s f ns fuel vg e r,
  s = run dflt l st0 -> varyl s <> [] -> stepl s <> [] -> at_start s ->
  (forall p, In p (stepl s) -> exists n, declared dflt l p (f p) n) ->
  sizes s ns -> (ncells ns <= fuel)%nat ->
  do_grid fuel vg s = (e, Ok r) ->
  at_start e /\ g_shape (gr_grid r) = map Z.of_nat ns
  /\ (forall ind, in_grid ns ind -> exists t t' params ext,
        optimize preds scoref minimiser sns unb t = (t', Ok (params, ext))
        /\ stepl t = stepl s /\ varyl t = varyl s /\ fixedl t = fixedl s
        /\ (forall p, In p (fixedl s) -> ps t p = ps s p)
        /\ (forall i p k, nth_error (stepl s) i = Some p -> nth_error ind i = Some k ->
              p_value (ps t p) = Some (f p k : numR))
        /\ cell (gr_grid r) ind = Some ext
        /\ (vg = true -> In (ind, params) (gr_vec r)))
  /\ exists m im before after, gr_opt r = Some (m, im) /\ cell (gr_grid r) im = Some m
        /\ snake ns = before ++ im :: after
        /\ (forall ind v, In ind before -> cell (gr_grid r) ind = Some v -> better sns m v = true)
        /\ (forall ind v, In ind after -> cell (gr_grid r) ind = Some v -> better sns v m = false).
Proof.
  intros dflt l s f ns fuel vg e r Hs Hv Hne A Hd Hsz Hf E.
  assert (I : Inv s) by (rewrite Hs; apply run_Inv, Inv0).
  assert (HL : forall p, In p (stepl s) -> exists n, on_lattice (f p) n (ps s p)).
  { intros p Hp. destruct (Hd p Hp) as (n & D). exists n. rewrite Hs. now apply declared_lattice. }
  assert (St : forall p, In p (stepl s) -> steppable (ps s p)).
  { intros p Hp. destruct (HL p Hp) as (n & L). now apply lattice_steppable in L. }
  destruct (do_grid_correct preds scoref minimiser sns unb fuel vg s ns I Hne A St Hsz Hf) as [_ T2].
  assert (Bt : match varyl s with [] => false | _ => true end = true)
    by (destruct (varyl s); [now elim Hv|reflexivity]).
  rewrite Bt in T2.
  destruct (T2 e r E) as (os & Tr & C1 & C2 & C3 & C4 & C5 & (D1 & D2 & D3)).
  pose proof (traversal_length _ _ _ _ _ Tr) as Len.
  split; [exact D2|]. split; [exact C1|]. split.
  - intros ind Hin. apply snake_complete in Hin.
    destruct (in_combine_snd _ _ (snake ns) os ind Len Hin) as ([params ext] & Ho).
    destruct (traversal_inv _ s (snake ns) os e
       (fun p h => exists n, on_lattice (f p) n h) Tr (kquiet_point _ _ _ _ _ true) I HL)
      with (ind := ind) (o := (params, ext))
      as (t & t' & E1 & It & Hi & L1 & L2 & L3 & Off & On); auto.
    { intros p t It Stp (n & L). exists n. now apply grid_keeps_lattice. }
    exists t, t', params, ext. split; [exact E1|]. do 3 (split; [assumption|]). split.
    + intros p Hp. apply (lm_fixed _ (iv_lm _ I)) in Hp. apply Off; congruence.
    + split.
      * intros i p k H1 H2.
        assert (Hp : In p (stepl s)) by (eapply nth_error_In; eauto).
        destruct (On p Hp) as (n & L). destruct (ol_val _ _ _ L) as (k' & K1 & K2 & K3).
        unfold indices, step_nums in Hi. rewrite L3 in Hi.
        pose proof (nth_indices _ _ _ _ _ _ Hi H1 H2) as K4. cbn in K4.
      assert (k' = k) by congruence. subst k'. exact K3.
      * split; [exact (C2 ind _ Ho)|]. intros ->. now apply (C5 ind (params, ext)).
  - destruct (start_axes s (stepl s) ns I) as [_ H1]; auto.
    assert (Ne : combine (snake ns) (map snd os) <> []).
    { intros K. apply (snake_nonempty ns H1).
      rewrite <- (map_fst_combine _ _ (snake ns) (map snd os)), K; [reflexivity|].
      now rewrite map_length. }
    destruct (first_best_spec _ Ne) as (l1 & m & im & l2 & B1 & B2 & B3 & B4).
    assert (Cell : forall ind v, In (ind, v) (combine (snake ns) (map snd os)) ->
      cell (gr_grid r) ind = Some v).
    { intros ind v Hin.
      assert (exists o, In (ind, o) (combine (snake ns) os) /\ snd o = v) as (o & Ho & <-).
      { clear -Hin. revert Hin. generalize (snake ns) as ll. revert os.
        induction os as [|o os IH]; intros [|a ll] Hin; try easy.
        destruct Hin as [Hin|Hin].
        - injection Hin as <- <-. exists o. split; [now left|reflexivity].
        - destruct (IH ll Hin) as (o' & Ho' & Eo). exists o'. split; [now right|exact Eo]. }
      now apply C2. }
    assert (Spl : snake ns = map fst l1 ++ im :: map fst l2).
    { rewrite <- (map_fst_combine _ _ (snake ns) (map snd os)) by now rewrite map_length.
      rewrite B2, map_app. reflexivity. }
    exists m, im, (map fst l1), (map fst l2). split; [rewrite C4; exact B1|].
    split. { apply Cell. rewrite B2. apply in_elt. }
    split; [exact Spl|]. split.
    + intros ind v Hin Hc. apply in_map_iff in Hin as ([i w] & Ei & Hi). cbn in Ei. subst i.
      assert (Hc' : cell (gr_grid r) ind = Some w).
      { apply Cell. rewrite B2. apply in_app_iff. now left. }
      rewrite Hc in Hc'. injection Hc' as ->. exact (B3 (ind, w) Hi).
    + intros ind v Hin Hc. apply in_map_iff in Hin as ([i w] & Ei & Hi). cbn in Ei. subst i.
      assert (Hc' : cell (gr_grid r) ind = Some w).
      { apply Cell. rewrite B2. apply in_app_iff. right. now right. }
      rewrite Hc in Hc'. injection Hc' as ->. exact (B4 (ind, w) Hi).
Qed.
End Scores.

(** Evaluating and refining grids. *)

From Coq Require Import ZArith List Bool Arith Reals Sorted Lra Lia.
From Verif Require Import Exn Instances CountLemmas2 RefModel RefSpec RefLemmas RefLemmas2 RefLemmas3 RefLemmas4 RefLemmas5 RefLemmas6.
Import ListNotations.
Local Open Scope R_scope.

(** ** The list of maxima never fails, and holds only what was reported *)

Lemma bisect_range : forall {L} fuel q (l : list (R * L)) lo hi, (hi - lo <= fuel)%nat -> (lo <= hi <= length l)%nat ->
  exists p, bisect fuel q l lo hi = Ok p /\ (lo <= p <= hi)%nat.
Proof.
  intros L. induction fuel as [|fuel IH]; intros q l lo hi Hf Hl; cbn [bisect].
  - assert (lo = hi) by lia. subst. rewrite Nat.ltb_irrefl. exists hi. split; auto.
  - destruct (Nat.ltb_spec lo hi); [|exists lo; split; auto; lia].
    assert (lo <= (lo + hi) / 2 < hi)%nat as Hm. { split; [apply Nat.div_le_lower_bound; lia|apply Nat.div_lt_upper_bound; lia]. }
    set (mid := ((lo + hi) / 2)%nat) in *. destruct (nth_error l mid) as [[h lb]|] eqn:En.
    + destruct (Rltb h q).
      * destruct (IH q l lo mid) as (p & E & Hp); try lia. exists p. split; auto. lia.
      * destruct (IH q l (S mid) hi) as (p & E & Hp); try lia. exists p. split; auto. lia.
    + apply nth_error_None in En. lia.
Qed.

Lemma prune_sub : forall {L} top r (l : list (R * L)) x, In x (prune_from top r l) -> In x l.
Proof.
  induction l as [|a l IH]; cbn; intros x H; auto. destruct (Rltb r (top - fst a)); [right; auto|].
  destruct H as [->|H]; [left; auto|right; auto].
Qed.

Lemma in_firstn : forall {A} n (l : list A) x, In x (firstn n l) -> In x l.
Proof. intros A n l x H. rewrite <- (firstn_skipn n l). apply in_or_app. auto. Qed.
Lemma in_skipn : forall {A} n (l : list A) x, In x (skipn n l) -> In x l.
Proof. intros A n l x H. rewrite <- (firstn_skipn n l). apply in_or_app. auto. Qed.

Lemma lm_update_sub : forall {L} q (lab : L) m, lm_nmax m <> Some O ->
  exists l, lm_update q lab m = (Lml (lm_nmax m) (lm_dyn m) l, Ok tt)
    /\ forall x, In x l -> x = (q, lab) \/ In x (lm_list m).
Proof.
  intros L q lab [nmax dyn l] Hm. unfold lm_update. cbn [lm_nmax lm_dyn lm_list] in *.
  set (full := match nmax with Some k => Nat.eqb (length l) k | None => false end).
  assert (exists b, (if full then match rev l with [] => Err IndexError | (h, _) :: _ => Ok (Rleb q h) end else Ok false) = Ok b) as (b & ->).
  { destruct full eqn:E; [|eauto]. unfold full in E. destruct nmax as [k|]; [|discriminate]. apply Nat.eqb_eq in E.
    destruct (rev l) as [|[h lb] r] eqn:Er; [|eauto]. apply (f_equal (@length _)) in Er. rewrite rev_length in Er. cbn in Er. congruence. }
  destruct b; [exists l; split; auto|].
  destruct (bisect_range (length l) q l 0 (length l)) as (p & -> & Hp); [lia|lia|].
  set (l1 := ins_at p (q, lab) l). set (l2 := match nmax with Some k => if Nat.ltb k (length l1) then del_at k l1 else l1 | None => l1 end).
  assert (forall x, In x l1 -> x = (q, lab) \/ In x l) as H1.
  { intros x H. unfold l1, ins_at in H. apply in_app_or in H as [H|[H|H]]; auto; [apply in_firstn in H|apply in_skipn in H]; auto. }
  assert (forall x, In x l2 -> In x l1) as H2.
  { intros x H. unfold l2 in H. destruct nmax as [k|]; auto. destruct (Nat.ltb k (length l1)); auto. unfold del_at in H.
    apply in_app_or in H as [H|H]; [apply in_firstn in H|apply in_skipn in H]; auto. }
  assert (l2 <> []) as NE.
  { assert (length l1 = S (length l)) as E1. { unfold l1, ins_at. rewrite app_length. cbn. rewrite firstn_length, skipn_length. lia. }
    unfold l2. intros E. apply (f_equal (@length _)) in E. cbn [length] in E. destruct nmax as [k|]; [|lia]. destruct (Nat.ltb_spec k (length l1)); [|lia].
    unfold del_at in E. rewrite app_length, firstn_length, skipn_length in E. destruct k; [congruence|lia]. }
  destruct (match dyn with Some r => if Reqb r 0 then None else Some r | None => None end) as [r|].
  - clearbody l2. destruct l2 as [|y l3]; [congruence|]. eexists. split; [reflexivity|].
    intros x H. apply H1, H2. apply in_app_or in H as [H|H]; [now apply in_firstn in H|apply prune_sub in H; now apply in_skipn in H].
  - exists l2. split; auto.
Qed.

Lemma report_all_sub : forall l m (P : R * label -> Prop), lm_nmax m <> Some O -> Forall P l -> Forall P (lm_list m) ->
  exists l', report_all l m = (Lml (lm_nmax m) (lm_dyn m) l', Ok tt) /\ Forall P l'.
Proof.
  unfold report_all. induction l as [|[q lab] l IH]; intros m P Hm Hl HP; cbn [for_each].
  - exists (lm_list m). destruct m; split; auto.
  - inversion Hl as [|? ? H1 H2]; subst. destruct (lm_update_sub q lab m Hm) as (l1 & E & Hs).
    cbn [fst snd]. unfold bind. rewrite E.
    destruct (IH (Lml (lm_nmax m) (lm_dyn m) l1) P) as (l' & E' & HP'); auto.
    + cbn [lm_list]. rewrite Forall_forall in *. intros x Hx. destruct (Hs x Hx) as [->|]; auto.
    + exists l'. split; auto.
Qed.

(** ** Evaluation *)

Lemma step_loop_vals : forall f g (P : R * label -> Prop) todo i x0 x1 done m, lm_nmax m <> Some O -> Forall P (lm_list m) ->
  (0 <= i)%Z ->
  ((1 <= i)%Z -> x1 = absc_at g (i - 1)) -> ((2 <= i)%Z -> x0 = absc_at g (i - 2)) ->
  done = rev (map (fun k => f (absc_at g (Z.of_nat k))) (seq 0 (Z.to_nat i))) ->
  (forall j, (i <= j < i + Z.of_nat todo)%Z -> (2 <= j)%Z ->
     Forall P (reports g j (absc_at g (j - 2)) (absc_at g (j - 1)) (absc_at g j)
        (f (absc_at g (j - 2))) (f (absc_at g (j - 1))) (f (absc_at g j)))) ->
  exists l', step_loop f g todo i x0 x1 done m =
    (map (fun k => f (absc_at g (Z.of_nat k))) (seq 0 (Z.to_nat i + todo)), (Lml (lm_nmax m) (lm_dyn m) l', Ok tt)) /\ Forall P l'.
Proof.
  intros f g P. induction todo as [|todo IH]; intros i x0 x1 done m Hm HP Hi H1 H0 Hd HR; cbn [step_loop].
  - exists (lm_list m). rewrite Nat.add_0_r, Hd, rev_involutive. destruct m; auto.
  - set (x := absc_at g i). set (y := f x).
    assert (exists l1, (match done with | y1 :: y0 :: _ => report_all (reports g i x0 x1 x y0 y1 y) m | _ => (m, Ok tt) end)
       = (Lml (lm_nmax m) (lm_dyn m) l1, Ok tt) /\ Forall P l1) as (l1 & E1 & HP1).
    { destruct done as [|y1 [|y0 d]]; try (exists (lm_list m); destruct m; auto; fail).
      assert (2 <= i)%Z as H2.
      { apply (f_equal (@length _)) in Hd. rewrite rev_length, map_length, seq_length in Hd. cbn in Hd. lia. }
      assert (y1 = f x1 /\ y0 = f x0) as [-> ->].
      { rewrite H1, H0 by lia. replace (Z.to_nat i) with (S (S (Z.to_nat (i - 2)))) in Hd by lia.
        rewrite seq_S, seq_S, !map_app, !rev_app_distr in Hd. cbn [map rev app Nat.add] in Hd. inversion Hd as [[A B C]].
        split; f_equal; f_equal; lia. }
      apply report_all_sub; auto. unfold x, y. rewrite H1, H0 by lia. apply HR; lia. }
    rewrite E1. destruct (IH (i + 1)%Z x1 x (y :: done) (Lml (lm_nmax m) (lm_dyn m) l1)) as (l' & E' & HP'); auto.
    + lia.
    + intros _. unfold x. f_equal. lia.
    + intros H. rewrite H1 by lia. f_equal. lia.
    + replace (Z.to_nat (i + 1)) with (S (Z.to_nat i)) by lia. rewrite seq_S, map_app, rev_app_distr, <- Hd. cbn [map rev app Nat.add].
      unfold y, x. rewrite Z2Nat.id by lia. reflexivity.
    + intros j Hj1 Hj2. apply HR; lia.
    + exists l'. rewrite E'. split; auto. replace (Z.to_nat (i + 1) + todo)%nat with (Z.to_nat i + S todo)%nat by lia. reflexivity.
Qed.

Lemma stepfunc_vals : forall f g m (P : R * label -> Prop), lm_nmax m <> Some O -> Forall P (lm_list m) ->
  (forall j, (2 <= j < g_n g)%Z ->
     Forall P (reports g j (absc_at g (j - 2)) (absc_at g (j - 1)) (absc_at g j)
        (f (absc_at g (j - 2))) (f (absc_at g (j - 1))) (f (absc_at g j)))) ->
  exists l', stepfunc f g m = (set_vals (map f (grid_absc g)) g, Lml (lm_nmax m) (lm_dyn m) l', Ok tt) /\ Forall P l'.
Proof.
  intros f g m P Hm HP HR. unfold stepfunc.
  destruct (step_loop_vals f g P (Z.to_nat (g_n g)) 0 0 0 [] m) as (l' & E & HP'); auto; try lia.
  - intros j H1 H2. apply HR. lia.
  - rewrite E. exists l'. split; auto. unfold grid_absc. rewrite map_map. reflexivity.
Qed.

Lemma stepfunc_holds : forall f g m, lm_nmax m <> Some O -> g_step g = span (g_lin g) (g_lo g) (g_hi g) / (IZR (g_n g) - 1) ->
  g_absc g = None ->
  exists g' m', stepfunc f g m = (g', m', Ok tt) /\ holds f (g_lin g) (g_lo g) (g_hi g) (g_n g) g' /\ g_absc g' = None.
Proof.
  intros f g m Hm Hs Ha. destruct (stepfunc_vals f g m (fun _ => True)) as (l' & E & _); auto.
  - apply Forall_forall. auto.
  - intros. apply Forall_forall. auto.
  - eexists. eexists. split; [exact E|]. rewrite grid_absc_points by auto. split; [constructor; auto|exact Ha].
Qed.

Lemma gpoints_snoc : forall lin lo hi n, (2 <= n)%Z -> (lin = false -> 0 < lo) -> lo < hi ->
  gpoints lin lo hi n = removelast (gpoints lin lo hi n) ++ [hi].
Proof.
  intros lin lo hi n Hn H0 H. unfold gpoints. destruct (Z.to_nat n) as [|m] eqn:Em; [lia|].
  rewrite seq_S, map_app. cbn [map Nat.add]. rewrite removelast_last. do 2 f_equal.
  replace (Z.of_nat m) with (n - 1)%Z by lia. now apply spaced_last.
Qed.

Lemma vecfunc_holds : forall f g m, lm_nmax m <> Some O -> (2 <= g_n g)%Z -> (g_lin g = false -> 0 < g_lo g) -> g_lo g < g_hi g ->
  g_step g = span (g_lin g) (g_lo g) (g_hi g) / (IZR (g_n g) - 1) ->
  exists g' m', vecfunc f g m = (g', m', Ok tt) /\ holds f (g_lin g) (g_lo g) (g_hi g) (g_n g) g'.
Proof.
  intros f g m Hm Hn H0 H Hs. unfold vecfunc. rewrite grid_absc_points by auto. rewrite <- gpoints_snoc by auto.
  set (xs := gpoints (g_lin g) (g_lo g) (g_hi g) (g_n g)).
  assert (holds f (g_lin g) (g_lo g) (g_hi g) (g_n g) (set_vals (map f xs) (set_absc xs g))) as Hh.
  { constructor; auto. }
  destruct (lm_list m) as [|p l] eqn:El.
  - eexists. eexists. split; [reflexivity|exact Hh].
  - destruct (report_all_sub (vec_reports g xs (map f xs)) m (fun _ => True)) as (l' & E & _); auto; try (apply Forall_forall; auto).
    rewrite E. eexists. eexists. split; [reflexivity|exact Hh].
Qed.

(** ** The peaks of a linear grid lie on it *)

Definition on_grid (lo hi : R) (p : R * label) : Prop := lo <= l_mean (snd p) <= hi /\ 0 < l_sig (snd p).

Lemma peak_lin : forall x0 h y0 y1 y2, 0 < h -> IsPeak y0 y1 y2 = true ->
  let '(_, mean, sig) := PeakParams x0 (x0 + h) (x0 + 2 * h) y0 y1 y2 in
  x0 + h / 2 <= mean <= x0 + 3 * h / 2 /\ 0 < sig.
Proof.
  intros x0 h y0 y1 y2 Hh HP. assert (y0 < y1 /\ y2 <= y1) as [H0 H2].
  { unfold IsPeak in HP. apply orb_true_iff in HP as [HP|HP]; apply andb_true_iff in HP as [A B]; rb; lra. }
  unfold PeakParams.
  replace (x0 + 2 * h - x0) with (2 * h) by lra. replace (x0 + h - x0) with h by lra.
  replace (h / (2 * h)) with (1/2) by (field; lra).
  set (D := y0 - y1 - y1 + y2). assert (D < 0) as HD by (unfold D; lra).
  set (q := (y0 - y1) / D). assert (0 < q <= 1) as Hq.
  { assert (q * D = y0 - y1) as Eq by (unfold q; field; lra). unfold D in Eq, HD. split; nra. }
  replace ((1 / 2) ^ 2 / (1 - 2 * (1 / 2) ^ 2)) with (1/2) by field.
  assert (forall C, C * (2 * h) * (1 - 2 * (1 / 2) ^ 2) ^ 2 / (2 * (1 / 2) * (1 - 1 / 2) + C * (2 - 4 * (1 / 2)) * (1 - 2 * (1 / 2) ^ 2)) = C * h) as EC.
  { intros C. replace (2 * (1 / 2) * (1 - 1 / 2) + C * (2 - 4 * (1 / 2)) * (1 - 2 * (1 / 2) ^ 2)) with (1/2) by field. field. }
  rewrite EC. split.
  - split; nra.
  - apply sqrt_lt_R0. replace (2 * h * (1 / 2)) with h by field.
    replace (h * (1 / 2 * h - (1 / 2 + q) * h) / (y0 - y1)) with (h * h * / (- D)).
    + apply Rmult_lt_0_compat; [nra|]. apply Rinv_0_lt_compat. lra.
    + unfold q. field. split; lra.
Qed.

Lemma reports_lin : forall g i f, g_lin g = true -> (2 <= i < g_n g)%Z -> 0 < g_step g -> g_lo g + (IZR (g_n g) - 1) * g_step g = g_hi g ->
  Forall (on_grid (g_lo g) (g_hi g))
    (reports g i (absc_at g (i - 2)) (absc_at g (i - 1)) (absc_at g i)
       (f (absc_at g (i - 2))) (f (absc_at g (i - 1))) (f (absc_at g i))).
Proof.
  intros g i f L Hi Hs Hh. unfold absc_at. rewrite L, !minus_IZR. set (x0 := g_lo g + (IZR i - 2) * g_step g).
  assert (0 <= IZR i - 2) as I2. { assert (2 <= IZR i) by (apply IZR_le; lia). lra. }
  assert (IZR i <= IZR (g_n g) - 1) as I3. { assert (IZR i <= IZR (g_n g - 1)) by (apply IZR_le; lia). rewrite minus_IZR in *. lra. }
  assert (g_lo g <= x0) by (unfold x0; nra). assert (x0 + 2 * g_step g <= g_hi g) by (unfold x0; nra).
  replace (g_lo g + (IZR i - 1) * g_step g) with (x0 + g_step g) by (unfold x0; lra).
  replace (g_lo g + IZR i * g_step g) with (x0 + 2 * g_step g) by (unfold x0; lra).
  set (y0 := f x0). set (y1 := f (x0 + g_step g)). set (y2 := f (x0 + 2 * g_step g)).
  unfold reports. apply Forall_app. split; [|apply Forall_app; split].
  - destruct (IsPeak y0 y1 y2) eqn:EP; [|constructor]. pose proof (peak_lin x0 (g_step g) y0 y1 y2 Hs EP) as PL.
    destruct (PeakParams _ _ _ _ _ _) as [[A mean] sig]. apply Forall_cons; [unfold on_grid; cbn; lra|constructor].
  - destruct (Z.eqb i 2 && Rltb y1 y0) eqn:E; [|constructor]. apply andb_true_iff in E as [_ E]. rb.
    apply Forall_cons; [|constructor]. unfold on_grid. cbn [snd l_mean l_sig]. split; [lra|]. replace (- (1/2) * (x0 + g_step g - x0) / (y1 - y0)) with ((1/2 * g_step g) / (y0 - y1)) by (field; lra).
    apply Rdiv_lt_0_compat; lra.
  - destruct (Z.eqb i (g_n g - 1) && Rltb y1 y2) eqn:E; [|constructor]. apply andb_true_iff in E as [_ E]. rb.
    apply Forall_cons; [|constructor]. unfold on_grid. cbn [snd l_mean l_sig]. split; [lra|]. apply Rdiv_lt_0_compat; lra.
Qed.

(** ** The refined grid *)

(** The grids of an interval list: [base] has the points of a linear grid. *)
Definition matches (f : R -> R) (iv : ival) (g : bgrid) : Prop :=
  holds f true (i_lo iv) (i_hi iv) (i_n iv) g /\ g_absc g = None.

Record ginv (f : R -> R) (lo hi : R) (n : Z) (s : grid) : Prop := GInv {
  gi_lin : G_lin s = true;
  gi_func : G_func s = Some f;
  gi_base : holds f true lo hi n (G_base s) /\ g_absc (G_base s) = None;
  gi_il : inv (G_ilist s);
  gi_frame : rl_pos (G_ilist s) = true /\ rl_lin (G_ilist s) = true /\ rl_lo (G_ilist s) = lo /\ rl_hi (G_ilist s) = hi
     /\ i_n (rl_base (G_ilist s)) = n;
  gi_lml : lm_nmax (G_lml s) <> Some O /\ Forall (on_grid lo hi) (lm_list (G_lml s));
  gi_nmax : G_nmax s <> Some O;
  gi_nums : (1 <= G_nsig s)%Z /\ (2 <= G_rpts s)%Z;
  gi_glist : Forall2 (matches f) (rl_il (G_ilist s)) (G_glist s);
  gi_tot : G_tot s = rl_npts (G_ilist s) }.

Definition same_but_il (s s' : grid) : Prop :=
  exists il, s' = with_ilist il s /\ inv il /\ same_frame (G_ilist s) il
    /\ no_coarser (rl_il (G_ilist s)) (rl_il il).

Lemma refine_list_ok : forall l s lo hi, inv (G_ilist s) -> rl_pos (G_ilist s) = true -> rl_lin (G_ilist s) = true ->
  rl_lo (G_ilist s) = lo -> rl_hi (G_ilist s) = hi -> Forall (on_grid lo hi) l -> (1 <= G_nsig s)%Z -> (2 <= G_rpts s)%Z ->
  exists s', refine_list l s = (s', Ok tt) /\ same_but_il s s'.
Proof.
  induction l as [|[q lab] l IH]; intros s lo hi I P L El Eh F Hs Hr; cbn [refine_list].
  - exists s. split; auto. exists (G_ilist s). destruct s; cbn in *. split; [reflexivity|]. split; [auto|]. split; [repeat split|apply no_coarser_refl].
  - inversion F as [|? ? [F1 F2] F3]; subst. cbn [snd] in F1, F2.
    pose proof (update_spec (l_mean lab - IZR (G_nsig s) * l_sig lab) (l_mean lab + IZR (G_nsig s) * l_sig lab) (G_rpts s) (G_ilist s) I ltac:(lia)) as U.
    destruct (update _ _ _ _) as [il r]. destruct U as (I' & Fr & NC & OK).
    assert (0 < IZR (G_nsig s) * l_sig lab) as Hp. { apply Rmult_lt_0_compat; auto. apply IZR_lt. lia. }
    pose proof (inv_lohi _ I) as Hlh.
    destruct OK as [-> _]; auto. { apply Rmax_lub_lt; apply Rmin_glb_lt; lra. }
    destruct (IH (with_ilist il s) (rl_lo (G_ilist s)) (rl_hi (G_ilist s))) as (s' & E & il2 & -> & I2 & Fr2 & NC2); auto;
      try (destruct Fr as (Q1 & Q2 & Q3 & Q4 & Q5); cbn; congruence).
    exists (with_ilist il2 s). split; [exact E|]. exists il2. split; [reflexivity|]. split; [auto|]. split; [eapply frame_trans; eauto|].
    eapply no_coarser_trans; eauto.
Qed.

Lemma Int_part_IZR : forall k, Int_part (IZR k) = k.
Proof.
  intros k. destruct (Int_part_bounds (IZR k)) as [A B]. apply le_IZR in A.
  replace (IZR (Int_part (IZR k)) + 1) with (IZR (Int_part (IZR k) + 1)) in B by (now rewrite plus_IZR). apply lt_IZR in B. lia.
Qed.
Lemma round2_int : forall k, round2 (IZR k) = IZR k.
Proof.
  intros k. unfold round2. replace (Int_part (100 * IZR k + 1/2)) with (100 * k)%Z; [rewrite mult_IZR; field|].
  destruct (Int_part_bounds (100 * IZR k + 1/2)) as [A B].
  assert (Int_part (100 * IZR k + 1/2) < 100 * k + 1)%Z. { apply lt_IZR. rewrite plus_IZR, mult_IZR. lra. }
  assert (100 * k - 1 < Int_part (100 * IZR k + 1/2))%Z. { apply lt_IZR. rewrite minus_IZR, mult_IZR. lra. }
  lia.
Qed.
Lemma int_of_nat : forall k, (0 <= k)%Z -> int_of (IZR k) = k.
Proof. intros k H. unfold int_of. replace (Rleb 0 (IZR k)) with true by (symmetry; apply Rleb_spec, (IZR_le 0), H). apply Int_part_IZR. Qed.

Lemma seq_slice : forall a c b, (a + c <= b)%nat -> firstn c (skipn a (seq 0 b)) = seq a c.
Proof.
  intros a c b H. replace b with (a + (c + (b - a - c)))%nat by lia. rewrite !seq_app. cbn [Nat.add].
  rewrite skipn_app, seq_length, Nat.sub_diag, skipn_all2 by (rewrite seq_length; lia). cbn [skipn app].
  rewrite firstn_app, seq_length, Nat.sub_diag, firstn_all2 by (rewrite seq_length; lia). cbn. now rewrite app_nil_r.
Qed.

Lemma subgrid_ok : forall f lo hi n g iv k, (2 <= n)%Z -> lo < hi -> holds f true lo hi n g -> g_absc g = None ->
  okiv iv -> i_lin iv = true -> i_step iv = g_step g -> (0 <= k)%Z -> i_lo iv = lo + IZR k * g_step g -> i_hi iv <= hi ->
  exists g', subgrid g (i_lo iv) (i_hi iv) = Ok g' /\ matches f iv g'.
Proof.
  intros f lo hi n g iv k Hn Hlh [A B C D E F G] HA (O1 & O2 & O3 & _ & O5) L Es Hk El Eh.
  unfold span in E. rewrite L in O5. unfold span in O5. set (st := g_step g) in *. rewrite Es in *.
  assert (i_hi iv = lo + IZR (k + (i_n iv - 1)) * st) as Ehi.
  { rewrite plus_IZR, minus_IZR. replace (i_hi iv) with (i_lo iv + (IZR (i_n iv) - 1) * st); [rewrite El; lra|].
    rewrite O5. apply IZR_ge1 in O2. field. lra. }
  assert (k + (i_n iv - 1) <= n - 1)%Z as Hkn.
  { apply le_IZR. apply Rmult_le_reg_r with st; auto. rewrite (minus_IZR n 1).
    replace ((IZR n - 1) * st) with (hi - lo); [rewrite Ehi in Eh; lra|]. rewrite E. apply IZR_ge1 in Hn. field. lra. }
  unfold subgrid. rewrite A, B, D. replace (Rltb (i_lo iv) lo || Rltb hi (i_hi iv)) with false.
  2:{ symmetry. apply orb_false_iff. split; apply Rltb_false; [|lra]. rewrite El. assert (0 <= IZR k * st); [|lra].
      apply Rmult_le_pos; [now apply (IZR_le 0)|lra]. }
  cbv zeta. fold st.
  replace ((i_lo iv - lo) / st) with (IZR k) by (rewrite El; field; lra).
  replace ((i_hi iv - lo) / st) with (IZR (k + (i_n iv - 1))) by (rewrite Ehi; field; lra).
  rewrite !round2_int, !int_of_nat by lia.
  replace (IZR k * st - (i_lo iv - lo)) with 0 by (rewrite El; lra).
  replace (IZR (k + (i_n iv - 1)) * st - (i_hi iv - lo)) with 0 by (rewrite Ehi; lra). rewrite Rabs_R0.
  replace (Rltb (1 / 1000 * st) 0) with false by (symmetry; apply Rltb_false; lra).
  replace (k + (i_n iv - 1) - k + 1)%Z with (i_n iv) by lia.
  unfold new_bgrid. replace (Z.leb (i_n iv) 1) with false by (symmetry; apply Z.leb_gt; lia). cbn [negb andb].
  eexists. split; [reflexivity|]. cbn [g_lo g_hi g_n g_lin g_peak g_step]. rewrite HA, F. cbn [option_map].
  split; [|reflexivity]. constructor; cbn [g_lo g_hi g_n g_lin g_peak g_step g_vals g_absc]; auto.
  f_equal. unfold gpoints. rewrite !map_map, skipn_map, firstn_map.
  replace (Z.to_nat (k + (i_n iv - 1) + 1) - Z.to_nat k)%nat with (Z.to_nat (i_n iv)) by lia.
  rewrite seq_slice by lia.
  assert (forall c a, map (fun x => f (spaced true lo hi n (Z.of_nat x))) (seq (Z.to_nat k + a) c) =
     map (fun x => f (spaced true (i_lo iv) (i_hi iv) (i_n iv) (Z.of_nat x))) (seq a c)) as EM.
  { induction c as [|c IH]; intros a; [reflexivity|]. cbn [seq map]. f_equal.
    - f_equal. unfold spaced. rewrite <- E, <- O5, El, Nat2Z.inj_add, Z2Nat.id, plus_IZR by lia. lra.
    - rewrite <- IH. f_equal. f_equal. lia. }
  specialize (EM (Z.to_nat (i_n iv)) 0%nat). rewrite Nat.add_0_r in EM. exact EM.
Qed.

(** What [grid_for] makes, before the new grids are evaluated. *)
Definition half_matches (f : R -> R) (bstep : R) (iv : ival) (g : bgrid) : Prop :=
  (i_step iv = bstep /\ matches f iv g)
  \/ (i_step iv <> bstep /\ g_lo g = i_lo iv /\ g_hi g = i_hi iv /\ g_n g = i_n iv /\ g_lin g = true /\ g_absc g = None
      /\ g_step g = span true (i_lo iv) (i_hi iv) / (IZR (i_n iv) - 1)).

Lemma eval_grids_ok : forall f bstep ivs gs m, Forall (fun iv => okiv iv /\ i_lin iv = true) ivs ->
  Forall2 (half_matches f bstep) ivs gs -> lm_nmax m <> Some O ->
  exists gs' m', eval_grids f bstep gs m = (gs', (m', Ok tt)) /\ Forall2 (matches f) ivs gs'.
Proof.
  intros f bstep. induction ivs as [|iv ivs IH]; intros gs m O F Hm; inversion F as [|? g ? gs1 H1 H2]; subst; cbn [eval_grids].
  - eexists. eexists. split; [reflexivity|constructor].
  - inversion O as [|? ? [O1 O2] O3]; subst. pose proof O1 as (_ & _ & _ & _ & Est). rewrite O2 in Est.
    destruct H1 as [[E M]|(E & B1 & B2 & B3 & B4 & B5 & B6)].
    + assert (g_step g = bstep) as Eg. { destruct M as [M _]. rewrite (h_step _ _ _ _ _ _ M). congruence. }
      replace (Reqb (g_step g) bstep) with true by (symmetry; apply Reqb_spec; auto).
      destruct (IH gs1 m O3 H2 Hm) as (gs' & m' & -> & F'). eexists. eexists. split; [reflexivity|]. constructor; auto.
    + replace (Reqb (g_step g) bstep) with false by (symmetry; apply Reqb_false; congruence).
      destruct (stepfunc_vals f g m (fun _ => True)) as (l' & Ev & _); auto; try (intros; apply Forall_forall; auto).
      rewrite Ev. destruct (IH gs1 (Lml (lm_nmax m) (lm_dyn m) l') O3 H2 Hm) as (gs' & m' & -> & F').
      eexists. eexists. split; [reflexivity|]. constructor; auto. split; [|exact B5].
      rewrite grid_absc_points by congruence. rewrite B1, B2, B3, B4.
      constructor; cbn [set_vals g_lo g_hi g_n g_lin g_step g_vals g_absc]; auto.
Qed.

Lemma grids_for_ok : forall f lo hi n s ivs, (2 <= n)%Z -> lo < hi -> holds f true lo hi n (G_base s) -> g_absc (G_base s) = None ->
  G_lin s = true -> i_step (rl_base (G_ilist s)) = g_step (G_base s) ->
  Forall (fun iv => okiv iv /\ i_lin iv = true) ivs ->
  (forall iv, In iv ivs -> i_hi iv <= hi /\ (i_step iv = g_step (G_base s) -> exists k, (0 <= k)%Z /\ i_lo iv = lo + IZR k * g_step (G_base s))) ->
  exists gs, grids_for s ivs = (gs, Ok tt) /\ Forall2 (half_matches f (g_step (G_base s))) ivs gs.
Proof.
  intros f lo hi n s ivs Hn Hlh HB HA HL HS. induction ivs as [|iv ivs IH]; intros O H; cbn [grids_for].
  - eexists. split; [reflexivity|constructor].
  - inversion O as [|? ? [O1 O2] O3]; subst. destruct IH as (gs & -> & F); auto. { intros; apply H; cbn; auto. }
    destruct (H iv) as [H1 H2]; [left; auto|].
    assert (exists g, grid_for s iv = Ok g /\ half_matches f (g_step (G_base s)) iv g) as (g & -> & HM).
    { unfold grid_for. rewrite HS. destruct (Reqb (i_step iv) (g_step (G_base s))) eqn:E; rb.
      - destruct (H2 E) as (k & K0 & K). destruct (subgrid_ok f lo hi n (G_base s) iv k) as (g & Eg & M); auto.
        exists g. split; auto. left. auto.
      - unfold new_bgrid. rewrite HL. destruct O1 as (Q1 & Q2 & Q3 & _ & Q5).
        replace (Z.leb (i_n iv) 1) with false by (symmetry; apply Z.leb_gt; lia). cbn [negb andb].
        eexists. split; [reflexivity|]. right. cbn. rewrite O2 in Q5. repeat (split; [auto|]). reflexivity. }
    exists (g :: gs). split; auto.
Qed.

Lemma ilist_all_lin : forall s, inv s -> rl_lin s = true -> Forall (fun iv => okiv iv /\ i_lin iv = true) (rl_il s).
Proof.
  intros s I L. pose proof (inv_ok s I) as F. destruct (inv_kind s I) as [K|(a & E & K)].
  - rewrite Forall_forall in *. auto.
  - rewrite E in *. inversion F; subst. repeat constructor; auto; try congruence; apply H1.
Qed.

(** One call of refine. *)
Lemma refine_inv : forall f lo hi n s d, (2 <= n)%Z -> lo < hi -> ginv f lo hi n s ->
  ginv f lo hi n (fst (refine d s)) /\ no_coarser (rl_il (G_ilist s)) (rl_il (G_ilist (fst (refine d s))))
  /\ (d = None \/ lm_list (G_lml s) <> [] -> snd (refine d s) = Ok tt).
Proof.
  intros f lo hi n s d Hn Hlh I. pose proof I as [Q1 Q2 [Q3 Q3a] Q4 Q5 [Q6 Q6a] Q7 [Q8 Q8a] Q9 Q10].
  unfold refine. rewrite Q2.
  assert (forall m, lm_nmax m = lm_nmax (G_lml s) -> Forall (on_grid lo hi) (lm_list m) ->
    let s1 := with_lml m s in
    let out := match refine_list (lm_list (G_lml s1)) s1 with
          | (s, Err e) => (s, Err e)
          | (s, Ok _) =>
              let '(gs, r) := grids_for s (rl_il (G_ilist s)) in
              let out gl m := Grid (G_nmax s) (G_lml s) (G_lin s) (G_peak s) (G_base s) (G_ilist s)
                                   (G_nsig s) (G_rpts s) (rl_npts (G_ilist s)) (G_func s) gl m true in
              match r with
              | Err e => (out gs (new_lml (G_nmax s) None), Err e)
              | Ok _ => let '(gs', (m, r)) := eval_grids f (g_step (G_base s)) gs (new_lml (G_nmax s) None) in
                        (out gs' m, r)
              end
          end in
    ginv f lo hi n (fst out) /\ no_coarser (rl_il (G_ilist s)) (rl_il (G_ilist (fst out))) /\ snd out = Ok tt) as Main.
  { intros m Em Fm s1. destruct Q5 as (P1 & P2 & P3 & P4 & P5).
    destruct (refine_list_ok (lm_list (G_lml s1)) s1 lo hi) as (s2 & E2 & il & -> & I2 & Fr & NC); auto.
    rewrite E2. cbn [with_ilist with_lml s1 G_ilist G_base G_lin G_nmax G_lml G_peak G_nsig G_rpts G_func].
    destruct Fr as (R1 & R2 & R3 & R4 & R5). cbn [with_lml s1 G_ilist] in R1, R2, R3, R4, R5, NC.
    assert (i_step (rl_base il) = g_step (G_base s)) as ES.
    { rewrite R5. destruct (inv_base _ Q4) as (B1 & B2 & B3 & B4). destruct B1 as (_ & _ & _ & _ & B5).
      rewrite B5, B2, B3, B4, P2, P3, P4, P5. symmetry. apply (h_step _ _ _ _ _ _ Q3). }
    pose proof (ilist_all_lin il I2 ltac:(congruence)) as FL.
    destruct (grids_for_ok f lo hi n (with_ilist il s1) (rl_il il)) as (gs & Eg & Fg); auto.
    { intros iv Hiv. pose proof (inv_tiling _ I2) as T. rewrite R3, R4, P3, P4 in T. destruct (tiling_in _ _ _ _ T Hiv) as (_ & _ & T3).
      split; auto. destruct (inv_steps _ I2 ltac:(congruence) iv Hiv) as [_ S2]. rewrite ES, R3, P3 in S2. exact S2. }
    fold s1. cbn [with_ilist with_lml s1 G_base] in Fg. rewrite Eg.
    destruct (eval_grids_ok f (g_step (G_base s)) (rl_il il) gs (new_lml (G_nmax s) None)) as (gs' & m' & Ev & Fv); auto.
    rewrite Ev. cbn [fst snd G_ilist]. split; [|split; [exact NC|reflexivity]].
    constructor; cbn [G_lin G_func G_base G_ilist G_lml G_nmax G_nsig G_rpts G_glist G_tot]; auto.
    - repeat split; congruence.
    - split; congruence. }
  assert (with_lml (G_lml s) s = s) as Es by (destruct s; reflexivity).
  pose proof (Main (G_lml s) eq_refl Q6a) as M0. cbv zeta in M0. rewrite Es in M0.
  destruct d as [r|].
  - destruct (Reqb r 0); [destruct M0 as (A & B & C); split; [exact A|split; [exact B|intros _; exact C]]|].
    unfold limitRange. destruct (lm_list (G_lml s)) as [|x l] eqn:El.
    + cbn [fst snd]. rewrite Es. split; [auto|]. split; [apply no_coarser_refl|]. intros [H|H]; congruence.
    + destruct (Main (Lml (lm_nmax (G_lml s)) (lm_dyn (G_lml s)) (x :: prune_from (fst x) (ln r) l)) eq_refl) as (A & B & C).
      { cbn [lm_list]. inversion Q6a; subst. constructor; auto. rewrite Forall_forall in *. intros y Hy. apply prune_sub in Hy. auto. }
      cbv zeta in A, B, C. split; [exact A|]. split; [exact B|]. intros _. exact C.
  - destruct M0 as (A & B & C). split; [exact A|]. split; [exact B|]. intros _. exact C.
Qed.

Lemma refines_inv : forall ds f lo hi n s, (2 <= n)%Z -> lo < hi -> ginv f lo hi n s -> ginv f lo hi n (refines ds s)
  /\ no_coarser (rl_il (G_ilist s)) (rl_il (G_ilist (refines ds s))).
Proof.
  induction ds as [|d ds IH]; intros f lo hi n s Hn Hlh I; cbn [refines]; [split; [auto|apply no_coarser_refl]|].
  destruct (refine_inv f lo hi n s d Hn Hlh I) as (I1 & NC & _). destruct (IH f lo hi n _ Hn Hlh I1) as (I2 & NC2).
  split; auto. eapply no_coarser_trans; eauto.
Qed.

(** A new grid, evaluated. *)
Lemma firstpass_inv : forall f lo hi n nmax dyn sigpts nsig peak, (2 <= n)%Z -> lo < hi -> nmax <> Some O -> (2 <= sigpts)%Z -> (1 <= nsig)%Z ->
  exists s s', new_grid lo hi n true nmax dyn sigpts nsig peak = Ok s /\ firstpass f s = (s', Ok tt) /\ ginv f lo hi n s'.
Proof.
  intros f lo hi n nmax dyn sigpts nsig peak Hn Hlh Hm Hp Hs. unfold new_grid, new_bgrid.
  replace (Z.leb n 1) with false by (symmetry; apply Z.leb_gt; lia). cbn [negb andb].
  destruct (new_inv lo hi n true) as (il & Eil & I & L & P & H1 & H2 & H3); auto; [lra|discriminate|].
  rewrite Eil.
  set (b := BGrid lo hi n true peak ((hi - lo) / (IZR n - 1)) None None).
  assert (1 <= IZR n - 1) as Hn1 by (now apply IZR_ge1).
  destruct (stepfunc_vals f b (new_lml nmax dyn) (on_grid lo hi)) as (l' & E & F); auto.
  { constructor. }
  { intros j Hj. pose proof (reports_lin b j f) as RL. apply RL; auto; cbn; [apply Rdiv_lt_0_compat; lra|field; lra]. }
  eexists. eexists. split; [reflexivity|]. unfold firstpass. cbn [G_base G_lml G_refined G_glist]. fold b. rewrite E. split; [reflexivity|].
  rewrite Rmin_left in H1 by lra. rewrite Rmax_right in H2 by lra.
  assert (matches f (rl_base il) (set_vals (map f (grid_absc b)) b)) as M.
  { destruct (inv_base _ I) as (B1 & B2 & B3 & B4). rewrite grid_absc_points by reflexivity. split; [|reflexivity].
    rewrite B2, B3, H1, H2, H3. constructor; auto. }
  assert (rl_il il = [rl_base il]) as Elist.
  { unfold new_rlist in Eil. replace (Z.leb n 1) with false in Eil by (symmetry; apply Z.leb_gt; lia).
    destruct (Reqb lo hi); [discriminate|]. destruct (if Rltb lo hi then _ else _) as [[p l] h]. cbn [negb andb] in Eil.
    destruct (mk_ival l h n true); [|discriminate]. inversion Eil. reflexivity. }
  constructor; cbn [G_lin G_func G_base G_ilist G_lml G_nmax G_nsig G_rpts G_glist G_tot]; auto.
  - rewrite grid_absc_points by reflexivity. split; [constructor; auto|reflexivity].
  - rewrite P. split; [apply Rltb_spec; auto|]. auto.
  - split; [auto|nia].
  - rewrite Elist. constructor; auto.
  - rewrite (inv_npts _ I), Elist. unfold count_points, steps_in. cbn [map fold_right]. lia.
Qed.

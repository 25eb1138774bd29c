From Coq Require Import List Bool Arith Reals Lia Lra Psatz.
From Verif Require Import Exn Instances McModel CountSpec CountLemmas BaModel BaSpec BaLemmas BaLemmas2 BaLemmas3.
Import ListNotations.
Open Scope R_scope.

Lemma same_pars_eq : forall p q, same_pars p q = true -> p = q.
Proof.
  induction p as [|x p IH]; intros [|y q] H; try discriminate; [reflexivity|]. cbn in H. apply andb_prop in H. destruct H as [H1 H2]. rewrite (proj1 (Reqb_spec x y) H1). now rewrite (IH q H2).
Qed.
Lemma same_pars_refl : forall p, same_pars p p = true.
Proof. induction p as [|x p IH]; [reflexivity|]. cbn. rewrite (proj2 (Reqb_spec x x) eq_refl). exact IH. Qed.
Lemma is_pars_eq : forall p o, is_pars p o = true -> o = Some p.
Proof. intros p [q|] H; [|discriminate]. cbn in H. now rewrite (same_pars_eq p q H). Qed.

(** ** Filling the rows *)
Fixpoint fill (l : list (res (list R))) (a : nat) : memo -> memo * res unit :=
  match l with
  | [] => ret tt
  | Err e :: _ => raise e
  | Ok row :: l' => bind (modify (put_row a row)) (fun _ => fill l' (S a))
  end.
Fixpoint gather (l : list (res (list R))) : res (list (list R)) :=
  match l with
  | [] => Ok []
  | x :: l' => let! row := x in let! rs := gather l' in Ok (row :: rs)
  end.
Definition with_vals (s : memo) (m : mat) : memo := Memo (m_pars s) (m_suf s) (m_Q s) (m_Jac s) m (m_done s).
Definition good_rows (N : nat) (l : list (res (list R))) : Prop := forall row, In (Ok row) l -> length row = N.

Lemma skipn_skip : forall A (l : list A) a b, skipn a (skipn b l) = skipn (b + a) l.
Proof. intros A l a b. revert l. induction b as [|b IH]; intros l; [reflexivity|]. destruct l as [|x l]; cbn; [now rewrite skipn_nil|apply IH]. Qed.
Lemma set_row_len : forall m a row, shaped m -> (a < rows m)%nat -> length row = cols m -> shaped (set_row m a row).
Proof. intros m a row S A L. unfold shaped, set_row in *. cbn [cells rows cols]. rewrite !app_length, firstn_length, skipn_length, L, S. nia. Qed.
Lemma fill_is : forall l a s M N, rows (m_modvals s) = M -> cols (m_modvals s) = N -> shaped (m_modvals s) -> good_rows N l -> (a + length l <= M)%nat ->
  exists m, rows m = M /\ cols m = N /\ shaped m /\
  match gather l with
  | Ok rs => fill l a s = (with_vals s m, Ok tt) /\ cells m = firstn (a * N) (cells (m_modvals s)) ++ concat rs ++ skipn ((a + length l) * N) (cells (m_modvals s))
  | Err e => fill l a s = (with_vals s m, Err e)
  end.
Proof.
  induction l as [|x l IH]; intros a s M N HR HC SH GR HL.
  - exists (m_modvals s). split; [exact HR|]. split; [exact HC|]. split; [exact SH|]. cbn [gather fill length concat]. split; [destruct s; reflexivity|]. rewrite Nat.add_0_r. cbn [app]. now rewrite firstn_skipn.
  - destruct x as [row|e]; cbn [gather fill].
    + assert (LR : length row = N) by (apply GR; now left).
      destruct (IH (S a) (put_row a row s) M N) as [m [R' [C' [S' H]]]]; [exact HR|exact HC|apply set_row_len; [exact SH|cbn [length] in HL; lia|now rewrite HC]|intros r I; apply GR; now right|cbn [length] in HL; lia|].
      exists m. split; [exact R'|]. split; [exact C'|]. split; [exact S'|]. unfold bind, modify. destruct (gather l) as [rs|e]; [|exact H].
      destruct H as [H1 H2]. split; [exact H1|]. rewrite H2. cbn [put_row m_modvals set_row cells]. rewrite HC. cbn [length concat]. unfold shaped in SH. rewrite HR, HC in SH. cbn [length] in HL.
      rewrite !app_assoc. f_equal.
      * f_equal. rewrite firstn_app. rewrite firstn_all2 by (rewrite app_length, firstn_length, LR; nia). rewrite app_length, firstn_length, LR, SH. replace (S a * N - (Nat.min (a * N) (M * N) + N))%nat with 0%nat by nia. cbn [firstn]. now rewrite app_nil_r.
      * rewrite skipn_app. rewrite skipn_all2 by (rewrite app_length, firstn_length, LR; nia). cbn [app]. rewrite app_length, firstn_length, LR, SH. rewrite skipn_skip. f_equal. nia.
    + exists (m_modvals s). split; [exact HR|]. split; [exact HC|]. split; [exact SH|]. destruct s; reflexivity.
Qed.
Lemma gather_len : forall l rs, gather l = Ok rs -> length rs = length l.
Proof.
  induction l as [|x l IH]; intros rs H; cbn in H; [injection H as <-; reflexivity|]. destruct x as [row|]; [|discriminate]. destruct (gather l) as [rs'|]; [|discriminate]. injection H as <-. cbn. now rewrite (IH rs' eq_refl).
Qed.

(** ** The store of results *)
Section Store.
Variables (M N : nat) (std : list R) (dsqr : R).
Variable job : list R -> res (list (res (list R))).
Hypothesis std_len : length std = N.
Hypothesis job_len : forall p l, job p = Ok l -> length l = M /\ good_rows N l.

Definition mat_at (p : list R) : res mat := let! l := job p in let! rs := gather l in Ok (Mat M N (concat rs)).
Definition res_at (p : list R) : res analysis := let! m := mat_at p in metricAnalysis m std.
Definition keeps (p : list R) (r : analysis) (s : memo) : Prop :=
  m_pars s = Some p /\ m_suf s = Some (an_suf r) /\ m_Q s = Some (dsqr - an_suf r) /\ m_Jac s = Some (1 / an_rdet r) /\ m_done s = Some (an_metric r, an_L r, an_proj r, an_amps r).
Definition held (s : memo) : Prop := rows (m_modvals s) = M /\ cols (m_modvals s) = N /\ shaped (m_modvals s) /\
  ((m_pars s = None /\ m_done s = None) \/ exists p r, res_at p = Ok r /\ keeps p r s).
(** The stored model values are those of the stored parameters. *)
Definition synced (s : memo) : Prop := forall p, m_pars s = Some p -> mat_at p = Ok (m_modvals s).

Lemma gather_shaped : forall p m, mat_at p = Ok m -> rows m = M /\ cols m = N /\ shaped m.
Proof.
  intros p m H. unfold mat_at in H. destruct (job p) as [l|] eqn:E; [|discriminate]. destruct (job_len p l E) as [LL GR]. destruct (gather l) as [rs|] eqn:EG; [|discriminate]. injection H as <-. split; [reflexivity|]. split; [reflexivity|].
  unfold shaped. cbn [rows cols cells]. rewrite <- LL. clear LL E. revert rs EG GR. induction l as [|x l IH]; intros rs EG GR; cbn in EG; [injection EG as <-; reflexivity|]. destruct x as [row|]; [|discriminate]. destruct (gather l) as [rs'|]; [|discriminate]. injection EG as <-. cbn [concat length]. rewrite app_length, (IH rs' eq_refl) by (intros r I; apply GR; now right). rewrite (GR row (or_introl eq_refl)). lia.
Qed.

Lemma fresh_held : held (fresh_memo M N).
Proof. repeat split; try (apply repeat_length). left. now split. Qed.
Lemma fresh_synced : synced (fresh_memo M N).
Proof. intros p H. discriminate. Qed.

(** What a computation does to the store *)
Definition run (p : list R) (l : list (res (list R))) : memo -> memo * res unit := bind (fill l 0) (fun _ => finish true std dsqr p).
Lemma run_is : forall p l s, job p = Ok l -> held s -> exists s', held s' /\
  match res_at p with
  | Ok r => run p l s = (s', Ok tt) /\ keeps p r s' /\ synced s'
  | Err e => run p l s = (s', Err e)
  end.
Proof.
  intros p l s J [HR [HC [SH HD]]]. destruct (job_len p l J) as [LL GR]. destruct (fill_is l 0 s M N HR HC SH GR) as [m [R' [C' [S' H]]]]; [lia|].
  assert (HW : held (with_vals s m)).
  { split; [exact R'|]. split; [exact C'|]. split; [exact S'|]. destruct HD as [HD|[q [r [H1 H2]]]]; [left; exact HD|right; exists q, r; split; [exact H1|exact H2]]. }
  unfold run, bind. unfold res_at. unfold mat_at in *. rewrite J. destruct (gather l) as [rs|e] eqn:EG.
  - destruct H as [H1 H2]. rewrite H1. unfold finish. cbn [m_modvals with_vals].
    assert (EM : m = Mat M N (concat rs)).
    { destruct m as [mr mc mcells]. cbn in R', C', H2. subst mr mc. f_equal. rewrite H2. cbn [Nat.mul firstn app Nat.add]. rewrite skipn_all2; [now rewrite app_nil_r|]. unfold shaped in SH. rewrite SH, HR, HC, LL. lia. }
    rewrite <- EM. destruct (metricAnalysis m std) as [r|e] eqn:EA; [|exists (with_vals s m); split; [exact HW|reflexivity]].
    destruct (analysis_analysed m std r S' EA) as [_ AN]. pose proof (rdet_pos m std r AN) as RP.
    assert (RZ : Reqb (an_rdet r) 0 = false). { destruct (Reqb (an_rdet r) 0) eqn:E; [|reflexivity]. apply Reqb_spec in E. lra. }
    rewrite RZ. eexists. split; [|split; [reflexivity|split]].
    + split; [exact R'|]. split; [exact C'|]. split; [exact S'|]. right. exists p, r. split; [unfold res_at, mat_at; rewrite J, EG, <- EM; exact EA|]. now repeat split.
    + now repeat split.
    + intros q Q. cbn in Q. injection Q as <-. cbn [m_modvals]. unfold mat_at. now rewrite J, EG, <- EM.
  - rewrite H. exists (with_vals s m). split; [exact HW|reflexivity].
Qed.
Lemma held_hit : forall p s, held s -> is_pars p (m_pars s) = true -> exists r, res_at p = Ok r /\ keeps p r s.
Proof.
  intros p s [_ [_ [_ HD]]] I. apply is_pars_eq in I. destruct HD as [[H _]|[q [r [H1 H2]]]]; [congruence|]. assert (q = p) by (destruct H2 as [H2 _]; congruence). subst q. now exists r.
Qed.
End Store.

(** ** BA *)
Section BA.
Variable U : Type.
Lemma fill_rows_fill : forall basis p absc aux sigs a s, fill_rows U basis p absc aux sigs a s = fill (map (fun g : list R -> list R -> option U -> res bval => let! v := g p absc aux in over_sigs v sigs) basis) a s.
Proof.
  induction basis as [|g basis IH]; intros p absc aux sigs a s; [reflexivity|]. cbn [fill_rows map]. unfold bind, lift. destruct (g p absc aux) as [v|e]; [|reflexivity]. destruct (over_sigs v sigs) as [row|e]; [|reflexivity]. cbn [fill]. unfold bind, modify. apply IH.
Qed.
Lemma broadcast_len : forall n v l, broadcast n v = Ok l -> length l = n.
Proof.
  intros n [r|l0] l H; cbn in H; [injection H as <-; apply repeat_length|]. destruct (Nat.eqb_spec (length l0) n) as [E|E]; [injection H as <-; exact E|]. destruct l0 as [|r [|]]; try discriminate. injection H as <-. apply repeat_length.
Qed.
Lemma over_sigs_len : forall v sigs l, over_sigs v sigs = Ok l -> length l = length sigs.
Proof.
  intros v sigs l H. unfold over_sigs in H. destruct (broadcast (length sigs) v) as [l0|] eqn:E; [|discriminate]. injection H as <-. rewrite map_length, combine_length. rewrite (broadcast_len _ _ _ E). lia.
Qed.

Definition ba_aux (o : ba U) (p : list R) : res (option U) := match ba_setup U o with None => Ok None | Some f => let! u := f p (ba_absc U o) in Ok (Some u) end.
Definition ba_job (o : ba U) (p : list R) : res (list (res (list R))) :=
  let! aux := ba_aux o p in Ok (map (fun g : list R -> list R -> option U -> res bval => let! v := g p (ba_absc U o) aux in over_sigs v (ba_sigs U o)) (ba_basis U o)).
Definition like (o o' : ba U) : Prop := ba_basis U o' = ba_basis U o /\ ba_absc U o' = ba_absc U o /\ ba_sigs U o' = ba_sigs U o /\ ba_setup U o' = ba_setup U o /\ ba_std U o' = ba_std U o /\ ba_dsqr U o' = ba_dsqr U o.
Lemma like_refl : forall o, like o o.
Proof. repeat split. Qed.
Lemma like_trans : forall o1 o2 o3, like o1 o2 -> like o2 o3 -> like o1 o3.
Proof. intros o1 o2 o3 [A1 [A2 [A3 [A4 [A5 A6]]]]] [B1 [B2 [B3 [B4 [B5 B6]]]]]. repeat split; congruence. Qed.
Lemma like_job : forall o o' p, like o o' -> ba_job o' p = ba_job o p.
Proof. intros o o' p [A1 [A2 [A3 [A4 [A5 A6]]]]]. unfold ba_job, ba_aux. now rewrite A1, A2, A3, A4. Qed.

Variable o0 : ba U.
Let M := length (ba_basis U o0).
Let N := length (ba_std U o0).
Hypothesis sigs_len : length (ba_sigs U o0) = N.
Lemma job_ok : forall p l, ba_job o0 p = Ok l -> length l = M /\ good_rows N l.
Proof.
  intros p l H. unfold ba_job in H. destruct (ba_aux o0 p) as [aux|]; [|discriminate]. injection H as <-. split; [apply map_length|].
  intros row I. apply in_map_iff in I. destruct I as [g [E _]]. destruct (g p (ba_absc U o0) aux) as [v|]; [|discriminate]. rewrite <- sigs_len. now apply (over_sigs_len v).
Qed.
Definition ba_at (p : list R) : res analysis := res_at M N (ba_std U o0) (ba_job o0) p.
Definition good (o : ba U) : Prop := like o0 o /\ held M N (ba_std U o0) (ba_dsqr U o0) (ba_job o0) (ba_memo U o).
Definition keep (p : list R) (r : analysis) (o : ba U) : Prop := keeps (ba_dsqr U o0) p r (ba_memo U o).
Definition sync (o : ba U) : Prop := synced M N (ba_job o0) (ba_memo U o).

Lemma calc_is : forall p o, good o -> exists o', good o' /\
  match ba_at p with
  | Ok r => calc_marg_stats true U p o = (o', Ok tt) /\ keep p r o' /\ (sync o -> sync o')
  | Err e => calc_marg_stats true U p o = (o', Err e)
  end.
Proof.
  intros p o [LK HO]. unfold calc_marg_stats. destruct (is_pars p (m_pars (ba_memo U o))) eqn:I.
  - destruct (held_hit _ _ _ _ _ p _ HO I) as [r [H1 H2]]. exists o. split; [now split|]. unfold ba_at. rewrite H1. split; [reflexivity|]. split; [exact H2|]. trivial.
  - fold (ba_aux o p). assert (AX : ba_aux o p = ba_aux o0 p) by (unfold ba_aux; destruct LK as [_ [A2 [_ [A4 _]]]]; now rewrite A2, A4). rewrite AX.
    destruct (ba_aux o0 p) as [aux|e] eqn:EA.
    + assert (J : ba_job o0 p = Ok (map (fun g : list R -> list R -> option U -> res bval => let! v := g p (ba_absc U o0) aux in over_sigs v (ba_sigs U o0)) (ba_basis U o0))) by (unfold ba_job; now rewrite EA).
      destruct (run_is M N (ba_std U o0) (ba_dsqr U o0) (ba_job o0) eq_refl job_ok p _ _ J HO) as [s' [HS H]].
      destruct LK as [A1 [A2 [A3 [A4 [A5 A6]]]]]. unfold on_memo.
      assert (E : bind (fill_rows U (ba_basis U o) p (ba_absc U o) aux (ba_sigs U o) 0) (fun _ => finish true (ba_std U o) (ba_dsqr U o) p) (ba_memo U o) =
                  run (ba_std U o0) (ba_dsqr U o0) p (map (fun g : list R -> list R -> option U -> res bval => let! v := g p (ba_absc U o0) aux in over_sigs v (ba_sigs U o0)) (ba_basis U o0)) (ba_memo U o)).
      { unfold run, bind. rewrite fill_rows_fill. now rewrite A1, A2, A3, A5, A6. }
      rewrite E. exists (Ba U (ba_basis U o) (ba_absc U o) (ba_sigs U o) (ba_setup U o) (ba_std U o) (ba_dsqr U o) s'). split; [split; [now repeat split|exact HS]|].
      unfold ba_at. destruct (res_at M N (ba_std U o0) (ba_job o0) p) as [r|e].
      * destruct H as [-> [H1 H2]]. split; [reflexivity|]. split; [exact H1|]. intros _. exact H2.
      * rewrite H. reflexivity.
    + exists o. split; [now split|]. unfold ba_at, res_at, mat_at, ba_job. rewrite EA. reflexivity.
Qed.

Lemma marg_is : forall p o, good o -> exists o', good o' /\
  match ba_at p with
  | Ok r => marg_stats true U p o = (o', Ok (Some (ba_dsqr U o0 - an_suf r), Some (an_suf r), Some (1 / an_rdet r))) /\ keep p r o' /\ (sync o -> sync o')
  | Err e => marg_stats true U p o = (o', Err e)
  end.
Proof.
  intros p o G. destruct (calc_is p o G) as [o' [G' H]]. exists o'. split; [exact G'|]. unfold marg_stats, bind. destruct (ba_at p) as [r|e].
  - destruct H as [-> [K S]]. unfold get, ret. destruct K as [K1 [K2 [K3 [K4 K5]]]] eqn:EK. rewrite K2, K3, K4. now repeat split.
  - now rewrite H.
Qed.
Lemma update_is : forall p o, good o -> p <> [] -> exists o', good o' /\
  match ba_at p with
  | Ok r => update true U p o = (o', Ok tt) /\ keep p r o' /\ (sync o -> sync o')
  | Err e => update true U p o = (o', Err e)
  end.
Proof.
  intros p o G NE. unfold update. destruct p as [|x p]; [now elim NE|]. destruct (is_pars (x :: p) (m_pars (ba_memo U o))) eqn:I.
  - cbn [negb]. destruct (held_hit _ _ _ _ _ _ _ (proj2 G) I) as [r [H1 H2]]. exists o. split; [exact G|]. unfold ba_at. rewrite H1. split; [reflexivity|]. split; [exact H2|]. trivial.
  - cbn [negb]. now apply calc_is.
Qed.
Lemma ampl_is : forall p o, good o -> p <> [] -> exists o', good o' /\
  match ba_at p with
  | Ok r => amplitudes true U p o = (o', Ok (an_amps r)) /\ (sync o -> sync o')
  | Err e => amplitudes true U p o = (o', Err e)
  end.
Proof.
  intros p o G NE. destruct (update_is p o G NE) as [o' [G' H]]. exists o'. split; [exact G'|]. unfold amplitudes, bind. destruct (ba_at p) as [r|e].
  - destruct H as [-> [K S]]. unfold get, ret. destruct K as [K1 [K2 [K3 [K4 K5]]]]. rewrite K5. now split.
  - now rewrite H.
Qed.
Lemma resid_is : forall p o, good o -> p <> [] -> exists o', good o' /\
  match ba_at p with
  | Ok r => (exists l, residuals true U p o = (o', Ok l) /\ (sync o -> exists m, mat_at M N (ba_job o0) p = Ok m /\ l = minus (ba_std U o0) (weighted_rows (an_amps r) m))) /\ (sync o -> sync o')
  | Err e => residuals true U p o = (o', Err e)
  end.
Proof.
  intros p o G NE. destruct (update_is p o G NE) as [o' [G' H]]. exists o'. split; [exact G'|]. unfold residuals, bind. destruct (ba_at p) as [r|e].
  - destruct H as [-> [K S]]. unfold get, ret. destruct K as [K1 [K2 [K3 [K4 K5]]]]. rewrite K5. split; [|exact S]. eexists. split; [reflexivity|]. intro SY. exists (m_modvals (ba_memo U o')). split; [apply (S SY p K1)|].
    destruct G' as [[_ [_ [_ [_ [A5 _]]]]] _]. now rewrite A5.
  - now rewrite H.
Qed.
(** With no parameters nothing is computed. *)
Lemma update_nil : forall o, update true U [] o = (o, Ok tt).
Proof. reflexivity. Qed.

Lemma call_good : forall c o, good o -> good (fst (call_ba c o)).
Proof.
  intros [p|p|p|] o G; unfold call_ba; cbn [call_with]; unfold outcome; cbn [fst].
  - destruct (marg_is p o G) as [o' [G' H]]. destruct (ba_at p); [destruct H as [-> _]|rewrite H]; exact G'.
  - destruct p as [|x p]; [|destruct (ampl_is (x :: p) o G ltac:(discriminate)) as [o' [G' H]]; destruct (ba_at (x :: p)); [destruct H as [-> _]|rewrite H]; exact G'].
    unfold amplitudes, bind. rewrite update_nil. unfold get. destruct (m_done (ba_memo U o)) as [[[[? ?] ?] ?]|]; exact G.
  - destruct p as [|x p]; [|destruct (resid_is (x :: p) o G ltac:(discriminate)) as [o' [G' H]]; destruct (ba_at (x :: p)); [destruct H as [[l [-> _]] _]|rewrite H]; exact G'].
    unfold residuals, bind. rewrite update_nil. unfold get. destruct (m_done (ba_memo U o)) as [[[[? ?] ?] ?]|]; exact G.
  - unfold ba_covar. destruct (m_pars (ba_memo U o)); [|exact G]. destruct (m_done (ba_memo U o)) as [[[[? ?] ?] ?]|]; exact G.
Qed.
Lemma call_sync : forall c o, good o -> sync o -> snd (call_ba c o) = true -> sync (fst (call_ba c o)).
Proof.
  intros [p|p|p|] o G S; unfold call_ba; cbn [call_with]; unfold outcome; cbn [fst snd].
  - destruct (marg_is p o G) as [o' [G' H]]. destruct (ba_at p); [destruct H as [-> [_ H]]|rewrite H; discriminate]. intros _. exact (H S).
  - destruct p as [|x p]; [|destruct (ampl_is (x :: p) o G ltac:(discriminate)) as [o' [G' H]]; destruct (ba_at (x :: p)); [destruct H as [-> H]; intros _; exact (H S)|rewrite H; discriminate]].
    unfold amplitudes, bind. rewrite update_nil. unfold get. destruct (m_done (ba_memo U o)) as [[[[? ?] ?] ?]|]; intros _; exact S.
  - destruct p as [|x p]; [|destruct (resid_is (x :: p) o G ltac:(discriminate)) as [o' [G' H]]; destruct (ba_at (x :: p)); [destruct H as [[l [-> _]] H]; intros _; exact (H S)|rewrite H; discriminate]].
    unfold residuals, bind. rewrite update_nil. unfold get. destruct (m_done (ba_memo U o)) as [[[[? ?] ?] ?]|]; intros _; exact S.
  - unfold ba_covar. destruct (m_pars (ba_memo U o)); [|discriminate]. destruct (m_done (ba_memo U o)) as [[[[? ?] ?] ?]|]; intros _; exact S.
Qed.
Lemma calls_good : forall cs o, good o -> good (after_calls cs o).
Proof. induction cs as [|c cs IH]; intros o G; [exact G|]. cbn. apply IH. now apply call_good. Qed.
Lemma calls_sync : forall cs o, good o -> sync o -> all_succeed cs o = true -> sync (after_calls cs o).
Proof.
  induction cs as [|c cs IH]; intros o G S H; [exact S|]. cbn [all_succeed] in H. apply andb_prop in H. destruct H as [H1 H2]. cbn. apply IH; [now apply call_good|now apply call_sync|exact H2].
Qed.
End BA.

Lemma new_ba_good : forall U basis data ncol sigma setup o0, new_ba U basis data ncol sigma setup = Ok o0 ->
  length (ba_sigs U o0) = length (ba_std U o0) /\ good U o0 o0 /\ sync U o0 o0.
Proof.
  intros U basis data ncol sigma setup o0 H. unfold new_ba in H. destruct (Nat.ltb ncol 2); [discriminate|].
  assert (E : exists sigs, length sigs = length data /\ o0 = Ba U basis (map (fun r => nth 0 r 0) data) sigs setup (map (fun xs => fst xs / snd xs) (combine (map (fun r => nth 1 r 0) data) sigs))
      (square_sum (map (fun xs => fst xs / snd xs) (combine (map (fun r => nth 1 r 0) data) sigs))) (fresh_memo (length basis) (length data))).
  { destruct sigma as [s|].
    - destruct (negb (Nat.eqb ncol 2)); [discriminate|]. injection H as <-. eexists. split; [|reflexivity]. apply repeat_length.
    - destruct (Nat.eqb ncol 3); [|discriminate]. injection H as <-. eexists. split; [|reflexivity]. apply map_length. }
  destruct E as [sigs [LS ->]]. assert (LN : length (map (fun xs => fst xs / snd xs) (combine (map (fun r : list R => nth 1 r 0) data) sigs)) = length data) by (rewrite map_length, combine_length, map_length; lia).
  cbn [ba_sigs ba_std]. rewrite LN. split; [exact LS|]. split.
  - split; [apply like_refl|]. cbn [ba_basis ba_std ba_memo ba_dsqr]. rewrite LN. apply fresh_held.
  - unfold sync. cbn [ba_basis ba_std ba_memo]. rewrite LN. apply fresh_synced.
Qed.

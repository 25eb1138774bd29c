From Coq Require Import List Bool Arith Reals Lia Lra Psatz.
From Verif Require Import Exn Instances McModel CountSpec CountLemmas BaModel BaSpec BaLemmas BaLemmas2 BaLemmas3 BaLemmas4 BaLemmas5.
Import ListNotations.
Open Scope R_scope.

(** ** Results do not depend on the calls before *)
Section Histories.
Variable U : Type.
Variables (basis : list (list R -> list R -> option U -> res bval)) (data : list (list R)) (ncol : nat) (sigma : option R) (setup : option (list R -> list R -> res U)).
Variable o0 : ba U.
Hypothesis made : new_ba U basis data ncol sigma setup = Ok o0.

Lemma marg_after : forall cs p, snd (marg_stats true U p (after_calls cs o0)) = snd (marg_stats true U p o0).
Proof.
  intros cs p. destruct (new_ba_good U basis data ncol sigma setup o0 made) as [LS [G S]].
  destruct (marg_is U o0 LS p o0 G) as [o1 [_ H1]]. destruct (marg_is U o0 LS p _ (calls_good U o0 LS cs o0 G)) as [o2 [_ H2]].
  destruct (ba_at U o0 p); [destruct H1 as [-> _]; destruct H2 as [-> _]|rewrite H1, H2]; reflexivity.
Qed.
Lemma ampl_after : forall cs p, p <> [] -> snd (amplitudes true U p (after_calls cs o0)) = snd (amplitudes true U p o0).
Proof.
  intros cs p NE. destruct (new_ba_good U basis data ncol sigma setup o0 made) as [LS [G S]].
  destruct (ampl_is U o0 LS p o0 G NE) as [o1 [_ H1]]. destruct (ampl_is U o0 LS p _ (calls_good U o0 LS cs o0 G) NE) as [o2 [_ H2]].
  destruct (ba_at U o0 p); [destruct H1 as [-> _]; destruct H2 as [-> _]|rewrite H1, H2]; reflexivity.
Qed.
Lemma resid_after : forall cs p, p <> [] -> all_succeed cs o0 = true -> snd (residuals true U p (after_calls cs o0)) = snd (residuals true U p o0).
Proof.
  intros cs p NE AS. destruct (new_ba_good U basis data ncol sigma setup o0 made) as [LS [G S]].
  destruct (resid_is U o0 LS p o0 G NE) as [o1 [_ H1]]. destruct (resid_is U o0 LS p _ (calls_good U o0 LS cs o0 G) NE) as [o2 [_ H2]].
  destruct (ba_at U o0 p); [|rewrite H1, H2; reflexivity]. destruct H1 as [[l1 [-> E1]] _]. destruct H2 as [[l2 [-> E2]] _]. cbn [snd]. f_equal.
  destruct (E1 S) as [m1 [F1 ->]]. destruct (E2 (calls_sync U o0 LS cs o0 G S AS)) as [m2 [F2 ->]]. congruence.
Qed.
(** covar() is for the parameters of the last successful computation. *)
Lemma covar_after : forall cs o, o = after_calls cs o0 ->
  (snd (ba_covar true U o) = Err ValueError) \/
  exists p r, snd (marg_stats true U p o0) = Ok (Some (ba_dsqr U o0 - an_suf r), Some (an_suf r), Some (1 / an_rdet r)) /\ m_pars (ba_memo U o) = Some p /\ snd (ba_covar true U o) = covar (an_L r).
Proof.
  intros cs o ->. destruct (new_ba_good U basis data ncol sigma setup o0 made) as [LS [G S]]. pose proof (calls_good U o0 LS cs o0 G) as [_ [_ [_ [_ [[H1 H2]|[p [r [H1 H2]]]]]]]].
  - left. unfold ba_covar. now rewrite H1.
  - right. exists p, r. destruct H2 as [K1 [_ [_ [_ K5]]]]. split; [|split; [exact K1|unfold ba_covar; now rewrite K1, K5]].
    destruct (marg_is U o0 LS p o0 G) as [o1 [_ H3]]. unfold ba_at in H3. rewrite H1 in H3. destruct H3 as [-> _]. reflexivity.
Qed.

(** ** What the results are *)
Lemma made_is : exists sigs, o0 = Ba U basis (map (fun r => nth 0 r 0) data) sigs setup (std_of sigma data) (square_sum (std_of sigma data)) (fresh_memo (length basis) (length data)) /\
  length sigs = length data /\ forall i, (i < length data)%nat -> nth i sigs 0 = sig_of sigma (nth i data []).
Proof.
  pose proof made as H. unfold new_ba in H. destruct (Nat.ltb ncol 2); [discriminate|].
  assert (ST : forall sigs, (length sigs = length data) -> (forall i, (i < length data)%nat -> nth i sigs 0 = sig_of sigma (nth i data [])) -> map (fun xs => fst xs / snd xs) (combine (map (fun r : list R => nth 1 r 0) data) sigs) = std_of sigma data).
  { clear. induction data as [|row l IH]; intros sigs L E; [reflexivity|]. destruct sigs as [|s sigs]; [discriminate|]. unfold std_of. cbn [map combine fst snd]. f_equal.
    - pose proof (E 0%nat ltac:(cbn; lia)) as E0. cbn [nth] in E0. now rewrite E0.
    - apply IH; [now injection L|]. intros i I. apply (E (S i)). cbn. lia. }
  destruct sigma as [s|] eqn:ES.
  - destruct (negb (Nat.eqb ncol 2)); [discriminate|]. injection H as H. exists (repeat s (length data)). assert (L : length (repeat s (length data)) = length data) by apply repeat_length.
    assert (E : forall i, (i < length data)%nat -> nth i (repeat s (length data)) 0 = sig_of (Some s) (nth i data [])) by (intros i I; cbn; now apply nth_rd, rd_repeat).
    rewrite <- H. rewrite (ST _ L E). now repeat split.
  - destruct (Nat.eqb ncol 3); [|discriminate]. injection H as H. exists (map (fun r => nth 2 r 0) data). assert (L : length (map (fun r : list R => nth 2 r 0) data) = length data) by apply map_length.
    assert (E : forall i, (i < length data)%nat -> nth i (map (fun r => nth 2 r 0) data) 0 = sig_of None (nth i data [])).
    { intros i I. cbn. rewrite (nth_indep _ 0 (nth 2 (@nil R) 0)) by (rewrite map_length; exact I). now rewrite (map_nth (fun r : list R => nth 2 r 0)). }
    rewrite <- H. rewrite (ST _ L E). now repeat split.
Qed.
Lemma square_sum_is : forall l, square_sum l = sum_over 0 (length l) (fun i => nth i l 0 ^ 2).
Proof.
  induction l as [|x l IH]; [reflexivity|]. unfold square_sum in *. cbn [map fold_right length]. rewrite so_front, IH. cbn [nth]. rewrite so_shift. cbn [nth]. ring.
Qed.

Lemma over_sigs_is : forall v sigs, covers v (length sigs) -> exists l, over_sigs v sigs = Ok l /\ length l = length sigs /\ forall i, (i < length sigs)%nat -> nth i l 0 = value_at v i / nth i sigs 0.
Proof.
  intros v sigs C. unfold over_sigs.
  assert (B : exists l, broadcast (length sigs) v = Ok l /\ length l = length sigs /\ forall i, (i < length sigs)%nat -> nth i l 0 = value_at v i).
  { destruct v as [r|l]; cbn in *.
    - eexists. split; [reflexivity|]. split; [apply repeat_length|]. intros i I. now apply nth_rd, rd_repeat.
    - rewrite C, Nat.eqb_refl. eexists. split; [reflexivity|]. split; [exact C|]. reflexivity. }
  destruct B as [l [-> [L H]]]. eexists. split; [reflexivity|]. split; [rewrite map_length, combine_length; lia|].
  intros i I. rewrite <- H by exact I. clear H C. revert l L i I. induction sigs as [|s sigs IH]; intros l L i I; [cbn in I; lia|]. destruct l as [|x l]; [discriminate|]. destruct i as [|i]; [reflexivity|]. cbn [combine map nth]. apply IH; [now injection L|cbn in I; lia].
Qed.
(** A list of rows is the matrix with these elements. *)
Lemma concat_entry : forall (rs : list (list R)) n a i, (forall r, In r rs -> length r = n) -> (a < length rs)%nat -> (i < n)%nat -> nth (a * n + i) (concat rs) 0 = nth i (nth a rs []) 0.
Proof.
  induction rs as [|r rs IH]; intros n a i H A I; [cbn in A; lia|]. cbn [concat]. pose proof (H r (or_introl eq_refl)) as L. destruct a as [|a].
  - cbn [Nat.mul Nat.add nth]. now rewrite app_nth1 by lia.
  - rewrite app_nth2 by nia. cbn [nth]. rewrite <- (IH n a i) by (try (cbn in A; lia); intros; apply H; now right). f_equal. rewrite L. nia.
Qed.
Lemma mat_same : forall (A B : mat), rows A = rows B -> cols A = cols B -> shaped A -> shaped B -> (forall i j, (i < rows A)%nat -> (j < cols A)%nat -> entry A i j = entry B i j) -> A = B.
Proof.
  intros [ra ca la] [rb cb lb] R C SA SB H. unfold shaped, entry in *. cbn [rows cols cells] in *. subst rb cb. f_equal. apply (nth_ext _ _ 0 0); [congruence|]. intros k K. rewrite SA in K. assert (NZ : ca <> 0%nat) by nia.
  pose proof (Nat.div_mod k ca NZ) as E. pose proof (Nat.mod_upper_bound k ca NZ) as B. assert (D : (k / ca < ra)%nat) by (apply Nat.div_lt_upper_bound; lia).
  pose proof (H (k / ca)%nat (k mod ca)%nat D B) as HH. replace (k / ca * ca + k mod ca)%nat with k in HH by lia. exact HH.
Qed.

Lemma gather_map : forall (T : Type) (f : T -> res (list R)) (l : list T) (d : list R), (forall g, In g l -> exists r, f g = Ok r) ->
  exists rs, gather (map f l) = Ok rs /\ length rs = length l /\ forall a g, nth_error l a = Some g -> f g = Ok (nth a rs d).
Proof.
  intros T f l d. induction l as [|g l IH]; intro H; [exists []; split; [reflexivity|]; split; [reflexivity|]; intros [|a] g E; discriminate|].
  destruct (H g (or_introl eq_refl)) as [r E]. destruct IH as [rs [E2 [L2 H2]]]; [intros g' I; apply H; now right|]. exists (r :: rs). cbn [map gather]. rewrite E, E2. split; [reflexivity|]. split; [cbn; now rewrite L2|].
  intros [|a] g' N; cbn in N; [injection N as <-; exact E|]. cbn [nth]. now apply H2.
Qed.

Lemma std_len : length (std_of sigma data) = length data.
Proof. apply map_length. Qed.
Lemma design_mat : forall p G, design basis setup data sigma p G -> mat_at (length (ba_basis U o0)) (length (ba_std U o0)) (ba_job U o0) p = Ok G.
Proof.
  intros p G [RG [CG [SG [aux [HA HB]]]]]. destruct made_is as [sigs [EO [LS HS]]]. unfold mat_at, ba_job, ba_aux. rewrite EO. cbn [ba_basis ba_std ba_setup ba_absc ba_sigs].
  assert (EA : match setup with None => Ok None | Some f => let! u := f p (map (fun row => nth 0 row 0) data) in Ok (Some u) end = Ok aux).
  { destruct setup as [f|]; [destruct HA as [u [-> ->]]; reflexivity|now rewrite HA]. }
  rewrite EA. set (h := fun g : list R -> list R -> option U -> res bval => let! v := g p (map (fun r => nth 0 r 0) data) aux in over_sigs v sigs).
  destruct (gather_map _ h basis []) as [rs [-> [LR HR]]].
  { intros g I. destruct (In_nth_error _ _ I) as [a Ha]. destruct (HB a g Ha) as [v [E [C _]]]. rewrite <- LS in C. destruct (over_sigs_is v sigs C) as [l [E2 _]]. exists l. unfold h. now rewrite E. }
  f_equal.
  assert (RL : forall r, In r rs -> length r = length data).
  { intros r I. destruct (In_nth rs r [] I) as [a [Ha <-]]. destruct (nth_error basis a) as [g|] eqn:EN; [|apply nth_error_None in EN; lia]. pose proof (HR a g EN) as E. unfold h in E. destruct (HB a g EN) as [v [E1 [C _]]]. rewrite E1 in E. rewrite <- LS. now apply (over_sigs_len v sigs). }
  assert (LC : forall l : list (list R), (forall r, In r l -> length r = length data) -> length (concat l) = (length l * length data)%nat).
  { induction l as [|r l IH]; intro H; [reflexivity|]. cbn [concat length]. rewrite app_length, IH by (intros; apply H; now right). rewrite (H r (or_introl eq_refl)). lia. }
  apply mat_same; cbn [rows cols]; rewrite ?std_len.
  - now rewrite RG.
  - now rewrite CG.
  - unfold shaped. cbn [rows cols cells]. rewrite ?std_len. rewrite (LC rs RL). now rewrite LR.
  - exact SG.
  - intros a i A I. unfold entry at 1. cbn [cols cells]. rewrite ?std_len. rewrite concat_entry by (try assumption; lia).
    destruct (nth_error basis a) as [g|] eqn:EN; [|apply nth_error_None in EN; lia]. destruct (HB a g EN) as [v [E1 [C E2]]]. rewrite E2 by exact I. rewrite <- HS by exact I. pose proof (HR a g EN) as E. unfold h in E. rewrite E1 in E.
    rewrite <- LS in C. destruct (over_sigs_is v sigs C) as [l [E3 [_ E4]]]. rewrite E3 in E. injection E as ->. apply E4. lia.
Qed.

Lemma nth_minus : forall (l m : list R) i, length l = length m -> (i < length l)%nat -> nth i (minus l m) 0 = nth i l 0 - nth i m 0.
Proof.
  induction l as [|x l IH]; intros [|y m] i L I; try discriminate; [cbn in I; lia|]. destruct i as [|i]; [reflexivity|]. cbn. apply IH; [now injection L|cbn in I; lia].
Qed.
Lemma sum_map_seq : forall n f a, fold_right Rplus 0 (map f (seq a n)) = sum_over a n f.
Proof. induction n as [|n IH]; intros f a; [reflexivity|]. cbn [seq map fold_right]. now rewrite IH, so_front. Qed.
Lemma weighted_is : forall ampl m i, (i < cols m)%nat -> nth i (weighted_rows ampl m) 0 = sum_over 0 (rows m) (fun a => nth a ampl 0 * entry m a i).
Proof.
  intros ampl m i I. unfold weighted_rows. set (f := fun j => fold_right Rplus 0 (map (fun a => nth a ampl 0 * nth (a * cols m + j) (cells m) 0) (seq 0 (rows m)))).
  rewrite (nth_indep _ 0 (f 0%nat)) by (rewrite map_length, seq_length; exact I). rewrite map_nth. rewrite seq_nth by exact I. cbn [Nat.add]. unfold f. now rewrite sum_map_seq.
Qed.

Definition results_ok (cs : list call) (p : list R) (G : mat) : Prop :=
  exists Q S J A L,
    snd (marg_stats true U p (after_calls cs o0)) = Ok (Some Q, Some S, Some J) /\
    (p <> [] -> snd (amplitudes true U p (after_calls cs o0)) = Ok A) /\
    length A = rows G /\ Q = misfit G (std_of sigma data) (fun a => nth a A 0) /\
    (forall x, Q <= misfit G (std_of sigma data) x) /\
    (forall x, misfit G (std_of sigma data) x = Q -> forall a, (a < rows G)%nat -> x a = nth a A 0) /\
    Q + S = sum_over 0 (length data) (fun i => nth i (std_of sigma data) 0 ^ 2) /\
    (forall i j, (i < j)%nat -> (j < rows G)%nat -> L i j = 0) /\ (forall i, (i < rows G)%nat -> 0 < L i i) /\
    (forall a b, (a < rows G)%nat -> (b < rows G)%nat -> product (rows G) L (transpose L) a b = sum_over 0 (cols G) (fun i => entry G a i * entry G b i)) /\
    J = 1 / prod_over (rows G) (fun i => L i i) /\
    (p <> [] -> all_succeed cs o0 = true -> exists l, snd (residuals true U p (after_calls cs o0)) = Ok l /\ length l = length data /\
       forall i, (i < length data)%nat -> nth i l 0 = nth i (std_of sigma data) 0 - sum_over 0 (rows G) (fun a => nth a A 0 * entry G a i)).
Lemma results : forall cs p G, design basis setup data sigma p G -> independent G -> results_ok cs p G.
Proof.
  intros cs p G DG IN. destruct (new_ba_good U basis data ncol sigma setup o0 made) as [LS [GD SY]]. pose proof (design_mat p G DG) as MA. destruct made_is as [sigs [EO [LSG HS]]].
  assert (ST : ba_std U o0 = std_of sigma data) by now rewrite EO.
  assert (DQ : ba_dsqr U o0 = sum_over 0 (length data) (fun i => nth i (std_of sigma data) 0 ^ 2)) by (rewrite EO; cbn [ba_dsqr]; now rewrite square_sum_is, std_len).
  destruct DG as [RG [CG [SG _]]].
  destruct (analysis_ok G (std_of sigma data) SG ltac:(now rewrite std_len, CG) IN) as [r [ER AN]].
  assert (AT : ba_at U o0 p = Ok r) by (unfold ba_at, res_at; rewrite MA, ST; exact ER).
  destruct (misfit_min G _ r AN) as [M1 [M2 M3]]. rewrite CG in M1.
  pose proof (calls_good U o0 LS cs o0 GD) as GC.
  exists (ba_dsqr U o0 - an_suf r), (an_suf r), (1 / an_rdet r), (an_amps r), (entry (an_L r)).
  split; [destruct (marg_is U o0 LS p _ GC) as [o1 [_ H]]; rewrite AT in H; destruct H as [-> _]; reflexivity|].
  split; [intro NE; destruct (ampl_is U o0 LS p _ GC NE) as [o1 [_ H]]; rewrite AT in H; destruct H as [-> _]; reflexivity|].
  split; [exact (z_alen _ _ _ AN)|]. split; [rewrite DQ, M1; reflexivity|]. split; [intro x; rewrite DQ, <- M1; apply M2|]. split; [intros x E; apply M3; rewrite E, DQ, M1; reflexivity|].
  split; [rewrite DQ; ring|]. split; [exact (z_low _ _ _ AN)|]. split; [exact (z_pos _ _ _ AN)|].
  split; [intros a b A B; rewrite (z_factor _ _ _ AN a b A B); exact (z_metric_is _ _ _ AN a b A B)|]. split; [now rewrite (z_rdet _ _ _ AN)|].
  intros NE AS. destruct (resid_is U o0 LS p _ GC NE) as [o1 [_ H]]. rewrite AT in H. destruct H as [[l [-> E]] _]. exists l. split; [reflexivity|].
  destruct (E (calls_sync U o0 LS cs o0 GD SY AS)) as [m [E1 ->]]. rewrite MA in E1. injection E1 as <-.
  assert (LW : length (weighted_rows (an_amps r) G) = length data) by (unfold weighted_rows; rewrite map_length, seq_length; exact CG).
  split; [unfold minus; rewrite map_length, combine_length, LW, ST, std_len; lia|].
  intros i I. rewrite nth_minus by (rewrite ?LW, ST, std_len; auto). rewrite weighted_is by (rewrite CG; exact I). now rewrite ST.
Qed.
End Histories.

(** ** BAObj *)
Section Obj.
Variable O : Type.
Variable set_nonlin : list R -> O -> O * res unit.
Variable std_basis : list (O -> res bval).
Variable std_smpls : list R.
Hypothesis settled : settles O set_nonlin std_basis.
Variable obj0 : O.
Let M := length std_basis.
Let N := length std_smpls.
Let d0 := square_sum std_smpls.
Lemma fill_rows_o_fill : forall basis obj a s, fill_rows_o O std_smpls basis obj a s = fill (map (fun g : O -> res bval => let! v := g obj in broadcast N v) basis) a s.
Proof.
  induction basis as [|g basis IH]; intros obj a s; [reflexivity|]. cbn [fill_rows_o map]. unfold bind, lift. destruct (g obj) as [v|e]; [|reflexivity]. fold N. destruct (broadcast N v) as [row|e]; [|reflexivity]. cbn [fill]. unfold bind, modify. apply IH.
Qed.
Definition bo_job (p : list R) : res (list (res (list R))) :=
  match set_nonlin p obj0 with (_, Err e) => Err e | (obj, Ok _) => Ok (map (fun g : O -> res bval => let! v := g obj in broadcast N v) std_basis) end.
Lemma bo_job_ok : forall p l, bo_job p = Ok l -> length l = M /\ good_rows N l.
Proof.
  intros p l H. unfold bo_job in H. destruct (set_nonlin p obj0) as [obj [u|e]]; [|discriminate]. injection H as <-. split; [apply map_length|].
  intros row I. apply in_map_iff in I. destruct I as [g [E _]]. destruct (g obj) as [v|]; [|discriminate]. now apply (broadcast_len N v).
Qed.
Definition bo_at (p : list R) : res analysis := res_at M N std_smpls bo_job p.
Definition good_o (o : bo O) : Prop := bo_dsqr O o = d0 /\ held M N std_smpls d0 bo_job (bo_memo O o).
Definition keep_o (p : list R) (r : analysis) (o : bo O) : Prop := keeps d0 p r (bo_memo O o).
Definition sync_o (o : bo O) : Prop := synced M N bo_job (bo_memo O o).

Lemma calc_o_is : forall p o, good_o o -> exists o', good_o o' /\
  match bo_at p with
  | Ok r => calc_marg_stats_o true O set_nonlin std_basis std_smpls p o = (o', Ok tt) /\ keep_o p r o' /\ (sync_o o -> sync_o o')
  | Err e => calc_marg_stats_o true O set_nonlin std_basis std_smpls p o = (o', Err e) /\ (bo_job p = Err e -> sync_o o -> sync_o o')
  end.
Proof.
  intros p o [DQ HO]. unfold calc_marg_stats_o. destruct (is_pars p (m_pars (bo_memo O o))) eqn:I.
  - destruct (held_hit _ _ _ _ _ p _ HO I) as [r [H1 H2]]. exists o. split; [now split|]. unfold bo_at. rewrite H1. split; [reflexivity|]. split; [exact H2|]. trivial.
  - destruct (settled p obj0 (bo_obj O o)) as [E1 E2]. destruct (set_nonlin p (bo_obj O o)) as [obj1 [u|e]] eqn:S1; destruct (set_nonlin p obj0) as [obj2 [u2|e2]] eqn:S0; cbn [fst snd] in *; try discriminate.
    + assert (J : bo_job p = Ok (map (fun g : O -> res bval => let! v := g obj2 in broadcast N v) std_basis)) by (unfold bo_job; now rewrite S0).
      destruct (run_is M N std_smpls d0 bo_job eq_refl bo_job_ok p _ _ J HO) as [s' [HS H]]. unfold bind.
      assert (E : bind (fill_rows_o O std_smpls std_basis obj1 0) (fun _ => finish true std_smpls (bo_dsqr O o) p) (bo_memo O o) = run std_smpls d0 p (map (fun g : O -> res bval => let! v := g obj2 in broadcast N v) std_basis) (bo_memo O o)).
      { unfold run, bind. rewrite fill_rows_o_fill, DQ. rewrite (map_ext_in (fun g : O -> res bval => let! v := g obj1 in broadcast N v) (fun g : O -> res bval => let! v := g obj2 in broadcast N v)); [reflexivity|]. intros g G. destruct u2. now rewrite (E2 eq_refl g G). }
      unfold bind in E. rewrite E. exists (Bo O obj1 (bo_dsqr O o) s'). split; [split; [exact DQ|exact HS]|].
      unfold bo_at. destruct (res_at M N std_smpls bo_job p) as [r|e].
      * destruct H as [-> [H1 H2]]. split; [reflexivity|]. split; [exact H1|]. intros _. exact H2.
      * rewrite H. split; [reflexivity|]. rewrite J. discriminate.
    + injection E1 as ->. exists (Bo O obj1 (bo_dsqr O o) (bo_memo O o)). split; [split; [exact DQ|exact HO]|]. unfold bo_at, res_at, mat_at, bo_job. rewrite S0. split; [reflexivity|]. intros _ S. exact S.
Qed.
Lemma update_o_is : forall p o, good_o o -> p <> [] -> exists o', good_o o' /\
  match bo_at p with
  | Ok r => update_o true O set_nonlin std_basis std_smpls p o = (o', Ok tt) /\ keep_o p r o' /\ (sync_o o -> sync_o o')
  | Err e => update_o true O set_nonlin std_basis std_smpls p o = (o', Err e)
  end.
Proof.
  intros p o G NE. unfold update_o. destruct p as [|x p]; [now elim NE|]. destruct (is_pars (x :: p) (m_pars (bo_memo O o))) eqn:I.
  - cbn [negb]. destruct (held_hit _ _ _ _ _ _ _ (proj2 G) I) as [r [H1 H2]]. exists o. split; [exact G|]. unfold bo_at. rewrite H1. split; [reflexivity|]. split; [exact H2|]. trivial.
  - cbn [negb]. destruct (calc_o_is (x :: p) o G) as [o' [G' H]]. exists o'. split; [exact G'|]. destruct (bo_at (x :: p)); [exact H|exact (proj1 H)].
Qed.
Lemma marg_o_is : forall p o, good_o o -> exists o', good_o o' /\
  match bo_at p with
  | Ok r => marg_stats_o true O set_nonlin std_basis std_smpls p o = (o', Ok (Some (d0 - an_suf r), Some (an_suf r), Some (1 / an_rdet r))) /\ (sync_o o -> sync_o o')
  | Err e => marg_stats_o true O set_nonlin std_basis std_smpls p o = (o', Err e)
  end.
Proof.
  intros p o G. destruct (calc_o_is p o G) as [o' [G' H]]. exists o'. split; [exact G'|]. unfold marg_stats_o, bind. destruct (bo_at p) as [r|e].
  - destruct H as [-> [K S]]. unfold get, ret. destruct K as [K1 [K2 [K3 [K4 K5]]]] eqn:EK. rewrite K2, K3, K4. now split.
  - destruct H as [-> _]. reflexivity.
Qed.
Lemma ampl_o_is : forall p o, good_o o -> p <> [] -> exists o', good_o o' /\
  match bo_at p with
  | Ok r => amplitudes_o true O set_nonlin std_basis std_smpls p o = (o', Ok (an_amps r)) /\ (sync_o o -> sync_o o')
  | Err e => amplitudes_o true O set_nonlin std_basis std_smpls p o = (o', Err e)
  end.
Proof.
  intros p o G NE. destruct (update_o_is p o G NE) as [o' [G' H]]. exists o'. split; [exact G'|]. unfold amplitudes_o, bind. destruct (bo_at p) as [r|e].
  - destruct H as [-> [K S]]. unfold get, ret. destruct K as [K1 [K2 [K3 [K4 K5]]]]. rewrite K5. now split.
  - now rewrite H.
Qed.
Lemma resid_o_is : forall p o, good_o o -> p <> [] -> exists o', good_o o' /\
  match bo_at p with
  | Ok r => (exists l, residuals_o true O set_nonlin std_basis std_smpls p o = (o', Ok l) /\ (sync_o o -> exists m, mat_at M N bo_job p = Ok m /\ l = minus std_smpls (weighted_rows (an_amps r) m))) /\ (sync_o o -> sync_o o')
  | Err e => residuals_o true O set_nonlin std_basis std_smpls p o = (o', Err e)
  end.
Proof.
  intros p o G NE. destruct (update_o_is p o G NE) as [o' [G' H]]. exists o'. split; [exact G'|]. unfold residuals_o, bind. destruct (bo_at p) as [r|e].
  - destruct H as [-> [K S]]. unfold get, ret. destruct K as [K1 [K2 [K3 [K4 K5]]]]. rewrite K5. split; [|exact S]. eexists. split; [reflexivity|]. intro SY. exists (m_modvals (bo_memo O o')). split; [apply (S SY p K1)|reflexivity].
  - now rewrite H.
Qed.
Lemma call_good_o : forall c o, good_o o -> good_o (fst (call_bo O set_nonlin std_basis std_smpls c o)).
Proof.
  intros [[p|p|p|]|p] o G; cbn [call_bo]; unfold outcome; cbn [fst].
  - destruct (marg_o_is p o G) as [o' [G' H]]. destruct (bo_at p); [destruct H as [-> _]|rewrite H]; exact G'.
  - destruct p as [|x p]; [|destruct (ampl_o_is (x :: p) o G ltac:(discriminate)) as [o' [G' H]]; destruct (bo_at (x :: p)); [destruct H as [-> _]|rewrite H]; exact G'].
    unfold amplitudes_o, bind, update_o, get. destruct (m_done (bo_memo O o)) as [[[[? ?] ?] ?]|]; exact G.
  - destruct p as [|x p]; [|destruct (resid_o_is (x :: p) o G ltac:(discriminate)) as [o' [G' H]]; destruct (bo_at (x :: p)); [destruct H as [[l [-> _]] _]|rewrite H]; exact G'].
    unfold residuals_o, bind, update_o, get. destruct (m_done (bo_memo O o)) as [[[[? ?] ?] ?]|]; exact G.
  - unfold bo_covar. destruct (m_pars (bo_memo O o)); [|exact G]. destruct (m_done (bo_memo O o)) as [[[[? ?] ?] ?]|]; exact G.
  - destruct (set_nonlin p (bo_obj O o)) as [obj r]. exact G.
Qed.
Lemma call_sync_o : forall c o, good_o o -> sync_o o -> snd (call_bo O set_nonlin std_basis std_smpls c o) = true -> sync_o (fst (call_bo O set_nonlin std_basis std_smpls c o)).
Proof.
  intros [[p|p|p|]|p] o G S; cbn [call_bo]; unfold outcome; cbn [fst snd].
  - destruct (marg_o_is p o G) as [o' [G' H]]. destruct (bo_at p); [destruct H as [-> H]|rewrite H; discriminate]. intros _. exact (H S).
  - destruct p as [|x p]; [|destruct (ampl_o_is (x :: p) o G ltac:(discriminate)) as [o' [G' H]]; destruct (bo_at (x :: p)); [destruct H as [-> H]; intros _; exact (H S)|rewrite H; discriminate]].
    unfold amplitudes_o, bind, update_o, get. destruct (m_done (bo_memo O o)) as [[[[? ?] ?] ?]|]; intros _; exact S.
  - destruct p as [|x p]; [|destruct (resid_o_is (x :: p) o G ltac:(discriminate)) as [o' [G' H]]; destruct (bo_at (x :: p)); [destruct H as [[l [-> _]] H]; intros _; exact (H S)|rewrite H; discriminate]].
    unfold residuals_o, bind, update_o, get. destruct (m_done (bo_memo O o)) as [[[[? ?] ?] ?]|]; intros _; exact S.
  - unfold bo_covar. destruct (m_pars (bo_memo O o)); [|discriminate]. destruct (m_done (bo_memo O o)) as [[[[? ?] ?] ?]|]; intros _; exact S.
  - destruct (set_nonlin p (bo_obj O o)) as [obj r]. intros _. exact S.
Qed.
Lemma calls_good_o : forall cs o, good_o o -> good_o (after_ocalls O set_nonlin std_basis std_smpls cs o).
Proof. induction cs as [|c cs IH]; intros o G; [exact G|]. cbn. apply IH. now apply call_good_o. Qed.
Lemma calls_sync_o : forall cs o, good_o o -> sync_o o -> all_succeed_o O set_nonlin std_basis std_smpls cs o = true -> sync_o (after_ocalls O set_nonlin std_basis std_smpls cs o).
Proof.
  induction cs as [|c cs IH]; intros o G S H; [exact S|]. cbn [all_succeed_o] in H. apply andb_prop in H. destruct H as [H1 H2]. cbn. apply IH; [now apply call_good_o|now apply call_sync_o|exact H2].
Qed.
Lemma new_good_o : good_o (new_bo O std_basis std_smpls obj0) /\ sync_o (new_bo O std_basis std_smpls obj0).
Proof. split; [split; [reflexivity|apply fresh_held]|apply fresh_synced]. Qed.

Let o0 := new_bo O std_basis std_smpls obj0.
Lemma marg_after_o : forall cs p, snd (marg_stats_o true O set_nonlin std_basis std_smpls p (after_ocalls O set_nonlin std_basis std_smpls cs o0)) = snd (marg_stats_o true O set_nonlin std_basis std_smpls p o0).
Proof.
  intros cs p. destruct new_good_o as [G S]. destruct (marg_o_is p _ G) as [o1 [_ H1]]. destruct (marg_o_is p _ (calls_good_o cs _ G)) as [o2 [_ H2]]. fold o0 in H1, H2.
  destruct (bo_at p); [destruct H1 as [-> _]; destruct H2 as [-> _]|rewrite H1, H2]; reflexivity.
Qed.
Lemma ampl_after_o : forall cs p, p <> [] -> snd (amplitudes_o true O set_nonlin std_basis std_smpls p (after_ocalls O set_nonlin std_basis std_smpls cs o0)) = snd (amplitudes_o true O set_nonlin std_basis std_smpls p o0).
Proof.
  intros cs p NE. destruct new_good_o as [G S]. destruct (ampl_o_is p _ G NE) as [o1 [_ H1]]. destruct (ampl_o_is p _ (calls_good_o cs _ G) NE) as [o2 [_ H2]]. fold o0 in H1, H2.
  destruct (bo_at p); [destruct H1 as [-> _]; destruct H2 as [-> _]|rewrite H1, H2]; reflexivity.
Qed.
Lemma resid_after_o : forall cs p, p <> [] -> all_succeed_o O set_nonlin std_basis std_smpls cs o0 = true ->
  snd (residuals_o true O set_nonlin std_basis std_smpls p (after_ocalls O set_nonlin std_basis std_smpls cs o0)) = snd (residuals_o true O set_nonlin std_basis std_smpls p o0).
Proof.
  intros cs p NE AS. destruct new_good_o as [G S]. destruct (resid_o_is p _ G NE) as [o1 [_ H1]]. destruct (resid_o_is p _ (calls_good_o cs _ G) NE) as [o2 [_ H2]]. pose proof (calls_sync_o cs _ G S AS) as SC. fold o0 in H1, H2, SC, S.
  destruct (bo_at p); [|rewrite H1, H2; reflexivity]. destruct H1 as [[l1 [-> E1]] _]. destruct H2 as [[l2 [-> E2]] _]. cbn [snd]. f_equal.
  destruct (E1 S) as [m1 [F1 ->]]. destruct (E2 SC) as [m2 [F2 ->]]. congruence.
Qed.
End Obj.

(** ** Without the compiled kernel *)
Section Placeholder.
Variable U : Type.
Definition empty (o : ba U) : Prop := m_pars (ba_memo U o) = None /\ m_done (ba_memo U o) = None.
Lemma fill_rows_empty : forall basis p absc aux sigs a s, m_pars s = None /\ m_done s = None -> let s' := fst (fill_rows U basis p absc aux sigs a s) in m_pars s' = None /\ m_done s' = None.
Proof.
  induction basis as [|g basis IH]; intros p absc aux sigs a s H; [exact H|]. cbn [fill_rows]. unfold bind, lift. destruct (g p absc aux) as [v|e]; [|exact H]. destruct (over_sigs v sigs) as [row|e]; [|exact H]. unfold modify. apply IH. exact H.
Qed.
Lemma calc_empty : forall p o, empty o -> empty (fst (calc_marg_stats false U p o)) /\ exists e, snd (calc_marg_stats false U p o) = Err e.
Proof.
  intros p o [H1 H2]. unfold calc_marg_stats. rewrite H1. cbn [is_pars].
  destruct (match ba_setup U o with None => Ok None | Some f => let! u := f p (ba_absc U o) in Ok (Some u) end) as [aux|e]; [|split; [now split|now exists e]].
  unfold on_memo, bind. pose proof (fill_rows_empty (ba_basis U o) p (ba_absc U o) aux (ba_sigs U o) 0 (ba_memo U o) (conj H1 H2)) as K.
  destruct (fill_rows U (ba_basis U o) p (ba_absc U o) aux (ba_sigs U o) 0 (ba_memo U o)) as [s' [u|e]]; cbn [fst] in K.
  - unfold finish. split; [exact K|eexists; reflexivity].
  - split; [exact K|eexists; reflexivity].
Qed.
Lemma call_empty : forall c o, empty o -> empty (fst (call_with false c o)) /\ snd (call_with false c o) = false.
Proof.
  intros c o H. assert (UP : forall p, (empty (fst (update false U p o)) /\ exists e, snd (update false U p o) = Err e) \/ update false U p o = (o, Ok tt)).
  { intros p. unfold update. destruct p as [|x p]; [now right|]. rewrite (proj1 H). cbn [is_pars negb]. left. now apply calc_empty. }
  destruct c as [p|p|p|]; cbn [call_with]; unfold outcome; cbn [fst snd].
  - unfold marg_stats, bind. destruct (calc_empty p o H) as [K [e E]]. destruct (calc_marg_stats false U p o) as [o' r]. cbn [fst snd] in K, E. subst r. now split.
  - unfold amplitudes, bind. destruct (UP p) as [[K [e E]] | ->]; [destruct (update false U p o) as [o' r]; cbn [fst snd] in K, E; subst r; now split|]. unfold get. rewrite (proj2 H). now split.
  - unfold residuals, bind. destruct (UP p) as [[K [e E]] | ->]; [destruct (update false U p o) as [o' r]; cbn [fst snd] in K, E; subst r; now split|]. unfold get. rewrite (proj2 H). now split.
  - unfold ba_covar. rewrite (proj1 H). now split.
Qed.
Lemma never : forall basis data ncol sigma setup o0, new_ba U basis data ncol sigma setup = Ok o0 -> forall cs c, snd (call_with false c (fold_left (fun o c => fst (call_with false c o)) cs o0)) = false.
Proof.
  intros basis data ncol sigma setup o0 H cs c. assert (E : empty o0) by (destruct (made_is U basis data ncol sigma setup o0 H) as [sigs [-> _]]; now split).
  assert (A : forall cs o, empty o -> empty (fold_left (fun o c => fst (call_with false c o)) cs o)).
  { clear. induction cs as [|c cs IH]; intros o E; [exact E|]. cbn. apply IH. now apply call_empty. }
  now apply call_empty, A.
Qed.
End Placeholder.

(** ** covar of arrays that are not square *)
Definition safe (x : res (list R)) (k : nat) : Prop := match x with Ok l => length l = k | Err e => e = BadMemory end.
Lemma wr_safe : forall (l : list R) i v, safe (wr l i v) (length l).
Proof. intros l i v. unfold wr. destruct (Nat.ltb_spec i (length l)); [cbn; now apply upd_len|reflexivity]. Qed.
Lemma iter_safe : forall l body (s : list R) k, length s = k -> (forall i s, length s = k -> safe (body i s) k) -> safe (iter l body s) k.
Proof.
  induction l as [|i l IH]; intros body s k L H; [exact L|]. cbn [iter]. pose proof (H i s L) as S. destruct (body i s) as [s'|e]; [now apply IH|exact S].
Qed.
Lemma iter_bad : forall l body (s : R), (forall i s e, body i s = Err e -> e = BadMemory) -> forall e, iter l body s = Err e -> e = BadMemory.
Proof.
  induction l as [|i l IH]; intros body s H e E; [discriminate|]. cbn [iter] in E. destruct (body i s) as [s'|e'] eqn:B; [now apply (IH body s')|]. injection E as <-. now apply (H i s).
Qed.
Lemma rd_bad : forall (l : list R) i e, rd l i = Err e -> e = BadMemory.
Proof. intros l i e. unfold rd. destruct (nth_error l i); congruence. Qed.
Lemma covar_short : forall A, shaped A -> (cols A < rows A)%nat -> covar A = Err BadMemory.
Proof.
  intros A SH LT. unfold covar. cbv zeta. assert (E : c_invert (rows A) (cells A) = Err BadMemory); [|now rewrite E].
  set (n := rows A) in *. unfold c_invert. cbv zeta. assert (LN : (length (cells A) < n * n)%nat) by (rewrite SH; fold n; nia).
  set (body := fun (a : nat) (cv : list R) => _ : res (list R)). change (iter (seq 0 n) body (cells A) = Err BadMemory).
  assert (SB : forall a s, length s = length (cells A) -> safe (body a s) (length (cells A))).
  { intros a s L. unfold body. destruct (rd s (a * n + a)) as [d|e] eqn:E1; [|cbn; exact (rd_bad _ _ _ E1)].
    pose proof (wr_safe s (a * n + a) (1 / d)) as W. destruct (wr s (a * n + a) (1 / d)) as [cv|e]; [|exact W]. cbn in W. apply iter_safe; [congruence|].
    intros b cv' L'. set (inner := fun (m : nat) (sum : R) => let! x := rd cv' (b * n + m) in let! y := rd cv' (m * n + a) in Ok (sum - x * y)).
    destruct (iter (seq a (b - a)) inner 0) as [sum|e] eqn:E2.
    - destruct (rd cv' (b * n + b)) as [d'|e] eqn:E3; [|cbn; exact (rd_bad _ _ _ E3)]. rewrite <- L'. apply wr_safe.
    - cbn. apply (iter_bad (seq a (b - a)) inner 0); [|exact E2]. intros i s0 e0 E0. unfold inner in E0. destruct (rd cv' (b * n + i)) eqn:E4; [|injection E0 as <-; exact (rd_bad _ _ _ E4)]. destruct (rd cv' (i * n + a)) eqn:E5; [discriminate|injection E0 as <-; exact (rd_bad _ _ _ E5)]. }
  replace (seq 0 n) with (seq 0 (n - 1) ++ [(n - 1)%nat]).
  2:{ replace n with (S (n - 1)) at 3 by lia. rewrite seq_S. cbn [Nat.add]. reflexivity. }
  rewrite iter_app. pose proof (iter_safe (seq 0 (n - 1)) body (cells A) (length (cells A)) eq_refl SB) as S1. destruct (iter (seq 0 (n - 1)) body (cells A)) as [s'|e]; [|cbn in S1; now rewrite S1].
  cbn [iter]. cbn in S1. assert (R : rd s' ((n - 1) * n + (n - 1)) = Err BadMemory).
  { unfold rd. rewrite (proj2 (nth_error_None _ _)); [reflexivity|]. rewrite S1. nia. }
  unfold body. now rewrite R.
Qed.

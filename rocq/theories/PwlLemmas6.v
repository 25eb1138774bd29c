(** Lemmas for piecewise linear densities: the properties put together; hazard
    points. *)

From Coq Require Import ZArith List Bool Arith Reals Lia Lra Sorting.Sorted Sorting.Permutation.
From Coquelicot Require Import Coquelicot.
From Verif Require Import Exn Instances CountSpec CountLemmas McModel McSpec McLemmas4 McLemmas5 PwlModel PwlSpec PwlLemmas PwlLemmas2 PwlLemmas3 PwlLemmas4 PwlLemmas5.
Import ListNotations.
Open Scope R_scope.

Theorem covers : forall d vals logvals cut, values_ok logvals cut vals -> domain_ok d (length vals) ->
  exists p o, new_pwl d vals SLin logvals cut = Ok (p, o) /\
  in_turn 0 (map (fun r => fst (fst r)) (w_regions p)) /\
  (forall l h a b, In (l, h, a, b) (w_regions p) ->
     (h < length vals)%nat /\ a = nth l (places d (length vals)) 0 /\ b = nth h (places d (length vals)) 0 /\
     (l = 0%nat \/ ~ big logvals cut vals l) /\ (h = (length vals - 1)%nat \/ ~ big logvals cut vals h) /\
     forall k, (l < k < h)%nat -> big logvals cut vals k) /\
  forall j, (j + 1 < length vals)%nat ->
    ((exists l h a b, In (l, h, a, b) (w_regions p) /\ (l <= j < h)%nat) <-> big logvals cut vals j \/ big logvals cut vals (j + 1)).
Proof.
  intros d vals logvals cut OK DO. destruct (new_pwl_is logvals cut vals OK d DO) as [o [E _]]. exists (made logvals cut vals d), o. split; [exact E|].
  destruct (rs_are logvals cut vals OK) as [T [P SP]].
  assert (BIG : forall k, (k < length vals)%nat -> bigb logvals cut vals k = false -> ~ big logvals cut vals k).
  { intros k K B C. apply (bigb_big logvals cut vals) in C; [|exact K]. congruence. }
  split; [|split].
  - unfold made. cbn [w_regions]. rewrite map_map. cbn [fst snd]. rewrite (map_ext _ (fun r => r)) by (now intros []). rewrite map_id. exact T.
  - intros l h a b R. unfold made in R. cbn [w_regions] in R. apply in_map_iff in R. destruct R as [[l' h'] [X R]]. cbn [fst snd] in X. injection X as -> -> <- <-.
    destruct (P l h R) as [HN [P1 [P2 P3]]]. pose proof (in_turn_from _ _ _ _ T R) as LH. split; [exact HN|]. split; [reflexivity|]. split; [reflexivity|].
    split; [destruct P1; [now left|right; apply BIG; [lia|assumption]]|]. split; [destruct P2; [now left|right; apply BIG; assumption]|].
    intros k K. apply (bigb_big logvals cut vals); [lia|]. now apply P3.
  - intros j J. transitivity (In j (spans (rs logvals cut vals))).
    + rewrite spans_in. split.
      * intros [l [h [a [b [R JJ]]]]]. unfold made in R. cbn [w_regions] in R. apply in_map_iff in R. destruct R as [[l' h'] [X R]]. cbn [fst snd] in X. injection X as -> -> _ _. now exists l, h.
      * intros [l [h [R JJ]]]. exists l, h, (nth l (places d (length vals)) 0), (nth h (places d (length vals)) 0). split; [|exact JJ]. unfold made. cbn [w_regions]. apply in_map_iff. exists (l, h). split; [reflexivity|exact R].
    + rewrite SP, filter_In, in_seq, orb_true_iff. rewrite !(bigb_big logvals cut vals) by lia. split; [tauto|]. intros B. split; [lia|exact B].
Qed.
Theorem weighs : forall d vals logvals cut, values_ok logvals cut vals -> domain_ok d (length vals) ->
  let a := places d (length vals) in
  let js := intervals logvals cut vals in
  let tot := total logvals cut vals a in
  exists p o, new_pwl d vals SLin logvals cut = Ok (p, o) /\ g_absc (w_grid p) = a /\ w_nintvls p = length js /\
  w_intvls p = map (fun j => (nth j a 0, nth (j + 1) a 0)) js /\
  w_wts p = map (fun j => area logvals cut vals a j / tot) js /\
  List.Forall (fun x => 0 < x) (w_wts p) /\ sumR (w_wts p) = 1 /\ 0 < tot /\
  w_vals p = map (fun k => shown logvals cut vals k / tot) (seq 0 (length vals)) /\
  o_items o = seq 0 (length js) /\ o_weights o = w_wts p.
Proof.
  intros d vals logvals cut OK DO a js tot. destruct (new_pwl_is logvals cut vals OK d DO) as [o [E ->]]. eexists; eexists. split; [exact E|]. split; [reflexivity|]. split; [reflexivity|]. split; [reflexivity|]. split; [reflexivity|].
  destruct (wts_are logvals cut vals OK d DO) as [W1 W2]. split; [exact W1|]. split; [exact W2|]. split; [exact (total_pos logvals cut vals OK d DO)|]. split; [reflexivity|]. split; reflexivity.
Qed.
Theorem zeros_raise : forall d step logvals vals cut g, abscissas d step (length vals) = Ok g -> logvals = false -> vals <> [] -> List.Forall (fun v => v = 0) vals ->
  new_pwl d vals step logvals cut = Err IndexError.
Proof.
  intros d step logvals vals cut g A -> NE F. unfold new_pwl. rewrite A. destruct vals as [|v vs]; [contradiction|]. unfold relative.
  destruct (pymax_is vs v) as [_ B]. rewrite Forall_forall in F. rewrite (F _ B). rewrite (proj2 (Reqb_spec 0 0)) by reflexivity. reflexivity.
Qed.
Lemma use_made : forall d vals logvals cut p o, values_ok logvals cut vals -> domain_ok d (length vals) -> new_pwl d vals SLin logvals cut = Ok (p, o) -> p = made logvals cut vals d.
Proof. intros d vals logvals cut p o OK DO E. destruct (new_pwl_is logvals cut vals OK d DO) as [o' [E' _]]. rewrite E in E'. now injection E' as -> _. Qed.

(** ** Hazard points *)

Lemma take_ok : forall l is, List.Forall (fun i => (i < length l)%nat) is -> take_at l is = Ok (map (fun i => nth i l 0) is).
Proof.
  intros l is F. unfold take_at. induction F as [|i is I F IH]; [reflexivity|]. cbn [all_at map]. unfold at_index. now rewrite (nth_error_nth' l 0 I), IH.
Qed.
Section Haz.
Variable argsort : list R -> list nat.
Hypothesis SO : sorts argsort.
Let order (vals l : list R) := map (fun i => nth i l 0) (argsort vals).
Lemma sort_bound : forall vals, List.Forall (fun i => (i < length vals)%nat) (argsort vals).
Proof. intros vals. apply Forall_forall. intros i I. destruct (SO vals) as [P _]. apply (Permutation_in _ P) in I. apply in_seq in I. lia. Qed.
Lemma order_len : forall vals l, length (order vals l) = length vals.
Proof. intros vals l. unfold order. rewrite map_length. destruct (SO vals) as [P _]. now rewrite (Permutation_length P), seq_length. Qed.
Theorem new_popn1_ok : forall vals weights, length weights = length vals ->
  new_popn1 argsort vals weights NoErr = Ok (Popn1 (order vals vals) (order vals weights) None (cumsum (order vals weights)) (rev (cumsum (order vals weights)))).
Proof.
  intros vals weights L. unfold new_popn1. rewrite !take_ok by (rewrite ?L; apply sort_bound). fold (order vals vals). fold (order vals weights).
  unfold new_popn. rewrite !order_len, Nat.eqb_refl. reflexivity.
Qed.
Theorem new_popn1_err : forall vals weights err, length weights = length vals -> length err = length vals ->
  new_popn1 argsort vals weights (ErrList err) = Ok (Popn1 (order vals vals) (order vals weights) (Some (order vals err)) (cumsum (order vals weights)) (rev (cumsum (order vals weights)))).
Proof.
  intros vals weights err L LE. unfold new_popn1. rewrite !take_ok by (rewrite ?L, ?LE; apply sort_bound). fold (order vals vals). fold (order vals weights). fold (order vals err).
  unfold new_popn. rewrite !order_len, Nat.eqb_refl. reflexivity.
Qed.
End Haz.
Lemma steps_are : forall vs hs absc ord, length vs = length hs -> exists ra ro, steps vs hs absc ord = (absc ++ ra, ord ++ ro) /\
  length ra = (2 * length vs)%nat /\ length ro = (2 * length vs)%nat /\
  forall k, (k < length vs)%nat -> nth (2 * k) ra 0 = nth k vs 0 /\ nth (2 * k + 1) ra 0 = nth k vs 0 /\ nth (2 * k + 1) ro 0 = nth k hs 0 /\
    nth (2 * k) ro 0 = match k with O => last ord 0 | S k' => nth k' hs 0 end.
Proof.
  induction vs as [|x vs IH]; intros [|h hs] absc ord L; cbn [length] in L; try lia.
  - exists [], []. split; [cbn [steps]; now rewrite !app_nil_r|]. split; [reflexivity|]. split; [reflexivity|]. intros k K. cbn in K. lia.
  - cbn [steps]. destruct (IH hs (absc ++ [x; x]) (ord ++ [last ord 0; h]) ltac:(lia)) as [ra [ro [E [LA [LO K]]]]]. exists ([x; x] ++ ra), ([last ord 0; h] ++ ro).
    split; [rewrite E, !app_assoc; reflexivity|]. split; [cbn [app length]; lia|]. split; [cbn [app length]; lia|]. intros [|k] KL.
    + cbn. auto.
    + cbn [length] in KL. destruct (K k ltac:(lia)) as [K1 [K2 [K3 K4]]]. replace (2 * S k)%nat with (S (S (2 * k))) by lia. replace (S (S (2 * k)) + 1)%nat with (S (S (2 * k + 1))) by lia. cbn [app nth].
      split; [exact K1|]. split; [exact K2|]. split; [exact K3|]. rewrite K4. destruct k as [|k']; [|reflexivity]. change [last ord 0; h] with ([last ord 0] ++ [h]). rewrite app_assoc. apply last_last.
Qed.
Lemma nth_shift : forall (x : R) l k, nth (k + 1) (x :: l) 0 = nth k l 0. Proof. intros x l k. rewrite Nat.add_1_r. reflexivity. Qed.
Theorem haz_points : forall argsort vals weights lo hi, sorts argsort -> vals <> [] -> length weights = length vals ->
  (forall v, In v vals -> match lo with Some s => s <= v | None => True end /\ match hi with Some s => v <= s | None => True end) ->
  exists o pts, new_popn1 argsort vals weights NoErr = Ok o /\ haz_pts o lo hi = Ok pts /\
  let n := length vals in
  v_vals o = map (fun i => nth i vals 0) (argsort vals) /\ v_weights o = map (fun i => nth i weights 0) (argsort vals) /\
  h_bars pts = None /\ length (h_absc pts) = (2 * n + 2)%nat /\ length (h_ord pts) = (2 * n + 2)%nat /\
  nth 0 (h_ord pts) 0 = 1 /\ nth (2 * n + 1) (h_ord pts) 0 = 0 /\
  nth 0 (h_absc pts) 0 = match lo with Some s => s | None => nth 0 (v_vals o) 0 end /\
  nth (2 * n + 1) (h_absc pts) 0 = match hi with Some s => s | None => nth (n - 1) (v_vals o) 0 end /\
  forall k, (k < n)%nat ->
    nth (2 * k + 1) (h_absc pts) 0 = nth k (v_vals o) 0 /\ nth (2 * k + 2) (h_absc pts) 0 = nth k (v_vals o) 0 /\
    nth (2 * k + 1) (h_ord pts) 0 = nth (2 * k) (h_ord pts) 0 /\
    nth (2 * k + 2) (h_ord pts) 0 = sumR (firstn (n - k) (v_weights o)).
Proof.
  intros argsort vals weights lo hi SO NE LW RG. rewrite (new_popn1_ok argsort SO vals weights LW). set (sv := map (fun i => nth i vals 0) (argsort vals)). set (sw := map (fun i => nth i weights 0) (argsort vals)).
  assert (LV : length sv = length vals) by apply (order_len argsort SO vals vals). assert (LS : length sw = length vals) by apply (order_len argsort SO vals weights).
  assert (N1 : (1 <= length vals)%nat) by (destruct vals; [contradiction|cbn; lia]).
  assert (MEM : forall k, (k < length vals)%nat -> In (nth k sv 0) vals).
  { intros k K. assert (I : In (nth k sv 0) sv) by (apply nth_In; lia). unfold sv in I at 2. apply in_map_iff in I. destruct I as [i [<- I]]. apply nth_In. pose proof (sort_bound argsort SO vals) as F. rewrite Forall_forall in F. auto. }
  exists (Popn1 sv sw None (cumsum sw) (rev (cumsum sw))). unfold haz_pts. cbn [v_vals v_hazard v_err v_weights]. destruct sv as [|x0 sv'] eqn:ES; [cbn in LV; lia|]. rewrite <- ES in *.
  assert (X0 : x0 = nth 0 sv 0) by (rewrite ES; reflexivity). rewrite last_nth.
  set (start := match lo with Some s => s | None => x0 end). set (stop := match hi with Some s => s | None => nth (length sv - 1) sv 0 end).
  assert (B1 : Rltb x0 start = false). { apply Rltb_false. unfold start. destruct lo as [s|]; [|lra]. destruct (RG (nth 0 sv 0) (MEM 0%nat ltac:(lia))) as [A _]. lra. }
  assert (B2 : Rltb stop (nth (length sv - 1) sv 0) = false). { apply Rltb_false. unfold stop. destruct hi as [s|]; [|lra]. destruct (RG (nth (length sv - 1) sv 0) (MEM (length sv - 1)%nat ltac:(lia))) as [_ A]. lra. }
  rewrite B1, B2. cbn [orb]. destruct (steps_are sv (rev (cumsum sw)) [start] [1]) as [ra [ro [E [LA [LO K]]]]]; [rewrite rev_length, cumsum_length; lia|]. rewrite E.
  eexists. split; [reflexivity|]. split; [reflexivity|]. cbv zeta. cbn [v_vals v_weights h_bars h_absc h_ord]. split; [reflexivity|]. split; [reflexivity|]. split; [reflexivity|].
  rewrite <- !app_assoc. cbn [app]. split; [cbn [length]; rewrite app_length; cbn [length]; lia|]. split; [cbn [length]; rewrite app_length; cbn [length]; lia|].
  split; [reflexivity|]. split; [rewrite nth_shift, app_nth2 by lia; replace (2 * length vals - length ro)%nat with 0%nat by lia; reflexivity|].
  split; [unfold start; destruct lo; [reflexivity|exact X0]|].
  split; [rewrite nth_shift, app_nth2 by lia; replace (2 * length vals - length ra)%nat with 0%nat by lia; unfold stop; rewrite LV; destruct hi; reflexivity|].
  intros k KL. destruct (K k ltac:(lia)) as [K1 [K2 [K3 K4]]]. replace (2 * k + 2)%nat with (2 * k + 1 + 1)%nat by lia. rewrite !nth_shift.
  rewrite !app_nth1 by lia. split; [exact K1|]. split; [exact K2|]. split.
  - rewrite K4. destruct k as [|k]; [reflexivity|]. replace (2 * S k)%nat with (2 * k + 1 + 1)%nat by lia. rewrite nth_shift, app_nth1 by lia. symmetry. apply K. lia.
  - rewrite K3, rev_nth by (rewrite cumsum_length; lia). rewrite cumsum_length, cumsum_nth by lia. f_equal. f_equal. lia.
Qed.
Theorem haz_errors : forall argsort vals weights err lo hi, sorts argsort -> (2 <= length vals)%nat -> length weights = length vals -> length err = length vals ->
  (exists o, new_popn1 argsort vals weights (ErrList err) = Ok o /\ haz_pts o lo hi = Err ValueError) /\
  new_popn1 argsort vals weights (ErrArray err) = Err ValueError.
Proof.
  intros argsort vals weights err lo hi SO N2 LW LE. split.
  - rewrite (new_popn1_err argsort SO vals weights err LW LE). eexists. split; [reflexivity|]. unfold haz_pts. cbn [v_vals v_err].
    pose proof (order_len argsort SO vals vals) as LV. pose proof (order_len argsort SO vals err) as LX.
    destruct (map (fun i => nth i vals 0) (argsort vals)) as [|x0 sv']; [cbn in LV; lia|]. destruct (_ || _); [reflexivity|]. destruct (steps _ _ _ _).
    destruct (map (fun i => nth i err 0) (argsort vals)) as [|a [|b rest]]; cbn [length] in LX; [lia|lia|reflexivity].
  - unfold new_popn1. rewrite !take_ok by (rewrite ?LW; apply sort_bound, SO). destruct err as [|a [|b l]]; cbn [length] in LE; [lia|lia|reflexivity].
Qed.

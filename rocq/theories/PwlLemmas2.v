(** Lemmas for piecewise linear densities: the object. *)

From Coq Require Import ZArith List Bool Arith Reals Lia Lra Sorting.Sorted Sorting.Permutation.
From Verif Require Import Exn Instances CountSpec CountLemmas McModel McSpec McLemmas4 McLemmas5 PwlModel PwlSpec PwlLemmas.
Import ListNotations.
Open Scope R_scope.

Lemma pymax_is : forall l x, (forall y, In y (x :: l) -> y <= pymax x l) /\ In (pymax x l) (x :: l).
Proof.
  unfold pymax. induction l as [|z l IH]; intros x; cbn [fold_left].
  - split; [intros y [->|[]]; lra|now left].
  - destruct (IH (Rmax x z)) as [A B]. split.
    + intros y [->|[->|Y]].
      * eapply Rle_trans; [apply Rmax_l|]. apply A. now left.
      * eapply Rle_trans; [apply Rmax_r|]. apply A. now left.
      * apply A. now right.
    + destruct B as [B|B]; [|now right; right]. rewrite <- B. unfold Rmax. destruct (Rle_dec x z); [right; now left|now left].
Qed.
Lemma fold_max : forall l, (forall y, In y l -> y <= fold_right Rmax 0 l) /\ 0 <= fold_right Rmax 0 l /\ (fold_right Rmax 0 l = 0 \/ In (fold_right Rmax 0 l) l).
Proof.
  induction l as [|x l [A [B C]]]; cbn [fold_right]; [split; [intros y []|split; [lra|now left]]|]. split; [|split].
  - intros y [->|Y]; [apply Rmax_l|]. eapply Rle_trans; [now apply A|apply Rmax_r].
  - eapply Rle_trans; [exact B|apply Rmax_r].
  - destruct (Rle_dec x (fold_right Rmax 0 l)) as [H|H]; [rewrite (Rmax_right x) by lra|rewrite (Rmax_left x) by lra]; [destruct C; [now left|right; now right]|right; now left].
Qed.

Lemma relative_step : forall logvals cut v vs vals, vals = v :: vs ->
  relative logvals cut vals =
  (if logvals then
        let wvals := map (fun x => x - pymax v vs) vals in
        let above := fun x => if Rltb cut 0 then false else if Reqb cut 0 then true else Rltb (ln cut) x in
        let below := fun x => if Rltb cut 0 then false else if Reqb cut 0 then false else Rleb x (ln cut) in
        let selected := filter (fun i => above (nth i wvals 0)) (seq 0 (length vals)) in
        Ok (map (fun x => if below x then 0 else if above x then exp x else x) wvals, selected)
      else if Reqb (pymax v vs) 0 then Ok (vals, [])
      else
        let wvals := map (fun x => x / pymax v vs) vals in
        Ok (wvals, filter (fun i => Rltb cut (nth i wvals 0)) (seq 0 (length vals)))).
Proof. intros logvals cut v vs vals ->. reflexivity. Qed.

Section Values.
Variables (logvals : bool) (cut : R) (vals : list R).
Hypothesis OK : values_ok logvals cut vals.
Let n := length vals.
Let de := dens logvals vals.
Let pk := peak logvals vals.
Let sh := shown logvals cut vals.
Lemma n2 : (2 <= n)%nat. Proof. apply OK. Qed.
Lemma dens_nonneg : forall k, 0 <= de k.
Proof.
  intros k. unfold de, dens. destruct (Sumbool.sumbool_of_bool logvals) as [L|L]; rewrite L; [apply Rlt_le, exp_pos|]. destruct OK as [_ [_ H]]. destruct (H L) as [F _].
  destruct (Nat.lt_ge_cases k (length vals)) as [K|K]; [|rewrite nth_overflow by exact K; lra]. rewrite Forall_forall in F. apply F. now apply nth_In.
Qed.
Lemma peak_is : (forall k, (k < n)%nat -> de k <= pk) /\ 0 < pk /\ exists k, (k < n)%nat /\ de k = pk.
Proof.
  unfold pk, peak. destruct (fold_max (map (dens logvals vals) (seq 0 (length vals)))) as [A [B D]].
  change (dens logvals vals) with de in A, B, D |- *.
  assert (A' : forall k, (k < n)%nat -> de k <= fold_right Rmax 0 (map de (seq 0 (length vals)))) by (intros k K; apply A, in_map, in_seq; unfold n in K; lia).
  assert (P : exists k, (k < n)%nat /\ 0 < de k).
  { unfold de, dens, n. destruct (Sumbool.sumbool_of_bool logvals) as [L|L]; rewrite L; [exists 0%nat; split; [pose proof n2; unfold n in *; lia|apply exp_pos]|]. destruct OK as [_ [_ H]]. destruct (H L) as [_ X].
    apply Exists_exists in X. destruct X as [v [V P]]. destruct (In_nth _ _ 0 V) as [k [K <-]]. now exists k. }
  destruct P as [k [K P]]. specialize (A' k K) as AK. split; [exact A'|]. split; [lra|]. destruct D as [D|D]; [lra|]. apply in_map_iff in D. destruct D as [j [D J]].
  exists j. apply in_seq in J. split; [unfold n; lia|exact D].
Qed.
Definition bigb (k : nat) : bool := if Rlt_dec (cut * pk) (de k) then true else false.
Lemma bigb_big : forall k, (k < n)%nat -> bigb k = true <-> big logvals cut vals k.
Proof. intros k K. unfold bigb, big. fold de pk n. destruct (Rlt_dec _ _); split; intros H; try (discriminate || tauto). Qed.
Lemma top_is : forall v vs, vals = v :: vs -> pk = if logvals then exp (pymax v vs) else pymax v vs.
Proof.
  intros v vs E. destruct (pymax_is vs v) as [A B]. rewrite <- E in A, B. destruct peak_is as [P1 [_ [k [K P2]]]].
  destruct (In_nth _ _ 0 B) as [j [J EJ]]. specialize (P1 j J). unfold de, dens in P1, P2. rewrite EJ in P1.
  specialize (A (nth k vals 0) (nth_In _ _ K)). destruct logvals; [|lra]. apply Rle_antisym; [|exact P1]. rewrite <- P2. destruct A as [A|A]; [now apply Rlt_le, exp_increasing|rewrite A; lra].
Qed.
Lemma map_seq_nth : forall (f : R -> R) l, map f l = map (fun k => f (nth k l 0)) (seq 0 (length l)).
Proof. intros f l. rewrite <- (map_nth_seq l) at 1. now rewrite map_map. Qed.
Lemma cut_le : 0 <= cut < 1. Proof. apply OK. Qed.
Lemma de_log : logvals = true -> forall k, de k = exp (nth k vals 0). Proof. intros L k. unfold de, dens. now rewrite L. Qed.
Lemma de_lin : logvals = false -> forall k, de k = nth k vals 0. Proof. intros L k. unfold de, dens. now rewrite L. Qed.
Theorem relative_is : relative logvals cut vals = Ok (map (fun k => sh k / pk) (seq 0 n), filter bigb (seq 0 n)).
Proof.
  pose proof cut_le as CL. pose proof n2 as N2. destruct peak_is as [_ [PK _]]. assert (X : exists v vs, vals = v :: vs) by (unfold n in N2; destruct vals as [|v vs]; [cbn in N2; lia|now exists v, vs]).
  destruct X as [v [vs EV]]. rewrite (relative_step _ _ _ _ _ EV). cbv zeta.
  pose proof (top_is v vs EV) as T. rewrite (proj2 (Rltb_false cut 0)) by lra. destruct (Sumbool.sumbool_of_bool logvals) as [LV|LV]; rewrite LV in T; rewrite LV at 1.
  - assert (AB : forall k, (if Reqb cut 0 then true else Rltb (ln cut) (nth k vals 0 - pymax v vs)) = bigb k).
    { intros k. unfold bigb. rewrite (de_log LV), T. destruct (Reqb cut 0) eqn:C0.
      - apply Reqb_spec in C0. rewrite C0, Rmult_0_l. destruct (Rlt_dec 0 (exp (nth k vals 0))) as [H|H]; [reflexivity|]. exfalso. apply H, exp_pos.
      - assert (C1 : 0 < cut) by (apply Reqb_false in C0; lra).
        assert (EQ : ln cut < nth k vals 0 - pymax v vs <-> cut * exp (pymax v vs) < exp (nth k vals 0)).
        { split; intros H.
          - rewrite <- (exp_ln cut C1) at 1. rewrite <- exp_plus. apply exp_increasing. lra.
          - rewrite <- (exp_ln cut C1) in H at 1. rewrite <- exp_plus in H. apply exp_lt_inv in H. lra. }
        destruct (Rlt_dec _ _) as [H|H]; [apply Rltb_spec; now apply EQ|apply Rltb_false; intros K; apply H; now apply EQ]. }
    f_equal. f_equal.
    + rewrite map_map, map_seq_nth. fold n. apply map_ext. intros k. specialize (AB k). unfold sh, shown. rewrite LV at 1. fold pk de. unfold bigb in AB.
      rewrite AB. destruct (Rlt_dec (cut * pk) (de k)) as [H|H].
      * assert (BL : (if Reqb cut 0 then false else Rleb (nth k vals 0 - pymax v vs) (ln cut)) = false).
        { destruct (Reqb cut 0); [reflexivity|]. apply Rleb_false. apply Rltb_spec in AB. lra. }
        rewrite BL, (de_log LV), T. unfold Rminus. rewrite exp_plus, exp_Ropp. reflexivity.
      * destruct (Reqb cut 0); [discriminate|]. apply Rltb_false in AB. rewrite (proj2 (Rleb_spec _ _)) by lra. unfold Rdiv. ring.
    + apply filter_ext_in. intros k K. apply in_seq in K. rewrite <- AB. rewrite (nth_indep _ 0 ((fun x => x - pymax v vs) 0)) by (rewrite map_length; lia). rewrite (map_nth (fun x => x - pymax v vs)). reflexivity.
  - rewrite (proj2 (Reqb_false (pymax v vs) 0)) by lra. f_equal. f_equal.
    + rewrite map_seq_nth. fold n. apply map_ext. intros k. unfold sh, shown. rewrite LV at 1. fold de. now rewrite (de_lin LV), T.
    + apply filter_ext_in. intros k K. apply in_seq in K. rewrite (nth_indep _ 0 ((fun x => x / pymax v vs) 0)) by (rewrite map_length; lia). rewrite (map_nth (fun x => x / pymax v vs)).
      unfold bigb. rewrite (de_lin LV), T. assert (EQ : nth k vals 0 = nth k vals 0 / pymax v vs * pymax v vs) by (field; lra).
      destruct (Rlt_dec _ _) as [H|H].
      * apply Rltb_spec. apply Rmult_lt_reg_r with (pymax v vs); lra.
      * apply Rltb_false. intros L. apply H. rewrite EQ. apply Rmult_lt_compat_r; lra.
Qed.
Lemma shown_nonneg : forall k, 0 <= sh k.
Proof. intros k. unfold sh, shown. pose proof (dens_nonneg k) as D. unfold de in D. destruct logvals; [destruct (Rlt_dec _ _); [exact D|lra]|exact D]. Qed.
Lemma bigb_pos : forall k, bigb k = true -> 0 < sh k.
Proof.
  intros k B. unfold bigb in B. destruct (Rlt_dec (cut * pk) (de k)) as [H|H]; [|discriminate]. destruct peak_is as [_ [PK _]]. pose proof cut_le.
  assert (0 < de k). { eapply Rle_lt_trans; [|exact H]. apply Rmult_le_pos; lra. } unfold sh, shown. fold de pk. destruct logvals; [destruct (Rlt_dec (cut * pk) (de k)); [assumption|contradiction]|assumption].
Qed.
Lemma peak_big : exists k, (k < n)%nat /\ bigb k = true.
Proof.
  destruct peak_is as [_ [PK [k [K E]]]]. exists k. split; [exact K|]. unfold bigb. rewrite E. destruct (Rlt_dec _ _) as [H|H]; [reflexivity|]. exfalso. apply H. pose proof cut_le.
  rewrite <- (Rmult_1_l pk) at 2. apply Rmult_lt_compat_r; lra.
Qed.
Lemma rel_nth : forall k, (k < n)%nat -> nth k (map (fun k => sh k / pk) (seq 0 n)) 0 = sh k / pk.
Proof.
  intros k K. rewrite (nth_indep _ 0 ((fun k => sh k / pk) 0%nat)) by (now rewrite map_length, seq_length). rewrite (map_nth (fun k => sh k / pk)). now rewrite seq_nth by exact K.
Qed.

(** ** The object *)

Variable d : domain.
Hypothesis DO : domain_ok d n.
Let ab := places d n.
Definition delta_of : option (option R) := match d with Ends lo hi => Some (Some ((hi - lo) / INR (n - 1))) | _ => None end.
Lemma abscissas_is : exists lo hi, abscissas d SLin n = Ok (Grid lo hi ab delta_of) /\ lo = nth 0 ab 0 /\ hi = nth (n - 1) ab 0.
Proof.
  pose proof n2 as N2. assert (NZ : INR (n - 1) <> 0) by (apply not_0_INR; lia). unfold abscissas, delta_of, ab, places. destruct d as [lo hi|a|]; cbn [domain_ok] in DO; [| |destruct DO].
  - unfold linspace. rewrite (proj2 (Nat.eqb_neq n 1)) by lia. exists lo, hi.
    assert (NT : forall i, (i < n)%nat -> nth i (map (fun i => lo + (hi - lo) * INR i / INR (n - 1)) (seq 0 n)) 0 = lo + (hi - lo) * INR i / INR (n - 1)).
    { intros i I. rewrite (nth_indep _ 0 ((fun i => lo + (hi - lo) * INR i / INR (n - 1)) 0%nat)) by (now rewrite map_length, seq_length). rewrite (map_nth (fun i => lo + (hi - lo) * INR i / INR (n - 1))). now rewrite seq_nth by exact I. }
    split; [|split].
    + f_equal. f_equal. apply map_ext. intros i. field. exact NZ.
    + rewrite NT by lia. cbn [INR]. field. exact NZ.
    + rewrite NT by lia. field. exact NZ.
  - destruct DO as [L _]. rewrite (proj2 (Nat.eqb_eq _ _) L). cbn [negb]. destruct a as [|x a]; [cbn in L; lia|]. exists x, (last (x :: a) 0). split; [reflexivity|]. split; [reflexivity|].
    rewrite last_nth. now rewrite L.
Qed.
Lemma step_up : forall i, (i + 1 < n)%nat -> nth i ab 0 < nth (i + 1) ab 0.
Proof.
  pose proof n2 as N2. assert (NP : 0 < INR (n - 1)) by (apply lt_0_INR; lia). unfold ab, places. destruct d as [lo hi|a|]; cbn [domain_ok] in DO; [| |destruct DO].
  - intros i I. rewrite !(nth_indep _ 0 ((fun i => lo + (hi - lo) * INR i / INR (n - 1)) 0%nat)) by (rewrite map_length, seq_length; lia). rewrite !(map_nth (fun i => lo + (hi - lo) * INR i / INR (n - 1))). rewrite !seq_nth by lia.
    rewrite !Nat.add_0_l, plus_INR. cbn [INR]. apply Rplus_lt_compat_l. unfold Rdiv. apply Rmult_lt_compat_r; [now apply Rinv_0_lt_compat|]. apply Rmult_lt_compat_l; lra.
  - apply DO.
Qed.
Let ar := area logvals cut vals ab.
Let js := filter (fun j => bigb j || bigb (j + 1)%nat) (seq 0 (n - 1)).
Let tot := sumR (map ar js).
Lemma js_in : forall j, In j js -> (j + 1 < n)%nat.
Proof. intros j J. unfold js in J. apply filter_In in J. destruct J as [J _]. apply in_seq in J. lia. Qed.
Lemma area_nonneg : forall j, (j + 1 < n)%nat -> 0 <= ar j.
Proof.
  intros j J. unfold ar, area. pose proof (step_up j J). pose proof (shown_nonneg j) as A. pose proof (shown_nonneg (j + 1)) as B. unfold sh in *. apply Rmult_le_pos; lra.
Qed.
Lemma area_pos : forall j, In j js -> 0 < ar j.
Proof.
  intros j J. pose proof (js_in j J) as K. unfold js in J. apply filter_In in J. destruct J as [_ J]. unfold ar, area. pose proof (step_up j K).
  pose proof (shown_nonneg j) as A. pose proof (shown_nonneg (j + 1)) as B. apply orb_true_iff in J. unfold sh in *. apply Rmult_lt_0_compat; [|lra].
  destruct J as [J|J]; apply bigb_pos in J; unfold sh in J; lra.
Qed.
Lemma js_nonempty : js <> [].
Proof.
  destruct peak_big as [k [K B]]. pose proof n2 as N2. assert (X : exists j, In j js).
  { destruct k as [|k].
    - exists 0%nat. apply filter_In. split; [apply in_seq; lia|now rewrite B].
    - exists k. apply filter_In. split; [apply in_seq; lia|]. rewrite Nat.add_1_r, B. apply orb_true_r. }
  destruct X as [j J]. intros E. rewrite E in J. destruct J.
Qed.
Lemma total_pos : 0 < tot.
Proof.
  unfold tot. pose proof js_nonempty as NE. assert (F : List.Forall (fun j => 0 < ar j) js) by (apply Forall_forall; apply area_pos). destruct js as [|j l]; [contradiction|].
  inversion F as [|? ? A B]; subst. cbn [map]. change (sumR (ar j :: map ar l)) with (ar j + sumR (map ar l)).
  assert (0 <= sumR (map ar l)); [|lra]. apply sumR_nonneg, Forall_forall. intros x X. apply in_map_iff in X. destruct X as [i [<- I]]. rewrite Forall_forall in B. specialize (B i I). lra.
Qed.
Lemma concat_spans : forall A (f : nat -> A) rs, concat (map (fun r => map f (seq (fst r) (snd r - fst r))) rs) = map f (spans rs).
Proof. intros A f rs. unfold spans. rewrite concat_map, map_map. reflexivity. Qed.
Lemma nintvls : forall rs k, fold_left (fun k r => k + (snd r - fst r))%nat rs k = (k + length (spans rs))%nat.
Proof.
  induction rs as [|r rs IH]; intros k; [cbn; lia|]. cbn [fold_left]. rewrite IH. unfold spans. cbn [map concat]. rewrite app_length, seq_length. lia.
Qed.
Lemma sumR_scale : forall (l : list R) c, sumR (map (fun x => x * c) l) = sumR l * c.
Proof. intros l c. induction l as [|x l IH]; [unfold sumR; cbn; ring|]. cbn [map]. change (x * c + sumR (map (fun x => x * c) l) = (x + sumR l) * c). rewrite IH. ring. Qed.
Definition rs : list (nat * nat) := match filter bigb (seq 0 n) with [] => [] | s :: sel => ranges (map (fun k => sh k / pk) (seq 0 n)) n (group [s] sel) end.
Definition made : pwl :=
  Pwl (Grid (nth 0 ab 0) (nth (n - 1) ab 0) ab delta_of) n (length js) (map (fun r => (fst r, snd r, nth (fst r) ab 0, nth (snd r) ab 0)) rs)
    (map (fun j => ar j / tot) js) (tot / pk) (map (fun k => sh k / tot) (seq 0 n)) (map (fun j => (nth j ab 0, nth (j + 1) ab 0)) js)
    (map (fun j => (sh j / pk, sh (j + 1)%nat / pk)) js) (map (fun j => 1/2 * (nth j ab 0 + nth (j + 1) ab 0)) js) (map (fun j => nth (j + 1) ab 0 - nth j ab 0) js).
Lemma rs_are : in_turn 0 rs /\
  (forall lo hi, In (lo, hi) rs -> (hi < n)%nat /\ (lo = 0%nat \/ bigb lo = false) /\ (hi = (n - 1)%nat \/ bigb hi = false) /\ (forall k, (lo < k < hi)%nat -> bigb k = true)) /\
  spans rs = js.
Proof.
  unfold rs. destruct (filter bigb (seq 0 n)) as [|s sel] eqn:E.
  - exfalso. destruct peak_big as [k [K B]]. assert (I : In k (filter bigb (seq 0 n))) by (apply filter_In; split; [apply in_seq; lia|exact B]). rewrite E in I. destruct I.
  - apply (ranges_are bigb); [exact n2|exact E|]. intros k K B. rewrite rel_nth by exact K. destruct peak_is as [_ [PK _]]. apply bigb_pos in B. unfold Rdiv. apply Rmult_lt_0_compat; [exact B|now apply Rinv_0_lt_compat].
Qed.
Theorem new_pwl_is : exists o, new_pwl d vals SLin logvals cut = Ok (made, o) /\ o = Popn false (seq 0 (length js)) (w_wts made) (length js) None.
Proof.
  unfold new_pwl. fold n. destruct abscissas_is as [lo [hi [-> [-> ->]]]]. rewrite relative_is. destruct rs_are as [_ [_ SP]]. unfold made, rs in *.
  destruct (filter bigb (seq 0 n)) as [|s sel] eqn:E; [exfalso; pose proof js_nonempty as NE; rewrite <- SP in NE; now apply NE|].
  set (W := map (fun k => sh k / pk) (seq 0 n)) in *. set (RS := ranges W n (group [s] sel)) in *. cbn [g_absc].
  destruct peak_is as [_ [PK _]]. pose proof total_pos as TP.
  assert (WT : concat (map (fun r => areas W ab (fst r) (snd r)) RS) = map (fun x => x * / pk) (map ar js)).
  { unfold areas. rewrite concat_spans, SP, map_map. apply map_ext_in. intros j J. apply js_in in J. unfold W. rewrite !rel_nth by lia. unfold ar, area. fold sh. field. lra. }
  assert (RT : rsum (map (fun x => x * / pk) (map ar js)) = tot / pk) by (rewrite rsum_is, sumR_scale; reflexivity).
  rewrite WT, RT. unfold pairs. rewrite !concat_spans, SP, nintvls, SP, Nat.add_0_l. cbn [new_popn]. rewrite !map_map. eexists. split.
  - f_equal. f_equal. f_equal.
    + apply map_ext_in. intros j J. field. lra.
    + unfold W. rewrite map_map. apply map_ext. intros k. field. lra.
    + apply map_ext_in. intros j J. apply js_in in J. unfold W. now rewrite !rel_nth by lia.
  - unfold made. cbn [w_wts]. rewrite map_length. f_equal; [apply map_id|]. apply map_ext_in. intros j J. field. lra.
Qed.
Theorem wts_are : List.Forall (fun x => 0 < x) (w_wts made) /\ sumR (w_wts made) = 1.
Proof.
  pose proof total_pos as TP. unfold made. cbn [w_wts]. split.
  - apply Forall_forall. intros x X. apply in_map_iff in X. destruct X as [j [<- J]]. pose proof (area_pos j J). unfold Rdiv. apply Rmult_lt_0_compat; [assumption|now apply Rinv_0_lt_compat].
  - unfold Rdiv. rewrite <- (map_map ar (fun x => x * / tot)), sumR_scale. fold tot. field. lra.
Qed.
End Values.

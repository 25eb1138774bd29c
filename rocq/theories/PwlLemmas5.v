(** Lemmas for piecewise linear densities: evaluation. *)

From Coq Require Import ZArith List Bool Arith Reals Lia Lra Sorting.Sorted.
From Coquelicot Require Import Coquelicot.
From Verif Require Import Exn Instances CountSpec CountLemmas HpdLemmas McModel McSpec McLemmas4 McLemmas5 PwlModel PwlSpec PwlLemmas PwlLemmas2 PwlLemmas3 PwlLemmas4.
Import ListNotations.
Open Scope R_scope.

Lemma inside_spec : forall x regions,
  match inside x regions with
  | Some r => In r regions /\ snd (fst r) <= x <= snd r
  | None => forall r, In r regions -> ~ (snd (fst r) <= x <= snd r)
  end.
Proof.
  intros x. induction regions as [|[[[k m] a] b] rs IH]; cbn [inside]; [intros r []|]. destruct (Rleb a x && Rleb x b) eqn:E.
  - apply andb_true_iff in E. destruct E as [E1 E2]. apply Rleb_spec in E1, E2. split; [now left|]. cbn. lra.
  - destruct (inside x rs) as [r|]; [destruct IH; split; [now right|assumption]|]. intros r [<-|R]; [|now apply IH]. cbn. intros [A B].
    apply andb_false_iff in E. destruct E as [E|E]; apply Rleb_false in E; lra.
Qed.

Section Object.
Variables (logvals : bool) (cut : R) (vals : list R).
Hypothesis OK : values_ok logvals cut vals.
Let n := length vals.
Let sh := shown logvals cut vals.
Let js := intervals logvals cut vals.

Section Any.
Variable d : domain.
Hypothesis DO : domain_ok d n.
Let ab := places d n.
Let mk := made logvals cut vals d.
Let ht := height logvals cut vals ab.
Lemma region_of : forall r, In r (w_regions mk) -> exists lo hi, r = (lo, hi, nth lo ab 0, nth hi ab 0) /\ (lo < hi)%nat /\ (hi < n)%nat /\ forall j, (lo <= j < hi)%nat -> In j js.
Proof.
  intros r R. unfold mk, made in R. cbn [w_regions] in R. apply in_map_iff in R. destruct R as [[lo hi] [<- R]]. destruct (rs_are logvals cut vals OK) as [T [P SP]].
  exists lo, hi. split; [reflexivity|]. destruct (P lo hi R) as [HN _]. split; [exact (proj2 (in_turn_from _ _ _ _ T R))|]. split; [exact HN|]. intros j J.
  change js with (filter (fun j => bigb logvals cut vals j || bigb logvals cut vals (j + 1)) (seq 0 (length vals - 1))). rewrite <- SP. apply spans_in. now exists lo, hi.
Qed.
Lemma region_with : forall j, In j js -> exists lo hi, In (lo, hi, nth lo ab 0, nth hi ab 0) (w_regions mk) /\ (lo <= j < hi)%nat.
Proof.
  intros j J. destruct (rs_are logvals cut vals OK) as [T [P SP]]. change js with (filter (fun j => bigb logvals cut vals j || bigb logvals cut vals (j + 1)) (seq 0 (length vals - 1))) in J.
  rewrite <- SP in J. apply spans_in in J. destruct J as [lo [hi [R J]]]. exists lo, hi. split; [|exact J]. unfold mk, made. cbn [w_regions]. apply in_map_iff. exists (lo, hi). split; [reflexivity|exact R].
Qed.
Lemma inside_none : forall x, (forall j, In j js -> ~ between ab j x) -> inside x (w_regions mk) = None.
Proof.
  intros x H. pose proof (inside_spec x (w_regions mk)) as S0. destruct (inside x (w_regions mk)) as [r|]; [|reflexivity]. exfalso. destruct S0 as [R X].
  destruct (region_of r R) as [lo [hi [-> [LH [HN J]]]]]. cbn [fst snd] in X.
  assert (F : forall m, (lo + m <= hi)%nat -> (1 <= m)%nat -> x <= nth (lo + m) ab 0 -> exists j, (lo <= j < hi)%nat /\ between ab j x).
  { induction m as [|m IH]; intros M M1 XM; [lia|]. destruct (Rle_lt_dec x (nth (lo + m) ab 0)) as [L|L].
    - destruct m as [|m']; [|apply IH; lia || lra]. rewrite Nat.add_0_r in L. exists lo. split; [lia|]. split; [lra|]. replace (lo + 1)%nat with (lo + 1)%nat by lia. exact XM.
    - exists (lo + m)%nat. split; [lia|]. split; [lra|]. replace (lo + m + 1)%nat with (lo + S m)%nat by lia. exact XM. }
  destruct (F (hi - lo)%nat ltac:(lia) ltac:(lia)) as [j [JJ B]]; [replace (lo + (hi - lo))%nat with hi by lia; lra|]. exact (H j (J j JJ) B).
Qed.
Lemma inside_some : forall x j, In j js -> between ab j x -> exists lo hi, inside x (w_regions mk) = Some (lo, hi, nth lo ab 0, nth hi ab 0) /\ (lo < hi)%nat /\ (hi < n)%nat /\ nth lo ab 0 <= x <= nth hi ab 0.
Proof.
  intros x j J B. pose proof (inside_spec x (w_regions mk)) as S0. destruct (inside x (w_regions mk)) as [r|].
  - destruct S0 as [R X]. destruct (region_of r R) as [lo [hi [-> [LH [HN _]]]]]. exists lo, hi. cbn [fst snd] in X. split; [reflexivity|]. split; [exact LH|]. split; [exact HN|exact X].
  - exfalso. destruct (region_with j J) as [lo [hi [R JJ]]]. apply (S0 _ R). cbn [fst snd]. destruct (region_of _ R) as [lo' [hi' [E [_ [HN _]]]]]. injection E as <- <- _ _.
    destruct B as [B1 B2]. split; (eapply Rle_trans; [|eassumption]) || (eapply Rle_trans; [eassumption|]); apply (ab_le logvals cut vals OK d DO); lia.
Qed.
Lemma height_end : forall j, (j + 1 < n)%nat -> ht j (nth j ab 0) = sh j / total logvals cut vals ab /\ ht j (nth (j + 1) ab 0) = sh (j + 1)%nat / total logvals cut vals ab.
Proof.
  intros j J. pose proof (step_up logvals cut vals OK d DO j J) as SU. pose proof (tot_pos' logvals cut vals OK d DO) as TP. fold n in SU, TP. fold ab in SU, TP.
  unfold ht, height, line. fold sh. split; field; split; lra.
Qed.
Lemma height_same : forall i j x, (i + 1 < n)%nat -> (j + 1 < n)%nat -> nth i ab 0 <= x < nth (i + 1) ab 0 -> between ab j x -> ht i x = ht j x.
Proof.
  intros i j x I J X [B1 B2]. destruct (Nat.lt_trichotomy i j) as [L|[->|L]]; [|reflexivity|].
  - pose proof (ab_le logvals cut vals OK d DO (i + 1) j ltac:(lia) ltac:(unfold n in *; lia)). fold n in H. fold ab in H. lra.
  - destruct (Nat.eq_dec i (j + 1)) as [E|NE].
    + subst i. replace x with (nth (j + 1) ab 0) by lra. rewrite (proj2 (height_end j J)). exact (proj1 (height_end (j + 1) I)).
    + pose proof (ab_up logvals cut vals OK d DO (j + 1) i ltac:(lia) ltac:(unfold n in *; lia)). fold n in H. fold ab in H. lra.
Qed.
Theorem pdf_outside : forall x, (forall j, In j js -> ~ between ab j x) -> pdf1 mk x = Ok 0.
Proof. intros x H. unfold pdf1. now rewrite inside_none. Qed.
(** The density at x in the interval that starts at k. *)
Lemma density_at : forall k x, (k + 1 < n)%nat -> nth k ab 0 <= x < nth (k + 1) ab 0 ->
  density logvals cut vals ab x = (if existsb (Nat.eqb k) js then ht k x else 0).
Proof.
  intros k x K X. unfold density. fold js ht.
  assert (G : forall l, NoDup l -> (forall j, In j l -> (j + 1 < n)%nat) ->
    sumR (map (fun j => if Rle_dec (nth j ab 0) x then if Rlt_dec x (nth (j + 1) ab 0) then ht j x else 0 else 0) l) = (if existsb (Nat.eqb k) l then ht k x else 0)).
  { induction l as [|j l IH]; intros ND IN; [reflexivity|]. cbn [map existsb]. inversion ND as [|? ? NI ND']; subst.
    change (sumR (?a :: ?r)) with (a + sumR r). rewrite IH by (auto; intros i I; apply IN; now right). assert (J : (j + 1 < n)%nat) by (apply IN; now left).
    destruct (Nat.eqb_spec k j) as [->|NE].
    - cbn [orb]. destruct (Rle_dec (nth j ab 0) x); [|lra]. destruct (Rlt_dec x (nth (j + 1) ab 0)); [|lra].
      destruct (existsb (Nat.eqb j) l) eqn:E; [|ring]. apply existsb_exists in E. destruct E as [i [I E]]. apply Nat.eqb_eq in E. subst i. contradiction.
    - cbn [orb]. rewrite Rplus_comm. assert (Z0 : (if Rle_dec (nth j ab 0) x then if Rlt_dec x (nth (j + 1) ab 0) then ht j x else 0 else 0) = 0); [|rewrite Z0; ring].
      destruct (Rle_dec (nth j ab 0) x) as [A|A]; [|reflexivity]. destruct (Rlt_dec x (nth (j + 1) ab 0)) as [B|B]; [|reflexivity]. exfalso.
      destruct (Nat.lt_ge_cases j k) as [L|L].
      + pose proof (ab_le logvals cut vals OK d DO (j + 1) k ltac:(lia) ltac:(unfold n in *; lia)) as H. fold n in H. fold ab in H. lra.
      + pose proof (ab_le logvals cut vals OK d DO (k + 1) j ltac:(lia) ltac:(unfold n in *; lia)) as H. fold n in H. fold ab in H. lra. }
  apply G; [|apply js_in]. unfold js, intervals. apply NoDup_filter, seq_NoDup.
Qed.
End Any.

Section Even.
Variables lo hi : R.
Hypothesis LH : lo < hi.
Let d := Ends lo hi.
Lemma DO : domain_ok d n. Proof. exact LH. Qed.
Let ab := places d n.
Let mk := made logvals cut vals d.
Let ht := height logvals cut vals ab.
Let delta := (hi - lo) / INR (n - 1).
Lemma n_ge : (2 <= n)%nat. Proof. apply OK. Qed.
Lemma delta_pos : 0 < delta.
Proof. pose proof n_ge. unfold delta, Rdiv. apply Rmult_lt_0_compat; [lra|]. apply Rinv_0_lt_compat, lt_0_INR. lia. Qed.
Lemma ab_nth : forall i, (i < n)%nat -> nth i ab 0 = lo + INR i * delta.
Proof.
  intros i I. unfold ab, places, d. rewrite (nth_map' _ _ _ _ i 0%nat 0) by (now rewrite seq_length). rewrite seq_nth by exact I. unfold delta. rewrite Nat.add_0_l. field. apply not_0_INR. pose proof n_ge. lia.
Qed.
Lemma cell_of : forall k m x, (k < m)%nat -> (m < n)%nat -> nth k ab 0 <= x <= nth m ab 0 ->
  exists i, i = (k + Z.to_nat (to_int ((x - nth k ab 0%R) / delta)))%nat /\ (i <= m)%nat /\ nth i ab 0 <= x /\ (x < nth (i + 1) ab 0 \/ i = m /\ x = nth m ab 0) /\ ((i < m)%nat -> x < nth (i + 1) ab 0).
Proof.
  intros k m x KM MN X. pose proof delta_pos as DP. set (q := (x - nth k ab 0) / delta). assert (XQ : x = nth k ab 0 + q * delta) by (unfold q; field; lra).
  assert (Q0 : 0 <= q) by (unfold q, Rdiv; apply Rmult_le_pos; [lra|apply Rlt_le, Rinv_0_lt_compat; lra]).
  pose proof (to_int_floor q Q0) as F. assert (T0 : (0 <= to_int q)%Z). { assert (-1 < to_int q)%Z; [|lia]. apply lt_IZR. lra. }
  set (t := Z.to_nat (to_int q)). assert (TE : IZR (to_int q) = INR t) by (unfold t; rewrite INR_IZR_INZ, Z2Nat.id by exact T0; reflexivity). rewrite TE in F.
  assert (QM : q <= INR (m - k)).
  { rewrite minus_INR by lia. rewrite XQ, (ab_nth k), (ab_nth m) in X by lia. apply Rmult_le_reg_r with delta; [exact DP|]. lra. }
  assert (TM : (t <= m - k)%nat) by (apply INR_le; lra).
  exists (k + t)%nat. split; [reflexivity|]. split; [lia|]. split; [|split].
  - rewrite (ab_nth (k + t)), plus_INR, XQ, (ab_nth k) by lia. assert (INR t * delta <= q * delta) by (apply Rmult_le_compat_r; lra). lra.
  - destruct (Nat.eq_dec (k + t) m) as [E|NE].
    + right. split; [exact E|]. rewrite <- E. rewrite XQ, (ab_nth k), (ab_nth (k + t)), plus_INR by lia. assert (QT : q = INR t); [|rewrite QT; ring].
      replace (m - k)%nat with t in QM by lia. lra.
    + left. rewrite (ab_nth (k + t + 1)), !plus_INR, XQ, (ab_nth k) by lia. cbn [INR]. assert (q * delta < (INR t + 1) * delta) by (apply Rmult_lt_compat_r; lra). lra.
  - intros L. rewrite (ab_nth (k + t + 1)), !plus_INR, XQ, (ab_nth k) by lia. cbn [INR]. assert (q * delta < (INR t + 1) * delta) by (apply Rmult_lt_compat_r; lra). lra.
Qed.
Lemma vals_nth : forall i, (i < n)%nat -> nth_error (w_vals mk) i = Some (sh i / total logvals cut vals ab).
Proof. intros i I. unfold mk, made. cbn [w_vals]. rewrite nth_error_map. rewrite (nth_error_nth' _ 0%nat) by (now rewrite seq_length). rewrite seq_nth by exact I. reflexivity. Qed.
Lemma vals_none : forall i, (n <= i)%nat -> nth_error (w_vals mk) i = None.
Proof. intros i I. apply nth_error_None. unfold mk, made. cbn [w_vals]. now rewrite map_length, seq_length. Qed.
Lemma pdf_at : forall x j, In j js -> between ab j x -> exists k m i, (k < m < n)%nat /\ nth k ab 0 <= x <= nth m ab 0 /\ (i <= m)%nat /\ nth i ab 0 <= x /\ (x < nth (i + 1) ab 0 \/ i = m /\ x = nth m ab 0) /\ ((i < m)%nat -> x < nth (i + 1) ab 0) /\
  pdf1 mk x = (match nth_error (w_vals mk) i, nth_error (w_vals mk) (i + 1) with
            | Some v, Some v' => Ok (v + (v' - v) * (x - nth i ab 0) / (nth (i + 1) ab 0 - nth i ab 0))
            | _, _ => Err IndexError
            end).
Proof.
  intros x j J B. destruct (inside_some d DO x j J B) as [k [m [E [KM [MN X]]]]]. destruct (cell_of k m x KM MN X) as [i [EI [IM [X1 [X2 X3]]]]]. exists k, m, i.
  split; [lia|]. split; [exact X|]. split; [exact IM|]. split; [exact X1|]. split; [exact X2|]. split; [exact X3|].
  unfold pdf1. change (made logvals cut vals d) with mk in E. rewrite E. change (g_even (w_grid mk)) with (Some (Some delta)). change (g_absc (w_grid mk)) with ab. change (places d n) with ab. cbv iota beta.
  rewrite (proj2 (Reqb_false delta 0)) by (pose proof delta_pos; lra). rewrite <- EI. reflexivity.
Qed.
Theorem pdf_inside : forall x j, In j js -> between ab j x -> x <> hi -> pdf1 mk x = Ok (ht j x).
Proof.
  intros x j J B XH. pose proof n_ge as N2. destruct (pdf_at x j J B) as [k [m [i [KMN [X [IM [X1 [X2 [X3 ->]]]]]]]]].
  assert (LAST : nth (n - 1) ab 0 = hi). { rewrite ab_nth by lia. unfold delta. field. apply not_0_INR. lia. }
  assert (IN : (i + 1 < n)%nat). { destruct (Nat.eq_dec i (n - 1)) as [->|NE]; [|lia]. exfalso. destruct X2 as [X2|[EM X2]]; [|rewrite <- EM in X2; lra]. apply XH. apply Rle_antisym; [|lra].
    destruct X as [_ X]. assert (m = (n - 1)%nat) by lia. subst m. lra. }
  rewrite !vals_nth by lia.
  assert (XI : x < nth (i + 1) ab 0). { destruct X2 as [X2|[EM X2]]; [exact X2|]. rewrite X2, <- EM. apply (ab_up logvals cut vals OK d DO); [lia|exact IN]. }
  assert (JN : (j + 1 < n)%nat) by (exact (js_in logvals cut vals j J)).
  change (ht j x) with (height logvals cut vals (places d n) j x). rewrite <- (height_same d DO i j x IN JN (conj X1 XI) B). change (places d n) with ab. unfold height, line. fold sh. fold n. fold ab. f_equal.
  pose proof (tot_pos' logvals cut vals OK d DO) as TP. fold n in TP. fold ab in TP. field. split; [lra|]. lra.
Qed.
Theorem pdf_end : In (n - 2)%nat js -> pdf1 mk hi = Err IndexError.
Proof.
  intros J. pose proof n_ge as N2. pose proof delta_pos as DP.
  assert (LAST : nth (n - 1) ab 0 = hi). { rewrite ab_nth by lia. unfold delta. field. apply not_0_INR. lia. }
  assert (UP : nth (n - 2) ab 0 < nth (n - 1) ab 0) by (apply (ab_up logvals cut vals OK d DO); [lia|unfold n in *; lia]).
  destruct (pdf_at hi (n - 2) J) as [k [m [i [KMN [X [IM [X1 [X2 [X3 ->]]]]]]]]].
  { split; [lra|]. replace (n - 2 + 1)%nat with (n - 1)%nat by lia. lra. }
  assert (EM : m = (n - 1)%nat). { destruct (Nat.eq_dec m (n - 1)) as [E|NE]; [exact E|]. assert (nth m ab 0 < nth (n - 1) ab 0) by (apply (ab_up logvals cut vals OK d DO); [lia|unfold n in *; lia]). lra. }
  assert (EI : i = (n - 1)%nat). { destruct (Nat.eq_dec i (n - 1)) as [E|NE]; [exact E|]. assert (nth (i + 1) ab 0 <= nth (n - 1) ab 0) by (apply (ab_le logvals cut vals OK d DO); [lia|unfold n in *; lia]). specialize (X3 ltac:(lia)). lra. }
  rewrite EI. rewrite vals_nth by lia. rewrite vals_none by lia. reflexivity.
Qed.
Lemma cells_int : forall (f g : R -> R), (forall k x, (k + 1 < n)%nat -> nth k ab 0 < x < nth (k + 1) ab 0 -> f x = g x) ->
  forall m y v, (m < n)%nat -> nth 0 ab 0 <= y <= nth m ab 0 -> is_RInt g (nth 0 ab 0) y v -> is_RInt f (nth 0 ab 0) y v.
Proof.
  intros f g FG. induction m as [|m IH]; intros y v M Y H.
  - assert (y = nth 0 ab 0) by lra. subst y. assert (E : v = zero). { pose proof (is_RInt_unique _ _ _ _ H) as U. rewrite RInt_point in U. now symmetry. } rewrite E. apply is_RInt_point.
  - destruct (Rle_lt_dec y (nth m ab 0)) as [L|L]; [apply IH; [lia|lra|exact H]|].
    assert (M0 : nth 0 ab 0 <= nth m ab 0) by (apply (ab_le logvals cut vals OK d DO); [lia|unfold n in *; lia]).
    assert (E0 : ex_RInt g (nth 0 ab 0) y) by (exists v; exact H).
    pose proof (ex_RInt_Chasles_1 (V := R_CompleteNormedModule) g (nth 0 ab 0) (nth m ab 0) y (conj M0 (Rlt_le _ _ L)) E0) as [v1 H1].
    pose proof (ex_RInt_Chasles_2 (V := R_CompleteNormedModule) g (nth 0 ab 0) (nth m ab 0) y (conj M0 (Rlt_le _ _ L)) E0) as [v2 H2].
    assert (EV : v = plus v1 v2). { pose proof (is_RInt_Chasles (V := R_NormedModule) g _ _ _ _ _ H1 H2) as H3. rewrite <- (is_RInt_unique (V := R_CompleteNormedModule) g _ _ _ H). exact (is_RInt_unique (V := R_CompleteNormedModule) g _ _ _ H3). }
    rewrite EV. apply (is_RInt_Chasles (V := R_NormedModule) f _ (nth m ab 0)); [apply IH; [lia|lra|exact H1]|].
    eapply is_RInt_ext; [|exact H2]. intros x X. rewrite Rmin_left, Rmax_right in X by lra. symmetry. apply (FG m); [lia|]. rewrite Nat.add_1_r. lra.
Qed.
Theorem pdf_int : forall y, lo <= y <= hi -> is_RInt (fun x => read (pdf1 mk x)) lo y (chance mk y).
Proof.
  intros y Y. pose proof n_ge as N2. assert (FIRST : nth 0 ab 0 = lo) by (rewrite ab_nth by lia; cbn [INR]; ring).
  assert (LAST : nth (n - 1) ab 0 = hi). { rewrite ab_nth by lia. unfold delta. field. apply not_0_INR. lia. }
  rewrite <- FIRST. apply (cells_int _ (density logvals cut vals ab)) with (m := (n - 1)%nat); [|lia|lra|].
  - intros k x K X. pose proof (density_at d DO k x K ltac:(change (places d n) with ab; lra)) as DA. change (places d n) with ab in DA. rewrite DA. change (height logvals cut vals ab k x) with (ht k x). destruct (existsb (Nat.eqb k) js) eqn:E.
    + apply existsb_exists in E. destruct E as [i [I E]]. apply Nat.eqb_eq in E. subst i. rewrite (pdf_inside x k I); [reflexivity|split; lra|].
      assert (nth (k + 1) ab 0 <= nth (n - 1) ab 0) by (apply (ab_le logvals cut vals OK d DO); [lia|unfold n in *; lia]). lra.
    + unfold mk. rewrite (pdf_outside d x); [reflexivity|]. intros j J [B1 B2]. fold n in B1, B2. fold ab in B1, B2.
      assert (JN : (j + 1 < n)%nat) by (exact (js_in logvals cut vals j J)). destruct (Nat.lt_trichotomy j k) as [L|[->|L]].
      * assert (nth (j + 1) ab 0 <= nth k ab 0) by (apply (ab_le logvals cut vals OK d DO); [lia|unfold n in *; lia]). lra.
      * assert (existsb (Nat.eqb k) js = true); [|congruence]. apply existsb_exists. exists k. split; [exact J|apply Nat.eqb_refl].
      * assert (nth (k + 1) ab 0 <= nth j ab 0) by (apply (ab_le logvals cut vals OK d DO); [lia|unfold n in *; lia]). lra.
  - apply (chance_is logvals cut vals OK d DO). fold n. fold ab. lra.
Qed.
End Even.
Theorem pdf_uneven : forall a x j, domain_ok (Points a) n -> In j js -> between a j x -> pdf1 (made logvals cut vals (Points a)) x = Err NotImplementedError.
Proof. intros a x j D J B. destruct (inside_some (Points a) D x j J B) as [k [m [E _]]]. unfold pdf1. rewrite E. reflexivity. Qed.
End Object.

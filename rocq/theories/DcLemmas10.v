(** DRLHRE evaluates inside the box only *)

From Coq Require Import List Bool Arith ZArith Reals Permutation Lra Lia FunctionalExtensionality.
From Verif Require Import Exn Instances McModel BaModel BaLemmas ObsModel ObsLemmas2 CountSpec McLemmas5 AdModel AdSpec AdLemmas AdLemmas2 AdLemmas3 SySpec SyModel SyLemmas2 SyLemmas4 SyLemmas5 SyLemmas6 SyLemmas7 SyLemmas10.
From Verif Require Import DcTables DcModel DcSpec DcLemmas DcLemmas2 DcLemmas3 DcLemmas4 DcLemmas5 DcLemmas6 DcLemmas7 DcLemmas8 DcLemmas9 DcFixed DcFixed2.
Import ListNotations.
Open Scope R_scope.

Lemma iter_same : forall S l (b b' : nat -> S -> res S) (P : S -> Prop) s, P s -> (forall i s, In i l -> P s -> b i s = b' i s /\ forall s', b i s = Ok s' -> P s') -> iter l b s = iter l b' s.
Proof.
  intros S. induction l as [|i l IH]; intros b b' P s Hs H; [reflexivity|]. cbn [iter]. destruct (H i s (or_introl eq_refl) Hs) as [E K]. rewrite <- E. destruct (b i s) as [s'|e]; [|reflexivity].
  apply (IH b b' P); [now apply K|]. intros k u Hk. apply H. now right.
Qed.

Definition cube1 (u : list R) : Prop := forall v, In v u -> -1 <= v <= 1.
Section Rule.
Variables (f f2 : list R -> vec) (n numfun : nat) (t : table).
Variable gsp : nat -> R * R * nat * nat.
Hypothesis n2 : (2 <= n)%nat.
Hypothesis gok : forall i, In i (seq 4 (t_len t - 3)) -> g_ok n gsp i /\ t_g t i = map (g_phi gsp i) (g_ones n gsp i).
Variables g2 g3 : R.
Hypothesis g2_1 : 0 <= g2 <= 1.
Hypothesis g3_1 : 0 <= g3 <= 1.
Hypothesis g_1 : forall i v, In i (seq 4 (t_len t - 3)) -> In v (t_g t i) -> 0 <= v <= 1.
Variables c h : list R.
Hypothesis c_len : length c = n.
Hypothesis h_len : length h = n.
Hypothesis agree : forall u, length u = n -> cube1 u -> f2 (aff c h u) = f (aff c h u).

Lemma ax_cube : forall i v, (1 <= i <= n)%nat -> -1 <= v <= 1 -> cube1 (ax n i v).
Proof.
  intros i v Hi Hv x Hx. unfold ax, upd in Hx. apply in_app_or in Hx as [Hx|[<-|Hx]]; [|exact Hv|].
  - assert (X : In x (repeat 0 n)) by (rewrite <- (firstn_skipn (i - 1) (repeat 0 n)); apply in_or_app; now left). apply repeat_spec in X. lra.
  - assert (X : In x (repeat 0 n)) by (rewrite <- (firstn_skipn (Datatypes.S (i - 1)) (repeat 0 n)); apply in_or_app; now right). apply repeat_spec in X. lra.
Qed.
Lemma at_center : f2 c = f c.
Proof. assert (X := agree (repeat 0 n) (repeat_length _ _)). assert (Z := aff_zero c h ltac:(lia)). rewrite c_len in Z. rewrite Z in X. apply X. intros v Hv. apply repeat_spec in Hv. lra. Qed.
Lemma axes_same : forall v st, drl_axes f2 n numfun t c h g2 g3 v st = drl_axes f n numfun t c h g2 g3 v st.
Proof.
  intros v st. unfold drl_axes. apply (iter_same _ _ _ _ (fun _ => True)); [exact I|]. intros i s Hi _. split; [|auto]. apply in_seq in Hi.
  rewrite (rd1_nth _ c i 0) by lia. rewrite (rd1_nth _ h i 0) by lia.
  assert (P := fun v => ax_point c h i v ltac:(lia) ltac:(lia)). rewrite c_len in P.
  replace (nth (i - 1) c 0 - nth (i - 1) h 0 * g2) with (nth (i - 1) c 0 + (- g2) * nth (i - 1) h 0) by ring. rewrite P.
  replace (nth (i - 1) c 0 + nth (i - 1) h 0 * g2) with (nth (i - 1) c 0 + g2 * nth (i - 1) h 0) by ring. rewrite P.
  replace (nth (i - 1) c 0 - nth (i - 1) h 0 * g3) with (nth (i - 1) c 0 + (- g3) * nth (i - 1) h 0) by ring. rewrite P.
  replace (nth (i - 1) c 0 + nth (i - 1) h 0 * g3) with (nth (i - 1) c 0 + g3 * nth (i - 1) h 0) by ring. rewrite P.
  assert (A : forall x, -1 <= x <= 1 -> f2 (aff c h (ax n i x)) = f (aff c h (ax n i x))) by (intros x Hx; apply agree; [apply ax_len; lia|apply ax_cube; [lia|exact Hx]]).
  rewrite !A by lra. reflexivity.
Qed.
Lemma gs_in : forall phi p s v, In v (gs phi p s) -> exists j, In j p /\ (v = phi j \/ v = - phi j).
Proof.
  intros phi. induction p as [|j p IH]; intros [|b s] v H; cbn [gs] in H; try destruct H as [H|H]; try contradiction.
  - exists j. split; [now left|]. destruct b; subst v; auto.
  - destruct (IH s v H) as (k & Hk & V). exists k. split; [now right|exact V].
Qed.
Lemma sums_same : forall st, (forall i, s_g st i = t_g t i) -> drl_sums f2 n t c h st = drl_sums f n t c h st.
Proof.
  intros st G. unfold drl_sums. apply (iter_same _ _ _ _ (fun st => forall i, s_g st i = t_g t i)); [exact G|]. intros i s Hi Gs.
  destruct (orb_ok f2 n t gsp n2 gok c h c_len h_len i (s_g s i) Hi (Gs i)) as (v2 & E2 & J2). destruct (orb_ok f n t gsp n2 gok c h c_len h_len i (s_g s i) Hi (Gs i)) as (v & E & J). rewrite E2, E.
  assert (V : v2 = v).
  { apply functional_extensionality. intros j. rewrite J2, J. unfold orb. f_equal. apply map_ext_in. intros p Hp. f_equal. apply map_ext_in. intros sg Hs. unfold at_.
    destruct (gok i Hi) as [Go Eg]. assert (G1 := g_1 i). rewrite Eg in G1. unfold g_ok, g_phi, g_ones, g_sel in *. destruct (gsp i) as [[[x1 x2] c1] c2]. destruct Go as [Go1 Go2].
    apply (proj2 (sel_all n c1 c2 Go2)) in Hp.
    rewrite agree; [reflexivity| |].
    - assert (Lp : length p = n) by (rewrite (Permutation_length Hp); now apply ones_len). rewrite DcLemmas.gs_len; [exact Lp|]. rewrite (signs_len _ _ Hs). unfold mask. apply map_length.
    - intros w Hw. apply gs_in in Hw as (k & Hk & V). apply (Permutation_in k Hp) in Hk. specialize (G1 (gphi x1 x2 k) Hi (in_map _ _ _ Hk)). destruct V as [-> | ->]; lra. }
  split; [now rewrite V|]. rewrite V. intros s' Q. injection Q as <-. cbn [s_g]. intros k. destruct (Nat.eqb_spec k i) as [->|]; [reflexivity|apply Gs].
Qed.
Lemma drlhre_same : (exists r, t_g t 2 = g2 :: r) -> (exists r, t_g t 3 = g3 :: r) -> drlhre f2 n numfun t c h (t_g t) = drlhre f n numfun t c h (t_g t).
Proof.
  intros [r2 E2] [r3 E3]. unfold drlhre. destruct (volume_ok n n2 c h c_len h_len) as (d0 & V & D0). rewrite V. rewrite !E2, !E3. cbn [rd1]. change (rd (g2 :: r2) 0) with (Ok g2). change (rd (g3 :: r3) 0) with (Ok g3).
  rewrite at_center, axes_same. destruct (drl_axes f n numfun t c h g2 g3 (f c) _) as [a|e]; [|reflexivity]. rewrite sums_same by reflexivity. reflexivity.
Qed.
End Rule.

(** Both rules *)
Lemma sqrt01 : forall x, 0 <= x <= 1 -> 0 <= sqrt x <= 1.
Proof. intros x H. split; [apply sqrt_pos|]. rewrite <- sqrt_1. apply sqrt_le_1; lra. Qed.
Lemma gens01 : forall n l v, (forall x, In x l -> 0 <= x <= 1) -> In v (gens n l) -> 0 <= v <= 1.
Proof. intros n l v H Hv. unfold gens in Hv. apply in_app_or in Hv as [Hv|Hv]; [now apply H|]. apply repeat_spec in Hv. lra. Qed.
Lemma lams01 : 0 <= lam0 <= 1 /\ 0 <= lam1 <= 1 /\ 0 <= lam2 <= 1 /\ 0 <= lam3 <= 1 /\ 0 <= lamp7 <= 1 /\ 0 <= lamp9 <= 1.
Proof. rewrite lam0_is, lam1_is, lam2_is, lam3_is. unfold lamp7, lamp9. repeat split; lra. Qed.
Lemma g01 : forall n keyf i v, kok n keyf -> In v (t_g (table_of n keyf) i) -> 0 <= v <= 1.
Proof.
  intros n keyf i v K. destruct lams01 as (A0 & A1 & A2 & A3 & A4 & A5). assert (S0 := sqrt01 _ A0). assert (S1 := sqrt01 _ A1). assert (S2 := sqrt01 _ A2). assert (S3 := sqrt01 _ A3). assert (S4 := sqrt01 _ A4). assert (S5 := sqrt01 _ A5).
  assert (RP : forall x m, 0 <= x <= 1 -> In v (repeat x m) -> 0 <= v <= 1) by (intros x m Hx Hv; apply repeat_spec in Hv; now subst v).
  destruct K as [-> |[-> |[[-> ->]|[-> ->]]]]; unfold table_of; cbn [Z.eqb Pos.eqb]; [cbn [t_g d09hre]|cbn [t_g d07hre]|apply g2_01|apply g3_01].
  - unfold g9. repeat match goal with |- context [if ?b then _ else _] => destruct b end; repeat match goal with |- context [match ?k with O => _ | Datatypes.S _ => _ end] => destruct k end;
    intros Hv; try (eapply RP; [|exact Hv]; assumption); (eapply gens01; [|exact Hv]); intros x Hx; cbn [In] in Hx; repeat destruct Hx as [<-|Hx]; try assumption; contradiction.
  - unfold g7. repeat match goal with |- context [match ?k with O => _ | Datatypes.S _ => _ end] => destruct k end;
    intros Hv; try (eapply RP; [|exact Hv]; assumption); (eapply gens01; [|exact Hv]); intros x Hx; cbn [In] in Hx; repeat destruct Hx as [<-|Hx]; try assumption; contradiction.
Qed.
Lemma aff_box : forall c h u, length h = length c -> length u = length c -> cube1 u -> (forall x, In x h -> 0 <= x) -> in_box c h (aff c h u).
Proof.
  intros c h u Lh Lu Hu Hh. split; [now apply aff_len|]. intros a Ha. unfold comp. rewrite aff_nth by lia. replace (nth (a - 1) c 0 + nth (a - 1) u 0 * nth (a - 1) h 0 - nth (a - 1) c 0) with (nth (a - 1) u 0 * nth (a - 1) h 0) by ring.
  assert (U : -1 <= nth (a - 1) u 0 <= 1) by (apply Hu, nth_In; lia). assert (P : 0 <= nth (a - 1) h 0) by (apply Hh, nth_In; lia). set (x := nth (a - 1) u 0) in *. set (y := nth (a - 1) h 0) in *.
  rewrite Rabs_mult, (Rabs_right y) by lra. assert (Rabs x <= 1) by (apply Rabs_le; lra). rewrite <- (Rmult_1_l y) at 2. now apply Rmult_le_compat_r.
Qed.
Lemma same_rule : forall f f2 n numfun keyf c h, (2 <= n)%nat -> kok n keyf -> length c = n -> length h = n -> (forall x, In x h -> 0 <= x) -> (forall x, in_box c h x -> f2 x = f x) ->
  drlhre f2 n numfun (table_of n keyf) c h (t_g (table_of n keyf)) = drlhre f n numfun (table_of n keyf) c h (t_g (table_of n keyf)).
Proof.
  intros f f2 n numfun keyf c h n2 K Lc Lh Hp Ag. assert (G := fun i v => g01 n keyf i v K). destruct lams01 as (A0 & A1 & A2 & A3 & A4 & A5). assert (S1 := sqrt01 _ A1). assert (S2 := sqrt01 _ A2).
  assert (Ag' : forall u, length u = n -> cube1 u -> f2 (aff c h u) = f (aff c h u)) by (intros u Lu Hu; apply Ag; apply aff_box; try assumption; congruence).
  destruct K as [-> |[-> |[[-> ->]|[-> ->]]]]; unfold table_of in *; cbn [Z.eqb Pos.eqb] in *.
  - apply (drlhre_same f f2 n numfun (d09hre n) (gsp9 n) n2 (gok9 n n2) (sqrt lam1) (sqrt lam2) S1 S2 (fun i v _ => G i v) c h Lc Lh Ag'); unfold d09hre, t_g, g9; destruct (len_cases n n2) as [[_ ->]|[_ ->]]; eexists; reflexivity.
  - apply (drlhre_same f f2 n numfun (d07hre n) (gsp7 n) n2 (gok7 n n2) (sqrt lam2) (sqrt lam1) S2 S1 (fun i v _ => G i v) c h Lc Lh Ag'); eexists; reflexivity.
  - apply (drlhre_same f f2 2 numfun d132re (gspz cols2) n2 gok2 (absc dim2g 1) (absc dim2g 2) (G 2%nat _ (or_introl eq_refl)) (G 3%nat _ (or_introl eq_refl)) (fun i v _ => G i v) c h Lc Lh Ag'); eexists; reflexivity.
  - apply (drlhre_same f f2 3 numfun d113re (gspz cols3) n2 gok3 (absc dim3g 1) (absc dim3g 2) (G 2%nat _ (or_introl eq_refl)) (G 3%nat _ (or_introl eq_refl)) (fun i v _ => G i v) c h Lc Lh Ag'); eexists; reflexivity.
Qed.

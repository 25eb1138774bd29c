(** Lemmas for piecewise linear densities: distribution of the samples. *)

From Coq Require Import ZArith List Bool Arith Reals Lia Lra Sorting.Sorted.
From Coquelicot Require Import Coquelicot.
From Verif Require Import Exn Instances CountSpec CountLemmas HpdLemmas McModel McSpec McLemmas McLemmas2 McLemmas5 McLemmas8 McLemmas10 PwlModel PwlSpec PwlLemmas PwlLemmas2 PwlLemmas3.
Import ListNotations.
Open Scope R_scope.

Lemma is_RInt_sumR : forall (f : nat -> R -> R) (v : nat -> R) a b l, (forall j, In j l -> is_RInt (f j) a b (v j)) ->
  is_RInt (fun x => sumR (map (fun j => f j x) l)) a b (sumR (map v l)).
Proof.
  intros f v a b l. induction l as [|j l IH]; intros H; [apply zero_int|]. cbn [map].
  apply (is_RInt_plus (V := R_NormedModule) (f j) (fun x => sumR (map (fun j => f j x) l)) a b (v j) (sumR (map v l))); [apply H; now left|apply IH; intros i I; apply H; now right].
Qed.
Lemma sumR_at : forall (g : nat -> R) l, sumR (map g l) = sum_over 0 (length l) (fun i => g (nth i l 0%nat)).
Proof.
  intros g l. rewrite sumR_so, map_length. apply so_ext. intros i I. rewrite (nth_indep _ 0 (g 0%nat)) by (rewrite map_length; lia). apply map_nth.
Qed.
Lemma nth_map' : forall A B (f : A -> B) l i a b, (i < length l)%nat -> nth i (map f l) b = f (nth i l a).
Proof. intros A B f l i a b I. rewrite (nth_indep _ b (f a)) by (now rewrite map_length). apply map_nth. Qed.

Section Object.
Variables (logvals : bool) (cut : R) (vals : list R).
Hypothesis OK : values_ok logvals cut vals.
Let n := length vals.
Let pk := peak logvals vals.
Let sh := shown logvals cut vals.
Variable d : domain.
Hypothesis DO : domain_ok d n.
Let ab := places d n.
Let ar := area logvals cut vals ab.
Let js := intervals logvals cut vals.
Let tot := total logvals cut vals ab.
Let mk := made logvals cut vals d.

Lemma tot_pos' : 0 < tot. Proof. exact (total_pos logvals cut vals OK d DO). Qed.
Lemma js_in' : forall j, In j js -> (j + 1 < n)%nat /\ nth j ab 0 < nth (j + 1) ab 0 /\ 0 <= sh j /\ 0 <= sh (j + 1)%nat /\ 0 < sh j + sh (j + 1)%nat /\ 0 < ar j.
Proof.
  intros j J. pose proof (js_in logvals cut vals j J) as JN. pose proof (step_up logvals cut vals OK d DO j JN) as SU. pose proof (area_pos logvals cut vals OK d DO j J) as AP.
  pose proof (shown_nonneg logvals cut vals OK j) as A. pose proof (shown_nonneg logvals cut vals OK (j + 1)) as B. split; [exact JN|]. split; [exact SU|]. split; [exact A|]. split; [exact B|]. split; [|exact AP].
  unfold area in AP. unfold sh in *. assert (A1 : shown logvals cut vals j + shown logvals cut vals (j + 1) <> 0). { intros E. rewrite E in AP. unfold Rdiv in AP. rewrite Rmult_0_l, Rmult_0_l in AP. lra. } lra.
Qed.
Lemma ab_up : forall i j, (i < j)%nat -> (j < n)%nat -> nth i ab 0 < nth j ab 0.
Proof.
  intros i j IJ. induction j as [|j IH]; intros J; [lia|]. pose proof (step_up logvals cut vals OK d DO j) as S1. fold n ab in S1. rewrite Nat.add_1_r in S1. specialize (S1 J).
  destruct (Nat.eq_dec i j) as [->|NE]; [exact S1|]. eapply Rlt_trans; [apply IH; lia|exact S1].
Qed.
Lemma ab_le : forall i j, (i <= j)%nat -> (j < n)%nat -> nth i ab 0 <= nth j ab 0.
Proof. intros i j IJ J. destruct (Nat.eq_dec i j) as [->|NE]; [lra|]. apply Rlt_le, ab_up; lia. Qed.
Lemma pk_pos : 0 < pk. Proof. apply (peak_is logvals cut vals OK). Qed.

Lemma term_is : forall j y, In j js ->
  ar j / tot * mean 1 (fun us => if Rle_dec (invert (nth j ab 0, nth (j + 1) ab 0) (sh j / pk, sh (j + 1)%nat / pk) (nth 0 us 0)) y then 1 else 0)
  = upto (nth j ab 0) (nth (j + 1) ab 0) (sh j) (sh (j + 1)%nat) y / tot.
Proof.
  intros j y J. destruct (js_in' j J) as [_ [SU [A [B [AB AP]]]]]. pose proof pk_pos as PK. pose proof tot_pos' as TP.
  assert (IP : 0 < / pk) by now apply Rinv_0_lt_compat.
  rewrite mean_upto; [|exact SU|unfold Rdiv; apply Rmult_le_pos; lra|unfold Rdiv; apply Rmult_le_pos; lra|unfold Rdiv; rewrite <- Rmult_plus_distr_r; apply Rmult_lt_0_compat; lra].
  unfold upto. set (z := Rmin _ _). unfold cum. change (ar j) with ((sh j + sh (j + 1)%nat) / 2 * (nth (j + 1) ab 0 - nth j ab 0)). field. repeat split; lra.
Qed.
Lemma chance_sum : forall y, chance mk y = sumR (map (fun j => upto (nth j ab 0) (nth (j + 1) ab 0) (sh j) (sh (j + 1)%nat) y / tot) js).
Proof.
  intros y. rewrite sumR_at. unfold chance, mk, made. cbn [w_wts w_intvls w_pdf]. rewrite map_length.
  change (filter _ _) with js. apply so_ext. intros i I. rewrite Nat.add_0_l in I.
  rewrite (nth_map' _ _ _ js i 0%nat 0) by lia. rewrite (nth_map' _ _ (fun j => (nth j (places d (length vals)) 0, nth (j + 1) (places d (length vals)) 0)) js i 0%nat (0, 0)) by lia.
  rewrite (nth_map' _ _ _ js i 0%nat (0, 0)) by lia. apply term_is. apply nth_In. lia.
Qed.
Theorem chance_is : forall y, nth 0 ab 0 <= y -> is_RInt (density logvals cut vals ab) (nth 0 ab 0) y (chance mk y).
Proof.
  intros y Y. rewrite chance_sum. unfold density. change (intervals logvals cut vals) with js.
  apply (is_RInt_sumR (fun j x => if Rle_dec (nth j ab 0) x then if Rlt_dec x (nth (j + 1) ab 0) then height logvals cut vals ab j x else 0 else 0)).
  intros j J. destruct (js_in' j J) as [JN [SU [A [B [AB AP]]]]].
  pose proof (piece_int (nth j ab 0) (nth (j + 1) ab 0) (sh j) (sh (j + 1)%nat) SU (nth 0 ab 0) y ltac:(apply ab_le; lia) Y) as PI.
  apply (is_RInt_scal (V := R_NormedModule) _ _ _ (/ tot)) in PI. replace (upto (nth j ab 0) (nth (j + 1) ab 0) (sh j) (sh (j + 1)%nat) y / tot) with (scal (/ tot) (upto (nth j ab 0) (nth (j + 1) ab 0) (sh j) (sh (j + 1)%nat) y) : R) by (unfold scal; cbn; unfold mult; cbn; unfold Rdiv; ring).
  eapply is_RInt_ext; [|exact PI]. intros x X. cbv beta. unfold scal. cbn. unfold mult. cbn. unfold height. fold sh tot.
  destruct (Rle_dec (nth j ab 0) x); [destruct (Rlt_dec x (nth (j + 1) ab 0)); [unfold Rdiv; ring|ring]|ring].
Qed.
Theorem chance_all : chance mk (nth (n - 1) ab 0) = 1.
Proof.
  rewrite chance_sum. pose proof tot_pos' as TP. rewrite (map_ext_in _ (fun j => ar j * / tot)).
  - rewrite <- (map_map ar (fun x => x * / tot)), sumR_scale. change (sumR (map ar js)) with tot. field. lra.
  - intros j J. destruct (js_in' j J) as [JN [SU [A [B [AB AP]]]]]. unfold upto.
    assert (L : nth (j + 1) ab 0 <= nth (n - 1) ab 0) by (apply ab_le; lia). rewrite Rmax_right by lra. rewrite Rmin_left by lra. rewrite cum_hi by exact SU. reflexivity.
Qed.

(** ** Samples *)

Variable C : Type.
Variable p : pwl.
Lemma in_use_is : forall o, in_use d vals logvals cut p o -> p = mk /\ usable o /\ o_items o = seq 0 (length js) /\ o_weights o = map (fun j => ar j / tot) js.
Proof.
  intros o [o0 [N [U [I W]]]]. destruct (new_pwl_is logvals cut vals OK d DO) as [o' [E ->]]. rewrite N in E. injection E as -> ->.
  split; [reflexivity|]. split; [exact U|]. split; [exact I|exact W].
Qed.
(** A sample from interval j with number u. *)
Let fits := PwlSpec.fits logvals cut vals ab.
Lemma invert_fits : forall j u, In j js -> 0 <= u <= 1 -> fits j u (invert (nth j ab 0, nth (j + 1) ab 0) (sh j / pk, sh (j + 1)%nat / pk) u).
Proof.
  intros j u J U. destruct (js_in' j J) as [JN [SU [A [B [AB AP]]]]]. pose proof pk_pos as PK. assert (IP : 0 < / pk) by now apply Rinv_0_lt_compat.
  destruct (invert_is (nth j ab 0) (nth (j + 1) ab 0) (sh j / pk) (sh (j + 1)%nat / pk)) with (u := u) as [I1 I2];
    [exact SU|unfold Rdiv; rewrite <- Rmult_plus_distr_r; apply Rmult_lt_0_compat; lra|exact U|].
  split; [exact J|]. split; [exact I1|]. set (x := invert _ _ _) in *. pose proof (cum_int (nth j ab 0) (nth (j + 1) ab 0) (sh j) (sh (j + 1)%nat) SU (nth j ab 0) x) as CI.
  rewrite cum_lo in CI by exact SU. change (area logvals cut vals ab j) with (ar j). replace (u * ar j) with (cum (nth j ab 0) (nth (j + 1) ab 0) (sh j) (sh (j + 1)%nat) x - 0); [exact CI|].
  apply Rmult_eq_reg_r with (/ pk); [|lra]. transitivity (cum (nth j ab 0) (nth (j + 1) ab 0) (sh j / pk) (sh (j + 1)%nat / pk) x).
  - unfold cum. field. split; lra.
  - rewrite I2. change (ar j) with ((sh j + sh (j + 1)%nat) / 2 * (nth (j + 1) ab 0 - nth j ab 0)). field. lra.
Qed.
Lemma at_map : forall A (f : nat -> A) i, (i < length js)%nat -> at_index (map f js) i = Ok (f (nth i js 0%nat)).
Proof. intros A f i I. unfold at_index. rewrite nth_error_map. rewrite (nth_error_nth' js 0%nat I). reflexivity. Qed.
Lemma draw_in : forall o idx out, o_items o = seq 0 (length js) -> o_weights o = map (fun j => ar j / tot) js ->
  List.Forall2 (fun i a => nth_error (o_items o) i = Some a) idx out -> List.Forall (fun i => (i < length js)%nat) out.
Proof.
  intros o idx out I _ F. rewrite I in F. apply Forall_forall. intros a A. induction F as [|i b idx out H F IH]; [destruct A|]. destruct A as [->|A]; [|auto].
  assert (L : (i < length js)%nat) by (rewrite <- (seq_length (length js) 0); apply nth_error_Some; congruence).
  rewrite (nth_error_nth' _ 0%nat) in H by (rewrite seq_length; lia). rewrite seq_nth in H by exact L. injection H as <-. exact L.
Qed.
Lemma rand_is : forall (o : @popn nat) (w : world C), good (np_rk (w_np C w)) -> exists w' a b u,
  np_rand C (o, w) = ((o, w'), Ok u) /\ outputs (np_rk (w_np C w)) [a; b] (np_rk (w_np C w')) /\ good (np_rk (w_np C w')) /\
  u = IZR (2 ^ 26 * (a / 2 ^ 5) + b / 2 ^ 6) / 2 ^ 53 /\ 0 <= u < 1.
Proof.
  intros o w G. destruct (double_is _ G) as [g' [a [b [u [O [G' [E [EU U]]]]]]]]. exists (World C (NpState g' (np_extra (w_np C w))) (w_loc C w) (w_c C w)), a, b, u.
  unfold np_rand. rewrite E. cbn [w_np np_rk]. auto.
Qed.
Lemma mk_intvls : w_intvls mk = map (fun j => (nth j ab 0, nth (j + 1) ab 0)) js. Proof. reflexivity. Qed.
Lemma mk_pdf : w_pdf mk = map (fun j => (sh j / pk, sh (j + 1)%nat / pk)) js. Proof. reflexivity. Qed.
Theorem sample_one_is : forall fuel o w o1 w1 r, in_use d vals logvals cut p o -> good (np_rk (w_np C w)) -> sample_one C fuel p (o, w) = ((o1, w1), r) ->
  in_use d vals logvals cut p o1 /\
  (r = Err OutOfFuel \/ exists ys a b j x, r = Ok x /\ outputs (np_rk (w_np C w)) (ys ++ [a; b]) (np_rk (w_np C w1)) /\ good (np_rk (w_np C w1)) /\
     fits j (IZR (2 ^ 26 * (a / 2 ^ 5) + b / 2 ^ 6) / 2 ^ 53) x).
Proof.
  intros fuel o w o1 w1 r IU G H. destruct (in_use_is o IU) as [EP [U [I W]]]. destruct (popn_sample C fuel 1 (o, w)) as [[o2 w2] rr] eqn:PS.
  destruct (sample_draws fuel 1 o w o2 w2 rr U G ltac:(lia) PS) as [U2 [I2 [W2 D]]].
  assert (IU2 : in_use d vals logvals cut p o2). { destruct IU as [o0 [N [_ [A B]]]]. exists o0. split; [exact N|]. split; [exact U2|]. split; congruence. }
  unfold sample_one, bind, ret in H. rewrite PS in H. destruct D as [->|[out [idx [ys [-> [L [F2 [F [O [G2 X]]]]]]]]]].
  { injection H as <- <- <-. split; [exact IU2|now left]. }
  pose proof (draw_in o idx out I W F2) as DI. destruct out as [|i [|? ?]]; cbn [length] in L; try lia. pose proof (Forall_inv DI) as Hi. cbv beta in Hi.
  unfold at_index at 1 in H. cbn [nth_error] in H. rewrite EP, mk_intvls, mk_pdf in H. rewrite !at_map in H by exact Hi.
  destruct (rand_is o2 w2 G2) as [w3 [a [b [u [E [O3 [G3 [EU UB]]]]]]]]. rewrite E in H. injection H as <- <- <-. split; [exact IU2|]. right.
  exists ys, a, b, (nth i js 0%nat). eexists. split; [reflexivity|]. split; [eapply outputs_app; eassumption|]. split; [exact G3|]. rewrite <- EU. apply invert_fits; [now apply nth_In|lra].
Qed.
Lemma rands_are : forall m (o : @popn nat) (w : world C), good (np_rk (w_np C w)) -> exists w' ws us,
  np_rands C m (o, w) = ((o, w'), Ok us) /\ outputs (np_rk (w_np C w)) ws (np_rk (w_np C w')) /\ good (np_rk (w_np C w')) /\ length us = m /\ length ws = (2 * m)%nat /\
  forall k, (k < m)%nat -> 0 <= nth k us 0 < 1 /\ nth k us 0 = IZR (2 ^ 26 * (nth (2 * k) ws 0%Z / 2 ^ 5) + nth (2 * k + 1) ws 0%Z / 2 ^ 6) / 2 ^ 53.
Proof.
  induction m as [|m IH]; intros o w G.
  - exists w, [], []. split; [reflexivity|]. split; [constructor|]. split; [exact G|]. split; [reflexivity|]. split; [reflexivity|]. intros k K. lia.
  - destruct (rand_is o w G) as [w1 [a [b [u [E [O [G1 [EU UB]]]]]]]]. destruct (IH o w1 G1) as [w2 [ws [us [E2 [O2 [G2 [LU [LW K2]]]]]]]].
    exists w2, ([a; b] ++ ws), (u :: us). split; [cbn [np_rands]; unfold bind, ret; now rewrite E, E2|]. split; [eapply outputs_app; eassumption|]. split; [exact G2|].
    split; [cbn; lia|]. split; [cbn [app length]; lia|]. intros [|k] K.
    + cbn [nth app Nat.mul Nat.add]. split; [exact UB|exact EU].
    + replace (2 * S k)%nat with (S (S (2 * k))) by lia. cbn [nth app]. replace (S (S (2 * k)) + 1)%nat with (S (S (2 * k + 1))) by lia. cbn [nth]. apply K2. lia.
Qed.
Lemma all_at_map : forall A (f : nat -> A) is, List.Forall (fun i => (i < length js)%nat) is -> all_at (map f js) is = Ok (map (fun i => f (nth i js 0%nat)) is).
Proof. intros A f is F. induction F as [|i is I F IH]; [reflexivity|]. cbn [all_at map]. now rewrite at_map, IH by exact I. Qed.
Lemma inverts_are : forall (f g : nat -> R * R) is us k, length is = length us -> (k < length is)%nat ->
  nth k (inverts (map f is) (map g is) us) 0 = invert (f (nth k is 0%nat)) (g (nth k is 0%nat)) (nth k us 0) /\ length (inverts (map f is) (map g is) us) = length is.
Proof.
  intros f g. induction is as [|i is IH]; intros [|u us] k L K; cbn [length] in *; try lia. cbn [map inverts length]. destruct k as [|k].
  - split; [reflexivity|]. f_equal. destruct is as [|i' is']; [destruct us; [reflexivity|cbn in L; lia]|]. apply (IH us 0%nat); cbn in *; lia.
  - destruct (IH us k ltac:(lia) ltac:(lia)) as [A B]. split; [exact A|now rewrite B].
Qed.
Theorem sample_many_is : forall fuel m o w o1 w1 r, in_use d vals logvals cut p o -> good (np_rk (w_np C w)) -> (1 <= m)%Z -> sample_many C fuel m p (o, w) = ((o1, w1), r) ->
  in_use d vals logvals cut p o1 /\
  (r = Err OutOfFuel \/ exists ys ws is xs, r = Ok xs /\ Z.of_nat (length xs) = m /\ length is = length xs /\ length ws = (2 * length xs)%nat /\
     outputs (np_rk (w_np C w)) (ys ++ ws) (np_rk (w_np C w1)) /\ good (np_rk (w_np C w1)) /\
     forall k, (k < length xs)%nat -> fits (nth k is 0%nat) (IZR (2 ^ 26 * (nth (2 * k) ws 0%Z / 2 ^ 5) + nth (2 * k + 1) ws 0%Z / 2 ^ 6) / 2 ^ 53) (nth k xs 0)).
Proof.
  intros fuel m o w o1 w1 r IU G M H. destruct (in_use_is o IU) as [EP [U [I W]]]. destruct (popn_sample C fuel m (o, w)) as [[o2 w2] rr] eqn:PS.
  destruct (sample_draws fuel m o w o2 w2 rr U G M PS) as [U2 [I2 [W2 D]]].
  assert (IU2 : in_use d vals logvals cut p o2). { destruct IU as [o0 [N [_ [A B]]]]. exists o0. split; [exact N|]. split; [exact U2|]. split; congruence. }
  unfold sample_many, bind, ret in H. rewrite PS in H. destruct D as [->|[out [idx [ys [-> [L [F2 [F [O [G2 X]]]]]]]]]].
  { injection H as <- <- <-. split; [exact IU2|now left]. }
  pose proof (draw_in o idx out I W F2) as DI. rewrite EP, mk_intvls, mk_pdf in H. rewrite !all_at_map in H by exact DI.
  destruct (rands_are (Z.to_nat m) o2 w2 G2) as [w3 [ws [us [E [O3 [G3 [LU [LW K]]]]]]]]. rewrite E in H. injection H as <- <- <-. split; [exact IU2|]. right.
  assert (LO : length out = length us) by lia. destruct out as [|i0 out0]; [cbn in L; lia|]. set (out := i0 :: out0) in *.
  destruct (inverts_are (fun i => (nth (nth i js 0%nat) ab 0, nth (nth i js 0%nat + 1) ab 0))
     (fun i => (sh (nth i js 0%nat) / pk, sh (nth i js 0%nat + 1)%nat / pk)) out us 0 LO ltac:(cbn; lia)) as [_ LI].
  exists ys, ws, (map (fun i => nth i js 0%nat) out). eexists. split; [reflexivity|]. rewrite LI. split; [exact L|]. split; [apply map_length|]. split; [lia|]. split; [eapply outputs_app; eassumption|].
  split; [exact G3|]. intros k KL. destruct (K k ltac:(lia)) as [UB EU]. rewrite <- EU.
  destruct (inverts_are (fun i => (nth (nth i js 0%nat) ab 0, nth (nth i js 0%nat + 1) ab 0))
     (fun i => (sh (nth i js 0%nat) / pk, sh (nth i js 0%nat + 1)%nat / pk)) out us k LO KL) as [NK _].
  rewrite NK. rewrite (nth_map' _ _ (fun i => nth i js 0%nat) out k 0%nat) by exact KL. apply invert_fits; [|lra]. apply nth_In. rewrite Forall_forall in DI. apply DI, nth_In, KL.
Qed.
End Object.

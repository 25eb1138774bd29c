(** Polynomials in the coordinates of a region *)

From Coq Require Import List Bool Arith ZArith Reals Lra Lia.
From Coquelicot Require Import Coquelicot.
From Verif Require CubLemmas2.
From Verif Require Import Exn Instances McModel CountSpec McLemmas5 SySpec SyModel SyLemmas4 SyLemmas5 SyLemmas6 SyLemmas7 SyLemmas10 DcModel DcLemmas DcLemmas2 DcLemmas3.
Import ListNotations.
Open Scope R_scope.

Definition sumc (p : list (R * list nat)) (M : list nat -> R) : R := fold_right Rplus 0 (map (fun t => fst t * M (snd t)) p).
Lemma sumc_app : forall p q M, sumc (p ++ q) M = sumc p M + sumc q M.
Proof. intros p q M. unfold sumc. induction p as [|t p IH]; cbn [app map fold_right]; [ring|]. rewrite IH. ring. Qed.
Definition sum1 (p : list (R * nat)) (M : nat -> R) : R := fold_right Rplus 0 (map (fun t => fst t * M (snd t)) p).
Lemma sum1_app : forall p q M, sum1 (p ++ q) M = sum1 p M + sum1 q M.
Proof. intros p q M. unfold sum1. induction p as [|t p IH]; cbn [app map fold_right]; [ring|]. rewrite IH. ring. Qed.

(** (c + h u)^k in powers of u *)
Fixpoint bin (k : nat) (c h : R) : list (R * nat) :=
  match k with O => [(1, O)] | S k' => map (fun t => (c * fst t, snd t)) (bin k' c h) ++ map (fun t => (h * fst t, S (snd t))) (bin k' c h) end.
Lemma bin_val : forall k c h u, (c + u * h) ^ k = sum1 (bin k c h) (fun j => u ^ j).
Proof.
  intros k c h u. induction k as [|k IH]; [unfold sum1; cbn; ring|]. cbn [pow bin]. rewrite sum1_app, IH. generalize (bin k c h). intros p.
  unfold sum1. induction p as [|t p IH']; cbn [map fold_right fst snd pow]; [ring|]. rewrite Rmult_plus_distr_l, IH'. cbn [pow]. ring.
Qed.
Lemma bin_deg : forall k c h a j, In (a, j) (bin k c h) -> (j <= k)%nat.
Proof.
  induction k as [|k IH]; intros c h a j H; cbn [bin] in H; [destruct H as [[= _ <-]|[]]; lia|]. apply in_app_or in H.
  destruct H as [H|H]; apply in_map_iff in H; destruct H as ([b i] & [= _ <-] & H); apply IH in H; cbn [snd]; lia.
Qed.
Definition mom (j : nat) : R := span j (-1) 1.
Lemma bin_int : forall k c h, h * sum1 (bin k c h) mom = part1 k c h.
Proof.
  intros k c h. unfold mom, span. change (sum1 (bin k c h) (fun j => (1 ^ S j - (-1) ^ S j) / INR (S j))) with (fold_right Rplus 0 (map (fun t => fst t * ((1 ^ S (snd t) - (-1) ^ S (snd t)) / INR (S (snd t)))) (bin k c h))). rewrite <- RInt_sum.
  assert (P : is_RInt (fun x => x ^ k) (h * -1 + c) (h * 1 + c) (part1 k c h)).
  { unfold part1. replace (c + h) with (h * 1 + c) by ring. replace (c - h) with (h * -1 + c) by ring. exact (CubLemmas2.is_RInt_pow k (h * -1 + c) (h * 1 + c)). }
  apply (is_RInt_comp_lin (V := R_NormedModule)) in P. rewrite <- (is_RInt_unique (V := R_CompleteNormedModule) _ _ _ _ P). symmetry.
  assert (Q : ex_RInt (fun v => fold_right Rplus 0 (map (fun t => fst t * v ^ snd t) (bin k c h))) (-1) 1).
  { generalize (bin k c h). intros p. induction p as [|t p [l IH]]; cbn [map fold_right].
    - apply ex_RInt_const.
    - eexists. apply (is_RInt_plus (V := R_NormedModule) (fun v => fst t * v ^ snd t)); [|exact IH]. apply CubLemmas2.is_RInt_cst, CubLemmas2.is_RInt_pow. }
  etransitivity; [|exact (RInt_scal (V := R_CompleteNormedModule) _ _ _ h Q)]. apply RInt_ext. intros v _. unfold scal. cbn. unfold mult. cbn. f_equal. replace (h * v + c) with (c + v * h) by ring. apply bin_val.
Qed.

Fixpoint pull (ks : list nat) (c h : list R) : list (R * list nat) :=
  match ks, c, h with
  | k :: ks', x :: c', a :: h' => flat_map (fun t => map (fun s => (fst t * fst s, snd t :: snd s)) (pull ks' c' h')) (bin k x a)
  | _, _, _ => [(1, [])]
  end.
Lemma flat_sum : forall p q M N K, (forall j e, K (j :: e) = M j * N e) -> sumc (flat_map (fun t => map (fun s => (fst t * fst s, snd t :: snd s)) q) p) K = sum1 p M * sumc q N.
Proof.
  intros p q M N K H. induction p as [|t p IH]; [unfold sumc, sum1; cbn; ring|]. cbn [flat_map]. rewrite sumc_app, IH. replace (sum1 (t :: p) M) with (fst t * M (snd t) + sum1 p M) by reflexivity. rewrite Rmult_plus_distr_r. apply f_equal2; [|reflexivity]. clear IH.
  unfold sumc. induction q as [|s q IH']; cbn [map fold_right fst snd]; [ring|]. rewrite IH', H. ring.
Qed.
Lemma pull_val : forall ks c h u, length c = length ks -> length h = length ks -> length u = length ks -> monomial ks (aff c h u) = sumc (pull ks c h) (fun e => monomial e u).
Proof.
  induction ks as [|k ks IH]; intros [|x c] [|a h] [|v u] L1 L2 L3; try discriminate; [unfold sumc; cbn; ring|]. cbn [length] in *. cbn [aff monomial pull].
  rewrite (flat_sum _ _ (fun j => v ^ j) (fun e => monomial e u)) by reflexivity. rewrite <- IH by lia. now rewrite bin_val.
Qed.
Lemma pull_deg : forall ks c h a e, length c = length ks -> length h = length ks -> In (a, e) (pull ks c h) -> length e = length ks /\ (list_sum e <= list_sum ks)%nat.
Proof.
  induction ks as [|k ks IH]; intros [|x c] [|b h] a e L1 L2 H; try discriminate; cbn [length pull] in *; [destruct H as [[= _ <-]|[]]; split; [reflexivity|cbn; lia]|].
  apply in_flat_map in H. destruct H as ([q j] & Hj & H). apply in_map_iff in H. destruct H as ([q' e'] & [= _ <-] & H). apply IH in H; [|lia|lia]. apply bin_deg in Hj. cbn [length list_sum fold_right snd]. unfold list_sum in *. lia.
Qed.
Fixpoint moms (e : list nat) : R := match e with [] => 1 | j :: e' => mom j * moms e' end.
Lemma pull_int : forall ks c h, length c = length ks -> length h = length ks -> prodl h * sumc (pull ks c h) moms = parts1 ks c h.
Proof.
  induction ks as [|k ks IH]; intros [|x c] [|a h] L1 L2; try discriminate; [unfold sumc; cbn; ring|]. cbn [length prodl pull parts1] in *. rewrite (flat_sum _ _ mom moms) by reflexivity. rewrite <- IH, <- bin_int by lia. ring.
Qed.

(** A linear functional with given values for monomials of degree at most d *)
Section Linear.
Variable n : nat.
Variable L : (list R -> R) -> R.
Hypothesis lin : forall F G a b, L (fun u => a * F u + b * G u) = a * L F + b * L G.
Hypothesis ext : forall F G, (forall u, length u = n -> F u = G u) -> L F = L G.
Variables (d : nat) (M : list nat -> R).
Hypothesis LM : forall e, length e = n -> (list_sum e <= d)%nat -> L (monomial e) = M e.

Lemma lin_sum : forall p, (forall a e, In (a, e) p -> length e = n /\ (list_sum e <= d)%nat) -> L (fun u => sumc p (fun e => monomial e u)) = sumc p M.
Proof.
  induction p as [|[a e] p IH]; intros H.
  - unfold sumc. cbn [map fold_right]. rewrite (ext _ (fun u => 0 * 0 + 0 * 0)) by (intros; ring). rewrite lin. ring.
  - unfold sumc at 1. cbn [map fold_right fst snd]. rewrite (ext _ (fun u => a * monomial e u + 1 * sumc p (fun e => monomial e u))) by (intros; unfold sumc; ring).
    rewrite lin, IH by (intros b e' Hin; apply (H b e'); now right). destruct (H a e (or_introl eq_refl)). rewrite LM by assumption. unfold sumc. cbn [map fold_right fst snd]. ring.
Qed.
Lemma lin_mono : forall ks c h, length ks = n -> length c = n -> length h = n -> (list_sum ks <= d)%nat -> L (fun u => monomial ks (aff c h u)) = sumc (pull ks c h) M.
Proof.
  intros ks c h L1 L2 L3 D. rewrite (ext _ (fun u => sumc (pull ks c h) (fun e => monomial e u))) by (intros u Hu; apply pull_val; congruence).
  apply lin_sum. intros a e H. apply pull_deg in H; [|congruence|congruence]. split; [|lia]. destruct H. congruence.
Qed.
Lemma lin_poly : forall p c h, of_degree d n p -> length c = n -> length h = n -> L (fun u => poly p (aff c h u)) = sumc p (fun ks => sumc (pull ks c h) M).
Proof.
  induction p as [|[a e] p IH]; intros c h H L2 L3.
  - unfold sumc, poly. cbn [map fold_right]. rewrite (ext _ (fun u => 0 * 0 + 0 * 0)) by (intros; ring). rewrite lin. ring.
  - rewrite (ext _ (fun u => a * monomial e (aff c h u) + 1 * poly p (aff c h u))) by (intros; unfold poly; cbn [map fold_right fst snd]; ring).
    destruct (H a e (or_introl eq_refl)) as [H1 H2]. rewrite lin, lin_mono, IH; try assumption.
    + change (sumc ((a, e) :: p) (fun ks => sumc (pull ks c h) M)) with (a * sumc (pull e c h) M + sumc p (fun ks => sumc (pull ks c h) M)). ring.
    + intros b e' Hin. apply (H b e'). now right.
Qed.
End Linear.

Lemma sumc_zero : forall p, sumc p (fun _ => 0) = 0.
Proof. intros p. unfold sumc. induction p as [|t p IH]; cbn [map fold_right]; [reflexivity|]. rewrite IH. ring. Qed.
Lemma sumc_ext : forall p M N, (forall a e, In (a, e) p -> M e = N e) -> sumc p M = sumc p N.
Proof. intros p M N H. unfold sumc. f_equal. apply map_ext_in. intros [a e] Hin. cbn [fst snd]. now rewrite (H a e Hin). Qed.
Lemma sumc_scal : forall p M c, c * sumc p M = sumc p (fun e => c * M e).
Proof. intros p M c. unfold sumc. induction p as [|t p IH]; cbn [map fold_right]; [ring|]. rewrite <- IH. ring. Qed.
(** Exact and null rules *)
Lemma exact_poly : forall n L d p c h, (forall F G a b, L (fun u => a * F u + b * G u) = a * L F + b * L G) -> (forall F G, (forall u, length u = n -> F u = G u) -> L F = L G) ->
  (forall e, length e = n -> (list_sum e <= d)%nat -> L (monomial e) = moms e) -> of_degree d n p -> length c = n -> length h = n ->
  prodl h * L (fun u => poly p (aff c h u)) = sumc p (fun ks => parts1 ks c h).
Proof.
  intros n L d p c h H1 H2 H3 H4 H5 H6. rewrite (lin_poly n L H1 H2 d moms H3) by assumption. rewrite sumc_scal. apply sumc_ext. intros a e Hin. destruct (H4 a e Hin). apply pull_int; congruence.
Qed.
Lemma null_poly : forall n L d p c h, (forall F G a b, L (fun u => a * F u + b * G u) = a * L F + b * L G) -> (forall F G, (forall u, length u = n -> F u = G u) -> L F = L G) ->
  (forall e, length e = n -> (list_sum e <= d)%nat -> L (monomial e) = 0) -> of_degree d n p -> length c = n -> length h = n ->
  L (fun u => poly p (aff c h u)) = 0.
Proof.
  intros n L d p c h H1 H2 H3 H4 H5 H6. rewrite (lin_poly n L H1 H2 d (fun _ => 0) H3) by assumption. etransitivity; [|exact (sumc_zero p)]. apply sumc_ext. intros a e _. apply sumc_zero.
Qed.

(** The rule of DRLHRE *)
Section Rule.
Variables (n : nat) (t : table) (gsp : nat -> R * R * nat * nat) (g2 g3 : R).
Let L := LL n t gsp g2 g3.
Lemma sumR_lin : forall A (F G : A -> R) a b l, sumR (map (fun x => a * F x + b * G x) l) = a * sumR (map F l) + b * sumR (map G l).
Proof. intros A F G a b l. induction l as [|x l IH]; unfold sumR in *; cbn [map fold_right]; [ring|]. rewrite IH. ring. Qed.
Lemma sumR_ext : forall A (F G : A -> R) l, (forall x, In x l -> F x = G x) -> sumR (map F l) = sumR (map G l).
Proof. intros A F G l H. f_equal. now apply map_ext_in. Qed.
Lemma orb_lin : forall i F G a b, orb n gsp i (fun u => a * F u + b * G u) = a * orb n gsp i F + b * orb n gsp i G.
Proof. intros i F G a b. unfold orb. rewrite <- sumR_lin. apply sumR_ext. intros p _. apply sumR_lin. Qed.
Lemma axs_lin : forall v F G a b, axs n (fun u => a * F u + b * G u) v = a * axs n F v + b * axs n G v.
Proof. intros v F G a b. unfold axs. rewrite <- sumR_lin. apply sumR_ext. intros i _. ring. Qed.
Lemma LL_lin : forall w F G a b, L w (fun u => a * F u + b * G u) = a * L w F + b * L w G.
Proof.
  intros w F G a b. unfold L, LL. rewrite !axs_lin. rewrite (sumR_ext _ _ (fun i => a * (w i * orb n gsp i F) + b * (w i * orb n gsp i G))); [rewrite sumR_lin; ring|]. intros i _. rewrite orb_lin. ring.
Qed.
Lemma gs_len : forall phi p s, length s = length p -> length (gs phi p s) = length p.
Proof. intros phi. induction p as [|j p IH]; intros [|b s] H; try discriminate; [reflexivity|]. cbn [gs length] in *. now rewrite IH by lia. Qed.
Lemma signs_len : forall m s, In s (signs m) -> length s = length m.
Proof.
  induction m as [|b m IH]; intros s H; cbn [signs] in H; [destruct H as [<-|[]]; reflexivity|]. apply in_flat_map in H. destruct H as (x & Hx & H). apply IH in Hx. cbn [length]. destruct b; repeat destruct H as [<-|H]; cbn [length]; try lia; destruct H.
Qed.
Lemma orb_ext : forall i F G, (forall u, length u = n -> F u = G u) -> orb n gsp i F = orb n gsp i G.
Proof.
  intros i F G H. unfold orb. apply sumR_ext. intros p Hp. apply sumR_ext. intros s Hs. apply H. apply signs_len in Hs. unfold mask in Hs. rewrite map_length in Hs. rewrite gs_len by exact Hs.
  unfold g_sel in Hp. destruct (gsp i) as [[[x1 x2] c1] c2]. apply sel_iff in Hp. tauto.
Qed.
Lemma LL_ext : forall w F G, (forall u, length u = n -> F u = G u) -> L w F = L w G.
Proof.
  intros w F G H. unfold L, LL. rewrite (H (repeat 0 n)) by apply repeat_length. assert (A : forall v, axs n F v = axs n G v).
  { intros v. unfold axs. apply sumR_ext. intros i Hi. apply in_seq in Hi. rewrite !H by (apply ax_len; lia). reflexivity. }
  rewrite !A. f_equal. apply sumR_ext. intros i _. now rewrite (orb_ext i F G).
Qed.

(** Monomials *)
Lemma mono_zero : forall e, monomial e (repeat 0 (length e)) = if forallb (Nat.eqb 0) e then 1 else 0.
Proof. induction e as [|k e IH]; [reflexivity|]. cbn [length repeat monomial forallb]. rewrite IH. destruct k; cbn [Nat.eqb andb pow]; ring. Qed.
Lemma ax_1 : forall k v, ax (S k) 1 v = v :: repeat 0 k.
Proof. reflexivity. Qed.
Lemma ax_S : forall k i v, (1 <= i)%nat -> ax (S k) (S i) v = 0 :: ax k i v.
Proof. intros k [|i] v H; [lia|]. unfold ax. cbn [Nat.sub]. rewrite Nat.sub_0_r. reflexivity. Qed.
Lemma axs_mono : forall e v, axs (length e) (monomial e) v = axis_sum e v.
Proof.
  induction e as [|k e IH]; intros v; [reflexivity|]. unfold axs. cbn [length seq map]. change (seq 2 (length e)) with (seq (S 1) (length e)). rewrite <- seq_shift, map_map. rewrite !ax_1.
  unfold sumR at 1. cbn [fold_right]. cbn [monomial axis_sum]. rewrite mono_zero. rewrite <- IH. unfold axs. rewrite <- sumR_scal.
  match goal with |- _ + _ + fold_right Rplus 0 ?l = _ => change (fold_right Rplus 0 l) with (sumR l) end.
  rewrite (sumR_ext _ _ (fun i => 0 ^ k * (monomial e (ax (length e) i (- v)) + monomial e (ax (length e) i v)))).
  - ring.
  - intros i Hi. apply in_seq in Hi. rewrite !ax_S by lia. cbn [monomial]. ring.
Qed.
Lemma orb_mono : forall i e x1 x2 c1 c2, gsp i = (x1, x2, c1, c2) -> 0 < x1 < x2 -> length e = n -> orb n gsp i (monomial e) = esum e x1 x2 c1 c2.
Proof.
  intros i e x1 x2 c1 c2 E G Le. unfold orb, g_phi, g_sel. rewrite E. rewrite (sumR_ext _ _ (cellsm (gphi x1 x2) e)).
  - rewrite <- Le. apply (sel_sum (gphi x1 x2)).
  - intros p Hp. apply sel_iff in Hp. apply signs_sum; [|lia]. reflexivity.
Qed.
Lemma LL_mono : forall w e, length e = n -> (forall i, In i (seq 4 (t_len t - 3)) -> let '(x1, x2, c1, c2) := gsp i in 0 < x1 < x2) ->
  L w (monomial e) = w 1%nat * esum e 0 0 0 0 + w 2%nat * esum e g2 0 1 0 + w 3%nat * esum e g3 0 1 0 + sumR (map (fun i => w i * (let '(x1, x2, c1, c2) := gsp i in esum e x1 x2 c1 c2)) (seq 4 (t_len t - 3))).
Proof.
  intros w e Le G. unfold L, LL. rewrite <- Le at 1. rewrite mono_zero, esum_0. replace (axs n (monomial e) g2) with (axs (length e) (monomial e) g2) by now rewrite Le. replace (axs n (monomial e) g3) with (axs (length e) (monomial e) g3) by now rewrite Le. rewrite !axs_mono, !axis_esum.
  f_equal. apply sumR_ext. intros i Hi. specialize (G i Hi). destruct (gsp i) as [[[x1 x2] c1] c2] eqn:E. now rewrite (orb_mono i e x1 x2 c1 c2 E G Le).
Qed.
End Rule.

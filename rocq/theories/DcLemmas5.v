(** The rule of degree 7 *)

From Coq Require Import List Bool Arith ZArith Reals Lra Lia.
From Verif Require Import Exn Instances McModel CountSpec McLemmas5 SySpec SyModel SyLemmas7 SyLemmas10 DcModel DcLemmas DcLemmas2 DcLemmas3 DcLemmas4.
Import ListNotations.
Open Scope R_scope.

Ltac nums := repeat match goal with |- _ /\ _ => split end; try (apply IZR_neq; discriminate); try lra.
Lemma lam0_is : lam0 = 15794071 / 33554432.
Proof. unfold lam0. reflexivity. Qed.
Lemma lam1_is : lam1 = 63176284 / 69138905.
Proof. unfold lam1. rewrite lam0_is. field; nums. Qed.
Lemma ratio_is : ratio = -21692941 / 622250145.
Proof. unfold ratio. rewrite lam0_is, lam1_is. field; nums. Qed.
Lemma lam2_is : lam2 = 1731065433966472 / 10498783308787235.
Proof. unfold lam2. rewrite ratio_is, lam0_is, lam1_is. field; nums. Qed.

Lemma tw_pow : forall n, twondm n = 2 ^ n.
Proof. intros n. unfold twondm. rewrite <- pow_IZR. reflexivity. Qed.
Lemma tw_pos : forall n, 0 < twondm n.
Proof. intros n. rewrite tw_pow. apply pow_lt. lra. Qed.

(** Moments of even exponents *)
Fixpoint recip (l : list nat) : R := match l with [] => 1 | k :: l' => / INR (S k) * recip l' end.
Lemma mom_even : forall k, Nat.even k = true -> mom k = 2 * / INR (S k).
Proof. intros k H. unfold mom, span. replace (-1) with (- (1)) by ring. rewrite pow_opp, Nat.even_succ, <- Nat.negb_even, H. cbn [negb]. rewrite pow1. unfold Rdiv. ring. Qed.
Lemma mom_odd : forall k, Nat.odd k = true -> mom k = 0.
Proof. intros k H. unfold mom, span. replace (-1) with (- (1)) by ring. rewrite pow_opp, Nat.even_succ, H. unfold Rdiv. ring. Qed.
Lemma moms_odd : forall e, existsb Nat.odd e = true -> moms e = 0.
Proof.
  induction e as [|k e IH]; intros H; [discriminate|]. cbn [existsb moms] in *. destruct (Nat.odd k) eqn:K; [rewrite mom_odd by exact K; ring|]. rewrite IH by exact H. ring.
Qed.
Lemma moms_even : forall e, evens e -> moms e = 2 ^ length e * recip (nz e).
Proof.
  induction e as [|k e IH]; intros H; [cbn; ring|]. cbn [moms length pow]. rewrite IH by (intros q Hq; apply H; now right). rewrite mom_even by (apply H; now left). unfold nz. cbn [filter]. destruct k; cbn [Nat.eqb negb recip]; [cbn [INR]; field|ring].
Qed.
Lemma odd_or_even : forall e, existsb Nat.odd e = true \/ evens e.
Proof.
  induction e as [|k e [IH|IH]]; [right; intros k []|left; cbn; rewrite IH; apply orb_true_r|]. destruct (Nat.odd k) eqn:K; [left; cbn; now rewrite K|right].
  intros q [<-|Hq]; [|now apply IH]. rewrite <- Nat.negb_odd, K. reflexivity.
Qed.
Lemma nz_in : forall e k, In k (nz e) -> In k e /\ k <> 0%nat.
Proof. intros e k H. apply filter_In in H. destruct H as [H1 H2]. split; [exact H1|]. destruct k; [discriminate|lia]. Qed.

(** The exponents that are not 0 *)
Lemma even_cases : forall m, forall l, (forall k, In k l -> Nat.even k = true /\ k <> 0%nat) -> (list_sum l <= 2 * m + 1)%nat -> exists l', l = map (fun a => 2 * S a)%nat l' /\ (list_sum l' + length l' <= m)%nat.
Proof.
  intros m l. revert m. induction l as [|k l IH]; intros m H SU; [exists []; split; [reflexivity|cbn; lia]|]. cbn [list_sum fold_right] in SU. fold (list_sum l) in SU.
  destruct (H k (or_introl eq_refl)) as [E N]. apply Nat.even_spec in E. destruct E as [a E]. destruct a as [|a]; [lia|]. destruct (IH (m - S a)%nat) as (l' & -> & SU'); [intros q Hq; apply H; now right|lia|].
  exists (a :: l'). split; [cbn [map]; f_equal; lia|]. cbn [list_sum fold_right length]. fold (list_sum l'). lia.
Qed.

Lemma map_rep : forall (g : nat -> R) a k, map g (repeat a k) = repeat (g a) k.
Proof. intros g a k. induction k as [|k IH]; [reflexivity|]. cbn. now rewrite IH. Qed.
Section Seven.
Variable n : nat.
Hypothesis n2 : (2 <= n)%nat.
Definition gsp7 (i : nat) : R * R * nat * nat :=
  match i with 4%nat => (sqrt lamp7, sqrt lamp7 + 1, 1%nat, 0%nat) | 5%nat => (sqrt lam1, sqrt lam1 + 1, 2%nat, 0%nat) | _ => (sqrt lam0, sqrt lam0 + 1, n, 0%nat) end.
Let t := d07hre n.
Lemma sqrts : 0 < sqrt lamp7 /\ 0 < sqrt lam1 /\ 0 < sqrt lam0 /\ 0 < sqrt lam2.
Proof. repeat split; apply sqrt_lt_R0; [unfold lamp7|rewrite lam1_is|rewrite lam0_is|rewrite lam2_is]; lra. Qed.
Lemma gens_ones : forall x1 x2 c, (c <= n)%nat -> gens n (repeat x1 c) = map (gphi x1 x2) (ones n c 0).
Proof. intros x1 x2 c H. unfold gens, ones. rewrite repeat_length. rewrite !map_app, !map_rep. cbn [repeat map app gphi]. now rewrite Nat.sub_0_r. Qed.
Lemma gok7 : forall i, In i (seq 4 (t_len t - 3)) -> g_ok n gsp7 i /\ t_g t i = map (g_phi gsp7 i) (g_ones n gsp7 i).
Proof.
  intros i Hi. destruct sqrts as (S1 & S2 & S3 & S4). cbn in Hi. destruct Hi as [<-|[<-|[<-|[]]]]; unfold g_ok, g_phi, g_ones; cbn [gsp7 t_g t d07hre g7]; (split; [split; [lra|lia]|]).
  - apply (gens_ones _ (sqrt lamp7 + 1) 1). lia.
  - apply (gens_ones _ (sqrt lam1 + 1) 2). lia.
  - rewrite <- (gens_ones (sqrt lam0) (sqrt lam0 + 1) n) by lia. unfold gens. rewrite repeat_length, Nat.sub_diag. cbn [repeat]. now rewrite app_nil_r.
Qed.
Definition L7 (j : nat) : (list R -> R) -> R := LL n t gsp7 (sqrt lam2) (sqrt lam1) (t_w t j).

(** The sums for the exponents that are not 0, all of them even *)
Definition M7 (w : nat -> R) (l : list nat) : R :=
  let m := (list_sum l / 2)%nat in
  match l with
  | [] => w 1%nat + 2 * INR n * (w 2%nat + w 3%nat + w 4%nat) + 2 * INR n * (INR n - 1) * w 5%nat + twondm n * w 6%nat
  | [_] => 2 * (w 2%nat * lam2 ^ m + w 3%nat * lam1 ^ m + w 4%nat * lamp7 ^ m) + 4 * (INR n - 1) * (w 5%nat * lam1 ^ m) + twondm n * w 6%nat * lam0 ^ m
  | [_; _] => 4 * (w 5%nat * lam1 ^ m) + twondm n * w 6%nat * lam0 ^ m
  | _ => twondm n * w 6%nat * lam0 ^ m
  end.
Lemma sqrt_even : forall x k, 0 <= x -> Nat.even k = true -> sqrt x ^ k = x ^ (k / 2).
Proof.
  intros x k Hx H. apply Nat.even_spec in H. destruct H as [m ->]. rewrite (Nat.mul_comm 2), Nat.div_mul, Nat.mul_comm, pow_mult by lia. now rewrite pow2_sqrt.
Qed.
Lemma sum_even : forall l, (forall k, In k l -> Nat.even k = true) -> Nat.even (list_sum l) = true.
Proof.
  induction l as [|k l IH]; intros H; [reflexivity|]. cbn [list_sum fold_right]. fold (list_sum l). rewrite Nat.even_add, IH, (H k (or_introl eq_refl)) by (intros q Hq; apply H; now right). reflexivity.
Qed.
Lemma esum_1 : forall e x y, evens e -> length e = n -> esum e x y 1 0 = match nz e with [] => 2 * INR n | [k] => 2 * x ^ k | _ => 0 end.
Proof.
  intros e x y H L. rewrite esum_one by exact H. unfold zs. rewrite L. destruct (nz e) as [|k [|k' l]]; cbn [length Nat.leb Nat.sub pp]; [|rewrite bb_0|]; try ring. rewrite Nat.sub_0_r, bb_1. ring.
Qed.
Lemma esum_2 : forall e x y, evens e -> length e = n -> esum e x y 2 0 = match nz e with [] => 2 * INR n * (INR n - 1) | [k] => 4 * (INR n - 1) * x ^ k | [k; k'] => 4 * x ^ (k + k') | _ => 0 end.
Proof.
  intros e x y H L. rewrite esum_one by exact H. unfold zs. rewrite L. destruct (nz e) as [|k [|k' [|k'' l]]]; cbn [length Nat.leb Nat.sub pp]; [| |rewrite bb_0|]; try ring.
  - rewrite Nat.sub_0_r, bb_2. ring.
  - rewrite bb_1, minus_INR by lia. cbn [INR]. ring.
  - rewrite pow_add. ring.
Qed.
Lemma esum_0' : forall e x y, esum e x y 0 0 = match nz e with [] => 1 | _ => 0 end.
Proof.
  intros e x y. rewrite esum_0. induction e as [|k e IH]; [reflexivity|]. unfold nz in *. cbn [forallb filter]. destruct k; cbn [Nat.eqb andb negb]; [exact IH|reflexivity].
Qed.
Lemma esum_n : forall e x y, evens e -> length e = n -> esum e x y n 0 = 2 ^ n * x ^ list_sum (nz e).
Proof. intros e x y H L. rewrite <- L, nz_sum. apply esum_full, H. Qed.
Lemma L7_even : forall j e, length e = n -> evens e -> L7 j (monomial e) = M7 (t_w t j) (nz e).
Proof.
  intros j e Le Ev. unfold L7. rewrite LL_mono.
  - change (seq 4 (t_len t - 3)) with [4; 5; 6]%nat. cbn [map gsp7]. unfold sumR. cbn [fold_right].
    rewrite esum_0', !esum_1, esum_2, esum_n by assumption. assert (Q := sum_even (nz e) (fun k Hk => Ev k (proj1 (nz_in e k Hk)))).
    assert (P : forall x, 0 <= x -> sqrt x ^ list_sum (nz e) = x ^ (list_sum (nz e) / 2)) by (intros x Hx; now apply sqrt_even).
    assert (H1 : 0 <= lam1) by (rewrite lam1_is; lra). assert (H2 : 0 <= lam2) by (rewrite lam2_is; lra). assert (H3 : 0 <= lamp7) by (unfold lamp7; lra). assert (H0 : 0 <= lam0) by (rewrite lam0_is; lra).
    assert (P1 := P _ H1). assert (P2 := P _ H2). assert (P3 := P _ H3). assert (P0 := P _ H0). rewrite P0. rewrite tw_pow || rewrite <- tw_pow. unfold M7. rewrite ?tw_pow.
    destruct (nz e) as [|k [|k' [|k'' l]]]; cbn [list_sum fold_right] in *; rewrite ?Nat.add_0_r in *; rewrite ?P1, ?P2, ?P3; cbn [Nat.div Nat.divmod fst pow]; ring.
  - exact Le.
  - intros i Hi. destruct (gok7 i Hi) as [G _]. unfold g_ok in G. destruct (gsp7 i) as [[[x1 x2] c1] c2]. tauto.
Qed.
Lemma L7_odd : forall j e, length e = n -> existsb Nat.odd e = true -> L7 j (monomial e) = 0.
Proof.
  intros j e Le Od. unfold L7. rewrite LL_mono.
  - change (seq 4 (t_len t - 3)) with [4; 5; 6]%nat. cbn [map gsp7]. unfold sumR. cbn [fold_right]. rewrite !esum_odd by exact Od. ring.
  - exact Le.
  - intros i Hi. destruct (gok7 i Hi) as [G _]. unfold g_ok in G. destruct (gsp7 i) as [[[x1 x2] c1] c2]. tauto.
Qed.

(** Moments of the weights as they are given *)
Lemma b7 : twondm n * w7_16 n = 1 / (3 * lam0) ^ 3 /\ twondm n * w7_26 n = 1 / (36 * lam0 ^ 3) /\ twondm n * w7_36 n = 5 / (108 * lam0 ^ 3) /\ twondm n * w7_46 n = 1 / (54 * lam0 ^ 3).
Proof.
  assert (T := tw_pos n). unfold w7_16, w7_26, w7_36, w7_46. assert (Z : lam0 <> 0) by (rewrite lam0_is; lra). repeat split; field; split; try assumption; lra.
Qed.
Definition R7 (j : nat) (l : list nat) : R := M7 (raw7 n j) l.
Ltac row B := unfold R7, M7; cbn [list_sum fold_right Nat.div Nat.divmod fst Nat.add raw7];
  unfold w7_13, w7_12, w7_15, w7_23, w7_22, w7_25, w7_33, w7_34, w7_35, w7_43, w7_42, w7_45, nd;
  rewrite ?(Rmult_assoc 5 (twondm n)), ?(Rmult_assoc 9 (twondm n)), ?(Rmult_assoc 10 (twondm n)), ?(Rmult_assoc 18 (twondm n)), ?B;
  unfold lamp7; rewrite ?lam2_is, ?lam1_is, ?lam0_is; field; nums.
Lemma r7_1 : R7 1 [2%nat] = / 3 /\ R7 1 [4%nat] = / 5 /\ R7 1 [6%nat] = / 7 /\ R7 1 [2; 2]%nat = / 9 /\ R7 1 [4; 2]%nat = / 15 /\ R7 1 [2; 4]%nat = / 15 /\ R7 1 [2; 2; 2]%nat = / 27.
Proof. destruct b7 as (B & _). repeat split; row B. Qed.
Lemma r7_2 : R7 2 [2%nat] = / 3 /\ R7 2 [4%nat] = / 5 /\ R7 2 [2; 2]%nat = / 9.
Proof. destruct b7 as (_ & B & _). repeat split; row B. Qed.
Lemma r7_3 : R7 3 [2%nat] = / 3 /\ R7 3 [4%nat] = / 5 /\ R7 3 [2; 2]%nat = / 9.
Proof. destruct b7 as (_ & _ & B & _). repeat split; row B. Qed.
Lemma r7_4 : R7 4 [2%nat] = / 3.
Proof. destruct b7 as (_ & _ & _ & B). row B. Qed.

(** The weights of the table *)
Lemma M7_1 : forall l, l <> [] -> M7 (t_w t 1) l = twondm n * R7 1 l.
Proof. intros l H. unfold R7, M7. cbn [t t_w d07hre finish_w]. destruct l as [|k [|k' [|k'' l]]]; [congruence| | |]; ring. Qed.
Lemma M7_j : forall j l, (2 <= j)%nat -> l <> [] -> M7 (t_w t j) l = R7 j l - R7 1 l.
Proof. intros j l Hj H. unfold R7, M7. cbn [t t_w d07hre]. destruct j as [|[|j]]; [lia|lia|]. cbn [finish_w]. destruct l as [|k [|k' [|k'' l]]]; [congruence| | |]; ring. Qed.
Lemma M7_0 : forall j, (1 <= j)%nat -> M7 (t_w t j) [] = if Nat.eqb j 1 then twondm n else 0.
Proof.
  intros j Hj. unfold M7. cbn [t t_w d07hre]. destruct j as [|[|j]]; [lia| |]; cbn [finish_w Nat.eqb seq Nat.sub fold_left pts7]; unfold nd; ring.
Qed.
Lemma L7_exact : forall e, length e = n -> (list_sum e <= 7)%nat -> L7 1 (monomial e) = moms e.
Proof.
  intros e Le S. destruct (odd_or_even e) as [O|E]; [rewrite L7_odd, moms_odd by assumption; reflexivity|]. rewrite L7_even, moms_even by assumption. rewrite Le, <- tw_pow.
  destruct (even_cases 3 (nz e)) as (l & -> & D); [intros k Hk; apply nz_in in Hk; destruct Hk; split; [now apply E|assumption]|rewrite nz_sum; lia|].
  destruct l as [|a [|b [|c [|q l]]]]; cbn [list_sum fold_right length] in D; cbn [map].
  - rewrite M7_0 by lia. cbn. ring.
  - rewrite M7_1 by discriminate. destruct r7_1 as (A1 & A2 & A3 & _). destruct a as [|[|[|a]]]; [| | |lia]; cbn [Nat.mul Nat.add]; rewrite ?A1, ?A2, ?A3; cbn [recip INR]; field.
  - rewrite M7_1 by discriminate. destruct r7_1 as (_ & _ & _ & A1 & A2 & A3 & _). destruct a as [|[|a]], b as [|[|b]]; try lia; cbn [Nat.mul Nat.add]; rewrite ?A1, ?A2, ?A3; cbn [recip INR]; field.
  - rewrite M7_1 by discriminate. destruct r7_1 as (_ & _ & _ & _ & _ & _ & A). destruct a, b, c; try lia. cbn [Nat.mul Nat.add]. rewrite A. cbn [recip INR]. field.
  - lia.
Qed.
Lemma L7_null : forall e k d, length e = n -> (k, d) = (1%nat, 5%nat) \/ (k, d) = (2%nat, 5%nat) \/ (k, d) = (3%nat, 3%nat) \/ (k, d) = (4%nat, 1%nat) -> (list_sum e <= d)%nat -> L7 (k + 1) (monomial e) = 0.
Proof.
  intros e k d Le K S. destruct (odd_or_even e) as [O|E]; [now apply L7_odd|]. rewrite L7_even by assumption.
  assert (X : (1 <= k)%nat /\ (d <= 5)%nat) by (destruct K as [[= -> ->]|[[= -> ->]|[[= -> ->]|[= -> ->]]]]; lia).
  destruct (even_cases ((d - 1) / 2) (nz e)) as (l & -> & D).
  - intros q Hq; apply nz_in in Hq; destruct Hq; split; [now apply E|assumption].
  - rewrite nz_sum. destruct K as [[= -> ->]|[[= -> ->]|[[= -> ->]|[= -> ->]]]]; cbn [Nat.div Nat.divmod Nat.sub fst]; lia.
  - destruct l as [|a l]; cbn [map]; [rewrite M7_0 by lia; destruct (Nat.eqb_spec (k + 1) 1); [lia|reflexivity]|]. rewrite M7_j by (lia || discriminate).
    destruct r7_1 as (A1 & A2 & _ & A3 & _). destruct r7_2 as (B1 & B2 & B3). destruct r7_3 as (C1 & C2 & C3). assert (D1 := r7_4).
    destruct K as [[= -> ->]|[[= -> ->]|[[= -> ->]|[= -> ->]]]]; cbn [Nat.div Nat.divmod Nat.sub fst list_sum fold_right length Nat.add] in *.
    1,2: destruct l as [|b [|c l]]; cbn [list_sum fold_right length map] in *; [destruct a as [|[|a]]; [| |lia]|destruct a, b; try lia|lia]; cbn [Nat.mul Nat.add]; lra.
    + destruct l as [|b l]; cbn [list_sum fold_right length map] in *; [|lia]. destruct a; [|lia]. cbn [Nat.mul Nat.add]. lra.
    + lia.
Qed.
End Seven.

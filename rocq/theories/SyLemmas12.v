(** adapt with the rules of SYMRL, for polynomials *)

From Coq Require Import List Bool Arith ZArith Reals Permutation Lra Lia.
From Verif Require Import Exn Instances CountSpec McModel McLemmas5 BaModel BaLemmas ObsModel AdModel AdSpec AdLemmas AdLemmas2 AdLemmas3 AdLemmas4 AdLemmas5 AdLemmas6.
From Verif Require Import SyModel SyLemmas SyLemmas9 SySpec SyLemmas10 SyLemmas11.
Import ListNotations.
Open Scope R_scope.

Lemma f2_len : forall a b, List.Forall2 Rlt a b -> length b = length a.
Proof. intros a b H. induction H as [|l u lo up _ _ IH]; [reflexivity|]. cbn. now rewrite IH. Qed.

(** Moving along an axis *)
Lemma along_1 : forall t v x, along 1 t (v :: x) = (v + t) :: x.
Proof.
  intros t v x. apply (nth_ext _ _ 0 0); [now rewrite along_len|]. rewrite along_len. intros k Hk. rewrite nth_along by exact Hk.
  destruct k as [|k]; cbn [nth Nat.eqb]; ring.
Qed.
Lemma along_S : forall a t v x, (1 <= a)%nat -> along (S a) t (v :: x) = v :: along a t x.
Proof.
  intros a t v x Ha. apply (nth_ext _ _ 0 0); [cbn [length]; now rewrite !along_len|]. rewrite along_len. intros k Hk. rewrite nth_along by exact Hk.
  destruct k as [|k]; cbn [nth Nat.eqb]; [destruct a; [lia|]; ring|]. cbn [length] in Hk. rewrite nth_along by lia. reflexivity.
Qed.
Lemma comp_S : forall a v x, (1 <= a)%nat -> comp (S a) (v :: x) = comp a x.
Proof. intros [|a] v x H; [lia|]. unfold comp. cbn. now rewrite Nat.sub_0_r. Qed.

Lemma parts1_additive : forall ks a c h, (1 <= a <= length c)%nat -> length h = length c -> length ks = length c ->
  parts1 ks c h = parts1 ks (low_centre a c h) (half_half a h) + parts1 ks (high_centre a c h) (half_half a h).
Proof.
  induction ks as [|k ks IH]; intros a [|x c] [|b h] Ha Lh Lk; try discriminate; cbn [length] in *; [lia|].
  unfold low_centre, high_centre, half_half. destruct (Nat.eq_dec a 1) as [->|Ne].
  - rewrite !along_1. replace (comp 1 (b :: h)) with b by reflexivity. cbn [parts1]. unfold part1.
    replace (x + - (b / 2) + (b + - (b / 2))) with x by field. replace (x + b / 2 - (b + - (b / 2))) with x by field.
    replace (x + - (b / 2) - (b + - (b / 2))) with (x - b) by field. replace (x + b / 2 + (b + - (b / 2))) with (x + b) by field. field. apply not_0_INR. lia.
  - destruct a as [|a]; [lia|]. rewrite !along_S, comp_S by lia. cbn [parts1]. assert (E := IH a c h ltac:(lia) ltac:(lia) ltac:(lia)). unfold low_centre, high_centre, half_half in E. rewrite E. ring.
Qed.

Lemma along_in : forall a t x v, In v (along a t x) -> exists j, (1 <= j <= length x)%nat /\ v = comp j x + (if Nat.eqb j a then t else 0).
Proof. intros a t x v H. unfold along in H. apply in_map_iff in H. destruct H as (j & <- & Hj). apply in_seq in Hj. exists j. split; [lia|reflexivity]. Qed.
Lemma half_pos : forall a h, (forall v, In v h -> 0 < v) -> forall v, In v (half_half a h) -> 0 < v.
Proof.
  intros a h H v Hv. unfold half_half in Hv. destruct (along_in _ _ _ _ Hv) as (j & Hj & ->). assert (P : 0 < comp j h) by (apply H; unfold comp; apply nth_In; lia).
  destruct (Nat.eqb_spec j a) as [Q|Q]; [rewrite <- Q|]; lra.
Qed.
Lemma half_of_pos : forall lower upper, List.Forall2 Rlt lower upper -> forall v, In v (half_of lower upper) -> 0 < v.
Proof. intros lower upper H. unfold half_of. induction H as [|l u lower upper H HF IH]; intros v Hv; [destruct Hv|]. cbn [combine map fst snd] in Hv. destruct Hv as [<-|Hv]; [lra|now apply IH]. Qed.

Lemma corners : forall lower upper, length upper = length lower -> low_corner (centre_of lower upper) (half_of lower upper) = lower /\ high_corner (centre_of lower upper) (half_of lower upper) = upper.
Proof.
  unfold low_corner, high_corner, centre_of, half_of. induction lower as [|l lower IH]; intros [|u upper] L; try discriminate; [now split|]. cbn [combine map fst snd]. destruct (IH upper) as [E1 E2]; [now injection L|]. rewrite E1, E2. split; f_equal; field.
Qed.

(** The integral over a box *)
Section Poly.
Variable p : list (R * list nat).
Variable n : nat.
Hypothesis n_ok : (2 <= n <= 20)%nat.
Hypothesis p_ok : tame 1 n p.

Definition mu (c h : list R) : R := if Nat.eqb (length c) n then fold_right Rplus 0 (map (fun t => fst t * parts1 (snd t) c h) p) else 0.
Definition f (x : list R) : res R := Ok (poly p x).
Definition ideal (c h : list R) (o : nat) : res (R * Z) := Ok (mu c h, points n).

Lemma mu_additive : additive mu.
Proof.
  intros a c h Ha Lh. unfold mu. unfold low_centre at 1, high_centre at 1. rewrite !along_len. destruct (Nat.eqb_spec (length c) n) as [E|]; [|ring].
  assert (K : forall c' ks, In (c', ks) p -> length ks = n) by (intros c' ks Hin; now destruct (p_ok c' ks Hin)).
  clear p_ok. induction p as [|[q ks] p' IH]; cbn [map fold_right fst snd]; [ring|]. rewrite IH by (intros c' ks' Hin; apply (K c'); now right).
  rewrite (parts1_additive ks a c h) by (rewrite ?(K q ks (or_introl eq_refl)); congruence || lia). ring.
Qed.
Lemma mu_integral : forall c h, length c = n -> length h = n -> mu c h = integral (low_corner c h) (high_corner c h) (poly p).
Proof.
  intros c h Lc Lh. unfold mu. rewrite Lc, Nat.eqb_refl. rewrite integral_poly.
  - f_equal. apply map_ext. intros [q ks]. cbn [fst snd]. f_equal. apply parts1_spans. lia.
  - unfold low_corner, high_corner. now rewrite !map_length.
  - intros q ks Hin. destruct (p_ok q ks Hin) as (T1 & _). unfold low_corner. rewrite map_length, combine_length. lia.
Qed.
Lemma rule_ideal : forall c h o, length c = n -> length h = n -> (forall a, In a h -> 0 < a) -> (2 <= o <= 4)%nat -> rule f c h o = ideal c h o.
Proof.
  intros c h o Lc Lh Hp Ho. rewrite (rule_exact f p n c h o) by (assumption || lia || reflexivity || (intros q ks Hin; destruct (p_ok q ks Hin) as (T1 & T2 & T3); repeat split; [exact T1|exact T2|lia])).
  unfold ideal. rewrite mu_integral by assumption. replace (Nat.max 4 o) with 4%nat by lia. rewrite points_is by lia. reflexivity.
Qed.
Lemma orders_stop : forall symrl c h mv em v z, (forall o, (2 <= o <= 4)%nat -> symrl c h o = Ok (v, z)) -> bsrl_orders symrl c h mv em 4 8 = Ok (0, v, z).
Proof.
  intros symrl c h mv em v z H. cbn [bsrl_orders]. cbn [Nat.sub]. rewrite !H by lia. cbn [fst snd]. replace (v - v) with 0 by ring. rewrite Rabs_R0. replace (Reqb 0 0) with true by (symmetry; now apply Reqb_spec).
  replace (Rleb 0 (5 * 0)) with true by (symmetry; apply Rleb_spec; lra). reflexivity.
Qed.
Lemma bsrl_ideal : forall c h mv em d, length c = n -> length h = n -> (forall a, In a h -> 0 < a) -> bsrl f (rule f) n c h mv em d = bsrl f ideal n c h mv em d.
Proof.
  intros c h mv em d Lc Lh Hp. unfold bsrl. rewrite (orders_stop (rule f) c h mv em (mu c h) (points n)), (orders_stop ideal c h mv em (mu c h) (points n)); try reflexivity.
  intros o Ho. now rewrite rule_ideal.
Qed.
Section Box.
Variables lower upper : list R.
Hypothesis lower_n : length lower = n.
Hypothesis in_order : List.Forall2 Rlt lower upper.
Lemma upper_n : length upper = length lower.
Proof. exact (f2_len _ _ in_order). Qed.
Lemma adapt_ideal : forall relacc maxfac wrkfac, adapt f (rule f) lower upper relacc maxfac wrkfac = adapt f ideal lower upper relacc maxfac wrkfac.
Proof.
  intros relacc maxfac wrkfac. apply (adapt_cong f f ideal (rule f) (fun _ h => forall a, In a h -> 0 < a)).
  - lia.
  - apply upper_n.
  - intros x c h _ _ _ H. split; now apply half_pos.
  - intros c h mv em d Lc Lh H. rewrite lower_n in *. now apply bsrl_ideal.
  - now apply half_of_pos.
Qed.
Definition I : R := integral lower upper (poly p).
Lemma mu_whole : mu (centre_of lower upper) (half_of lower upper) = I.
Proof.
  destruct (box_len lower upper upper_n) as [A B]. rewrite mu_integral by congruence. destruct (corners lower upper upper_n) as [-> ->]. reflexivity.
Qed.
Lemma ideal_err : forall r, measured f ideal r -> r_val r = mu (r_centre r) (r_half r) /\ r_err r = 0.
Proof.
  intros r ((o & q & q' & q'' & z & z' & z'' & _ & E1 & E2 & E3 & -> & ->) & _). unfold ideal in *. injection E1 as <- _. injection E2 as <- _. injection E3 as <- _. split; [reflexivity|].
  unfold estimate. replace (mu (r_centre r) (r_half r) - mu (r_centre r) (r_half r)) with 0 by ring. rewrite Rabs_R0. ring.
Qed.
Lemma totals : forall r0 rs, r_centre r0 = centre_of lower upper -> r_half r0 = half_of lower upper -> reached f ideal r0 rs -> total r_val rs = I /\ total r_err rs = 0.
Proof.
  intros r0 rs Ec Eh Re. assert (M := reached_measured f ideal r0 rs Re). split.
  - rewrite (total_ext r_val (fun r => mu (r_centre r) (r_half r))); [|intros r Hr; now apply ideal_err, M]. rewrite (reached_sum f ideal mu r0 rs mu_additive Re), Ec, Eh. apply mu_whole.
  - rewrite (total_ext r_err (fun _ => 0)); [|intros r Hr; now apply ideal_err, M]. unfold total. clear. induction rs as [|r rs IH]; cbn [map fold_right]; [reflexivity|]. rewrite IH. ring.
Qed.
Lemma rel_zero : forall r0 rs e, r_centre r0 = centre_of lower upper -> r_half r0 = half_of lower upper -> reached f ideal r0 rs -> I <> 0 -> relative rs e -> e = 0.
Proof.
  intros r0 rs e Ec Eh Re NZ [[Z _]|[_ ->]]; destruct (totals r0 rs Ec Eh Re) as [T1 T2]; [congruence|]. rewrite T2. unfold Rdiv. rewrite Rmult_0_l. apply Rmin_right. lra.
Qed.
Lemma ideal_costs : costs ideal (points n) (points n).
Proof. intros c h o q z _ E. unfold ideal in E. injection E as _ <-. lia. Qed.

Lemma poly_ok : forall relacc maxfac wrkfac, (n <= 19)%nat -> I <> 0 -> 0 < relacc ->
  exists j, (1 <= j <= 50)%nat /\ let npts := ((2 * Z.of_nat j - 1) * (points n + 4 * Z.of_nat n))%Z in (rulcls n <= npts)%Z /\ adapt f (rule f) lower upper relacc maxfac wrkfac = Ok (Some (I, 0, npts)).
Proof.
  intros relacc maxfac wrkfac Hn NZ Hr. rewrite adapt_ideal.
  assert (A := adapt_ok f ideal lower upper relacc maxfac wrkfac ltac:(lia) upper_n).
  assert (S : exists v e npts, adapt f ideal lower upper relacc maxfac wrkfac = Ok (Some (v, e, npts))).
  { assert (K : forallb (fun n => existsb (fun k => Z.leb ((2 * Z.of_nat k - 1) * (points n + 4 * Z.of_nat n)) (100 * rulcls n) && Z.leb (rulcls n) ((2 * Z.of_nat k - 1) * (points n + 4 * Z.of_nat n)) && Z.leb 0 (points n))%Z (seq 1 50)) (seq 2 18) = true) by (vm_compute; reflexivity).
    rewrite forallb_forall in K. specialize (K n ltac:(apply in_seq; lia)). apply existsb_exists in K. destruct K as (k & Hk & K). apply in_seq in Hk. apply andb_true_iff in K. destruct K as [K K3]. apply andb_true_iff in K. destruct K as [K1 K2]. apply Z.leb_le in K1, K2, K3.
    apply (adapt_succeeds f ideal lower upper relacc maxfac wrkfac k (points n) (points n)); rewrite ?lower_n; try assumption; try lia.
    - rewrite <- lower_n. apply upper_n.
    - intros x. eexists. reflexivity.
    - intros c h o. eexists. reflexivity.
    - apply ideal_costs.
    - intros r0 rs e Ec Eh Re _ Rl. rewrite (rel_zero r0 rs e Ec Eh Re NZ Rl). exact Hr. }
  destruct S as (v & e & npts & E). rewrite E in A |- *. cbn [okor] in A. destruct A as (v' & e' & npts' & [= <- <- <-] & r0 & rs & Ec & Eh & Re & Lr & V & Rl & _ & Mi & Co).
  destruct (totals r0 rs Ec Eh Re) as [T1 _]. specialize (Co _ _ ideal_costs). rewrite lower_n in *. exists (length rs). cbv zeta.
  assert (L1 : (1 <= length rs)%nat) by (destruct rs as [|r rs]; [|cbn; lia]; unfold total in T1; cbn in T1; congruence).
  split; [lia|]. replace npts with ((2 * Z.of_nat (length rs) - 1) * (points n + 4 * Z.of_nat n))%Z in * by lia. split; [exact Mi|]. rewrite (rel_zero r0 rs e Ec Eh Re NZ Rl), V, T1. reflexivity.
Qed.
Lemma poly_low : forall relacc maxfac wrkfac, (n <= 9)%nat -> I <> 0 -> 0 < relacc -> adapt f (rule f) lower upper relacc maxfac wrkfac = Ok (Some (I, 0, (points n + 4 * Z.of_nat n)%Z)).
Proof.
  intros relacc maxfac wrkfac Hn NZ Hr. rewrite adapt_ideal. assert (A := adapt_exact f ideal lower upper relacc maxfac wrkfac I (points n) (points n) (points n) ltac:(lia) upper_n). rewrite lower_n in A. apply A; clear A; try assumption; try (unfold ideal; rewrite mu_whole; reflexivity).
  - intros x. eexists. reflexivity.
  - assert (K : forallb (fun n => Z.leb (rulcls n) (points n + 4 * Z.of_nat n)) (seq 2 8) = true) by (vm_compute; reflexivity). rewrite forallb_forall in K. apply Z.leb_le, K, in_seq. lia.
Qed.
Lemma poly_zero : forall relacc maxfac wrkfac, I = 0 -> relacc <= 1 -> adapt f (rule f) lower upper relacc maxfac wrkfac = Err RuntimeError.
Proof.
  intros relacc maxfac wrkfac Z Hr. rewrite adapt_ideal. apply (adapt_zero f ideal mu); [exact mu_additive|intros x; eexists; reflexivity|intros c h o; eexists; reflexivity|lia|apply upper_n|exact Hr|]. now rewrite mu_whole.
Qed.
Lemma poly_20 : forall relacc maxfac wrkfac, n = 20%nat -> adapt f (rule f) lower upper relacc maxfac wrkfac = Err RuntimeError.
Proof.
  intros relacc maxfac wrkfac Hn. rewrite adapt_ideal. assert (A := adapt_ok f ideal lower upper relacc maxfac wrkfac ltac:(lia) upper_n).
  destruct (adapt f ideal lower upper relacc maxfac wrkfac) as [r|e]; cbn [okor] in A.
  - exfalso. destruct A as (v' & e' & npts' & _ & r0 & rs & Ec & Eh & Re & Lr & V & Rl & _ & Mi & Co). specialize (Co _ _ ideal_costs). rewrite lower_n, Hn in Co. rewrite lower_n, Hn in Mi. change (points 20) with 10001%Z in Co. change (rulcls 20) with 1049497%Z in Mi. lia.
  - destruct A as [->|[[x E]|(c & h & o & E)]]; [reflexivity|discriminate|discriminate].
Qed.
End Box.
End Poly.

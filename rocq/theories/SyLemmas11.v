(** The evaluations of the rules of the orders up to 4 *)

From Coq Require Import List Bool Arith ZArith Reals Permutation Lra Lia.
From Verif Require Import Exn Instances CountSpec McModel McLemmas5 BaModel BaLemmas ObsModel AdModel AdLemmas AdLemmas2 SyModel SyLemmas SyLemmas2 SyLemmas3 SyLemmas4 SyLemmas5 SyLemmas6 SyLemmas7 SyLemmas8 SyLemmas9 SySpec.
Import ListNotations.
Open Scope R_scope.

(** Moments *)
Lemma g1_sq : 3 / 5 - 1 / 10 ^ 15 < gn 1 ^ 2 < 3 / 5 + 1 / 10 ^ 15.
Proof. rewrite (gn_frac 1) by lia. cbn [nth g_num g_den]. lra. Qed.
Lemma mt : momtol = 200 * / 2 ^ 53.
Proof. unfold momtol. ring. Qed.
Lemma md_2 : md 2 = 0.
Proof.
  assert (E := md_1). change (md 2) with (chop (nu 1 2 - gn 1 ^ 2 * md 1)). rewrite E. unfold chop. replace (Rltb _ _) with true; [reflexivity|]. symmetry. apply Rltb_spec.
  replace (nu 1 2) with (2 / 5) by (cbn [nu]; rewrite gn_0; cbn; field). assert (G := g1_sq). rewrite mt. set (e := 2 / 5 - gn 1 ^ 2 * (2 / 3)).
  assert (B : - (1 / 10 ^ 15) < e < 1 / 10 ^ 15) by (unfold e; lra). assert (M : 1 / 10 ^ 15 < 200 * / 2 ^ 53 * 2) by lra. nra.
Qed.
Lemma md_3 : md 3 <> 0.
Proof.
  change (md 3) with (chop (nu 2 3 - gn 2 ^ 2 * md 2)). rewrite md_2. unfold chop. assert (G := g1_sq).
  assert (B : 1 / 100 < nu 2 3 - gn 2 ^ 2 * 0) by (change (nu 2 3) with (nu 1 3 - gn 1 ^ 2 * nu 1 2); set (q := gn 1 ^ 2) in *; clearbody q; replace (nu 1 3) with (2 / 7) by (cbn [nu]; rewrite gn_0; cbn; field); replace (nu 1 2) with (2 / 5) by (cbn [nu]; rewrite gn_0; cbn; field); lra).
  replace (Rltb _ _) with false; [lra|]. symmetry. apply Rltb_false. rewrite mt. assert (M : 0 < 200 * / 2 ^ 53 * 2 < 1 / 100) by lra. nra.
Qed.
Lemma wt_01 : wt 0 1 = - (2 / 3) / gn 1 ^ 2.
Proof. assert (E := md_1). unfold wt. rewrite E. unfold den. cbn [seq map prodl Nat.eqb]. unfold sq. rewrite gn_0. assert (G := g1_sq). field. intros Z. rewrite Z in G. lra. Qed.
Definition aa : R := wt 0 1 / 2.
Lemma aa_is : - (5 / 9) - 1 / 10 ^ 6 < aa < - (5 / 9) + 1 / 10 ^ 6.
Proof.
  unfold aa. rewrite wt_01. assert (G := g1_sq). set (q := gn 1 ^ 2) in *. assert (Q : 0 < q) by lra. replace (- (2 / 3) / q / 2) with (- (1 / 3) * / q) by (field; lra).
  assert (I : / q * q = 1) by (field; lra). set (r := / q) in *. assert (P : 0 < r) by (apply Rinv_0_lt_compat; exact Q). nra.
Qed.
Lemma wt_00 : wt 0 0 = 2.
Proof. unfold wt, den. cbn. field. Qed.
Lemma wt_zero2 : forall p, wt p 2 = 0.
Proof. intros p. unfold wt. rewrite md_2. unfold Rdiv. ring. Qed.
Lemma wt_nz : forall p j, (p < 12)%nat -> (j < 12)%nat -> md j <> 0 -> wt p j <> 0.
Proof. intros p j Hp Hj H. unfold wt. apply Rmult_integral_contrapositive_currified; [exact H|]. apply Rinv_neq_0_compat. now apply den_nz. Qed.

(** Variables which are zero in the partition *)
Definition w0 (k : nat) : R := wt 0 (0 + k)%nat.
Lemma conv0 : forall N, conv (repeat w0 N) 0 = 2 ^ N.
Proof. induction N as [|N IH]; [reflexivity|]. cbn [repeat conv]. rewrite sg_0. cbn [Nat.sub]. rewrite IH. unfold w0. cbn [Nat.add]. rewrite wt_00. reflexivity. Qed.
Lemma conv1 : forall N, conv (repeat w0 N) 1 = 2 ^ N * (INR N * aa).
Proof.
  induction N as [|N IH]; [cbn; ring|]. cbn [repeat conv]. rewrite sg_S, sg_0. cbn [Nat.sub]. rewrite IH, conv0. unfold w0. cbn [Nat.add]. rewrite wt_00, S_INR. replace (wt 0 1) with (2 * aa) by (unfold aa; field). cbn [pow]. ring.
Qed.
Lemma conv2 : forall N, conv (repeat w0 N) 2 = 2 ^ N * (INR N * (INR N - 1) / 2 * aa ^ 2).
Proof.
  induction N as [|N IH]; [cbn; field|]. cbn [repeat conv]. rewrite !sg_S, sg_0. cbn [Nat.sub]. rewrite IH, conv0, conv1. unfold w0. cbn [Nat.add]. rewrite wt_00, wt_zero2, S_INR. replace (wt 0 1) with (2 * aa) by (unfold aa; field). cbn [pow]. field.
Qed.
Lemma zeros_sum : forall N, list_sum (repeat 0%nat N) = 0%nat.
Proof. induction N as [|N IH]; [reflexivity|exact IH]. Qed.
Lemma W_shape : forall x N d, W (x ++ repeat 0%nat N) d = conv (map (fun j k => wt j (j + k)%nat) x ++ repeat w0 N) (d - list_sum x).
Proof.
  intros x N d. unfold W. rewrite map_app, list_sum_app. replace (list_sum (repeat 0%nat N)) with 0%nat by (symmetry; apply zeros_sum). rewrite Nat.add_0_r. f_equal. f_equal. induction N as [|N IH]; [reflexivity|]. cbn [repeat map]. now rewrite IH.
Qed.
Lemma acc_shape : forall x N d, acc (x ++ repeat 0%nat N) d = sumR (map (fun e => conv (map (fun j k => wt j (j + k)%nat) x ++ repeat w0 N) (e - list_sum x)) (seq (list_sum x) (d - list_sum x))).
Proof.
  intros x N d. unfold acc. rewrite list_sum_app. replace (list_sum (repeat 0%nat N)) with 0%nat by (symmetry; apply zeros_sum). rewrite Nat.add_0_r. f_equal. apply map_ext. intros e. apply W_shape.
Qed.

Definition shapes : list (list nat) := [[]; [1]; [2]; [1; 1]; [3]; [2; 1]; [1; 1; 1]]%nat.
Definition fill (s : nat) (x : list nat) : list nat := x ++ repeat 0%nat (s - length x).
Definition small (s d : nat) : list (list nat) := filter (fun x => Nat.leb (length x) s && Nat.leb (list_sum x) d) shapes.
Fixpoint lveqb (a b : list (list nat)) : bool := match a, b with [], [] => true | x :: a', y :: b' => veqb x y && lveqb a' b' | _, _ => false end.
Lemma lveqb_spec : forall a b, lveqb a b = true -> a = b.
Proof. induction a as [|x a IH]; intros [|y b] H; try discriminate; [reflexivity|]. cbn [lveqb] in H. apply andb_true_iff in H. destruct H as [H1 H2]. apply veqb_spec in H1. now rewrite H1, (IH _ H2). Qed.
Lemma shapes_all : forallb (fun s => forallb (fun d => lveqb (upto_sum s d) (map (fill s) (small s d))) (seq 0 4)) (seq 1 20) = true.
Proof. vm_compute. reflexivity. Qed.
Definition used (d : nat) (x : list nat) : bool :=
  match d, x with
  | O, [] => true | 1%nat, [1%nat] => true | 2%nat, [1%nat; 1%nat] => true
  | 3%nat, [2%nat] => true | 3%nat, [3%nat] => true | 3%nat, [1%nat; 1%nat; 1%nat] => true | _, _ => false
  end.

Lemma tw : forall N, 2 ^ N <> 0.
Proof. intros N. apply pow_nonzero. lra. Qed.
Lemma lin_nz : forall N, 1 + INR N * aa <> 0.
Proof.
  intros N. assert (A := aa_is). destruct N as [|[|N]]; [cbn; lra|cbn; lra|]. rewrite !S_INR. assert (P := pos_INR N). set (n := INR N) in *. assert (Q : n * aa <= 0) by nra. assert (Z : 1 + (n + 1 + 1) * aa < 0) by lra. lra.
Qed.
Lemma quad_nz : forall N, 1 + INR N * aa + INR N * (INR N - 1) / 2 * aa ^ 2 <> 0.
Proof.
  intros N. assert (A := aa_is). set (n := INR N). assert (P := pos_INR N). fold n in P.
  assert (D : 0 < 1 + n * aa + n * (n - 1) / 2 * aa ^ 2); [|lra].
  set (y := n * aa). replace (1 + y + n * (n - 1) / 2 * aa ^ 2) with (1 + y + y * y / 2 - y * aa / 2) by (unfold y; field). assert (Y : y <= 0) by (unfold y; nra). clearbody y. assert (M : y * aa <= y * (- (5 / 9) - 1 / 10 ^ 6)) by nra. assert (S2 := Rle_0_sqr (y + 128 / 100)). unfold Rsqr in S2. lra.
Qed.
Lemma nz3 : forall a b : R, a <> 0 -> b <> 0 -> a * b <> 0.
Proof. intros. now apply Rmult_integral_contrapositive_currified. Qed.
Ltac nzs := first [apply tw|apply lin_nz|apply quad_nz|match goal with |- wt _ _ <> 0 => apply wt_nz; [lia|lia|]; first [apply md_3|rewrite md_1; lra] end|apply nz3; nzs].

Lemma yes : forall a x (c : Z), a = 0 -> x <> 0 -> (if Req_EM_T a 0 then if Req_EM_T x 0 then 0%Z else c else 0%Z) = c.
Proof. intros a x c H1 H2. destruct (Req_EM_T a 0); [|contradiction]. destruct (Req_EM_T x 0); [contradiction|reflexivity]. Qed.
Lemma skip : forall a (c : Z), a <> 0 -> (if Req_EM_T a 0 then c else 0%Z) = 0%Z.
Proof. intros a c H. destruct (Req_EM_T a 0); [contradiction|reflexivity]. Qed.
Lemma none : forall a x (c : Z), x = 0 -> (if Req_EM_T a 0 then if Req_EM_T x 0 then 0%Z else c else 0%Z) = 0%Z.
Proof. intros a x c H. destruct (Req_EM_T a 0); [|reflexivity]. destruct (Req_EM_T x 0); [reflexivity|contradiction]. Qed.
Ltac cv := cbn [conv]; rewrite ?sg_S, ?sg_0; cbn [Nat.sub]; rewrite ?sg_S, ?sg_0; cbn [Nat.sub]; rewrite ?sg_S, ?sg_0; cbn [Nat.sub]; rewrite ?conv0, ?conv1, ?conv2, ?wt_zero2.
Lemma ev_shape : forall x N d, In x shapes -> (d <= 3)%nat -> (list_sum x <= d)%nat -> ev d (x ++ repeat 0%nat N) = if used d x then cnt (x ++ repeat 0%nat N) else 0%Z.
Proof.
  intros x N d Hx Hd Hs. unfold ev. rewrite acc_shape, W_shape.
  unfold shapes in Hx. cbn [In] in Hx. destruct Hx as [<-|[<-|[<-|[<-|[<-|[<-|[<-|[]]]]]]]]; cbn [list_sum fold_right Nat.add] in Hs;
    (destruct d as [|[|[|[|d]]]]; try (exfalso; lia)); cbn [used list_sum fold_right Nat.add Nat.sub seq map app sumR]; unfold sumR; cbn [fold_right map].
  - apply yes; [reflexivity|]. rewrite conv0. nzs.
  - apply skip. rewrite conv0, Rplus_0_r. nzs.
  - apply skip. rewrite conv0, conv1. replace (2 ^ N + (2 ^ N * (INR N * aa) + 0)) with (2 ^ N * (1 + INR N * aa)) by ring. nzs.
  - apply skip. rewrite conv0, conv1, conv2. replace (2 ^ N + (2 ^ N * (INR N * aa) + (2 ^ N * (INR N * (INR N - 1) / 2 * aa ^ 2) + 0))) with (2 ^ N * (1 + INR N * aa + INR N * (INR N - 1) / 2 * aa ^ 2)) by ring. nzs.
  - apply yes; [reflexivity|]. cv. nzs.
  - apply skip. rewrite Rplus_0_r. cv. nzs.
  - apply skip. cv. replace (wt 1 1 * 2 ^ N + (wt 1 1 * (2 ^ N * (INR N * aa)) + 0 * 2 ^ N + 0)) with (wt 1 1 * 2 ^ N * (1 + INR N * aa)) by ring. nzs.
  - apply none. cv. ring.
  - apply yes; [cv; ring|]. cv. replace (0 * (2 ^ N * (INR N * aa)) + wt 2 3 * 2 ^ N) with (wt 2 3 * 2 ^ N) by ring. nzs.
  - apply yes; [reflexivity|]. cv. nzs.
  - apply skip. rewrite Rplus_0_r. cv. nzs.
  - apply yes; [reflexivity|]. cv. nzs.
  - apply none. cv. ring.
  - apply yes; [reflexivity|]. cv. nzs.
Qed.

Lemma sum_used : forallb (fun s => Z.eqb (sumZ (map (fun d => sumZ (map (fun x => if used d x then cnt (fill s x) else 0%Z) (small s d))) (seq 0 4))) (points s)) (seq 1 20) = true.
Proof. vm_compute. reflexivity. Qed.
Lemma points_is : forall s, (1 <= s <= 20)%nat -> sumZ (map (evs s) (seq 0 4)) = points s.
Proof.
  intros s Hs. assert (S1 : In s (seq 1 20)) by (apply in_seq; lia). assert (A := shapes_all). rewrite forallb_forall in A. specialize (A s S1). rewrite forallb_forall in A.
  assert (B := sum_used). rewrite forallb_forall in B. specialize (B s S1). apply Z.eqb_eq in B. rewrite <- B. f_equal. apply map_ext_in. intros d Hd. assert (D := A d Hd). apply lveqb_spec in D. unfold evs. rewrite D, map_map. f_equal. apply map_ext_in. intros x Hx.
  unfold small in Hx. apply filter_In in Hx. destruct Hx as [Hx E]. apply andb_true_iff in E. destruct E as [_ E]. apply Nat.leb_le in E. apply in_seq in Hd. apply ev_shape; [exact Hx|lia|exact E].
Qed.

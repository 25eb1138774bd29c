(** Interpolation identities behind the weights of D09HRE, with the squares of
    the generators as unknowns. *)
From Coq Require Import Reals Lra Lia.
Open Scope R_scope.

(** Four nodes *)
Definition P3 (a b c : R) : R := 1 - 9 * ((a + b + c) / 7 - (a * b + a * c + b * c) / 5) - 3 * a * b * c.
Lemma lag4 : forall x y z u, x <> 0 -> y <> 0 -> z <> 0 -> u <> 0 -> x <> y -> x <> z -> x <> u -> y <> z -> y <> u -> z <> u -> forall m M,
  (m = 1%nat /\ M = / 3) \/ (m = 2%nat /\ M = / 5) \/ (m = 3%nat /\ M = / 7) \/ (m = 4%nat /\ M = / 9) ->
  2 * (P3 x z u / (18 * y * (y - x) * (y - z) * (y - u)) * y ^ m + P3 x y u / (18 * z * (z - x) * (z - y) * (z - u)) * z ^ m + P3 x y z / (18 * u * (u - x) * (u - y) * (u - z)) * u ^ m)
  + P3 y z u / (9 * x * (x - y) * (x - z) * (x - u)) * x ^ m = M.
Proof.
  intros x y z u X0 Y0 Z0 U0 XY XZ XU YZ YU ZU m M [[-> ->]|[[-> ->]|[[-> ->]|[-> ->]]]]; unfold P3; field; repeat split; lra.
Qed.
(** Three nodes and a given fourth *)
Definition P2 (k x B a b : R) : R := k - 7 * ((a + b) / 5 - a * b / 3 + B * x * (x - a) * (x - b)).
Lemma lag3 : forall k x B y z u, y <> 0 -> z <> 0 -> u <> 0 -> y <> z -> y <> u -> z <> u -> forall m M,
  (m = 1%nat /\ M = / 3) \/ (m = 2%nat /\ M = / 5) \/ (m = 3%nat /\ M = k / 7) ->
  2 * (P2 k x B z u / (14 * y * (y - z) * (y - u)) * y ^ m + P2 k x B y u / (14 * z * (z - y) * (z - u)) * z ^ m + P2 k x B y z / (14 * u * (u - y) * (u - z)) * u ^ m) + B * x ^ m = M.
Proof.
  intros k x B y z u Y0 Z0 U0 YZ YU ZU m M [[-> ->]|[[-> ->]|[-> ->]]]; unfold P2; field; repeat split; lra.
Qed.
(** What the other weights add to the powers of one variable cancels *)
Lemma single_eq : forall N A1 A2 A3 A4 w6 w7 w8 B Y Z U V X : R,
  2 * ((A1 - 2 * (N - 1) * (w7 + w6 + (N - 2) * w8)) * Y + (A2 - 2 * (N - 1) * w7) * Z + A3 * U + A4 * V) + 4 * (N - 1) * (w6 * Y) + 4 * (N - 1) * (w7 * (Y + Z)) + 4 * (N - 1) * Y * ((N - 2) * w8) + B * X
  = 2 * (A1 * Y + A2 * Z + A3 * U + A4 * V) + B * X.
Proof. intros. ring. Qed.
(** Products of two squares, degree 9 *)
Lemma double9 : forall N w8 x y z B w7, x <> y -> x <> z -> y <> z -> y <> 0 -> z <> 0 ->
  w7 = (1 - 7 * (x + y) / 5 + 7 * x * y / 3) / (84 * y * z * (z - x) * (z - y)) ->
  B * x ^ 2 = (1 - 7 * (y + z) / 5 + 7 * y * z / 3) / (21 * (x - y) * (x - z)) ->
  let w6 := (1 - 7 * (x + z) / 5 + 7 * x * z / 3) / (84 * y * y * (y - x) * (y - z)) - w7 * z / y - 2 * (N - 2) * w8 in
  let val i k := 4 * (w6 * y ^ (i + k)) + 4 * (w7 * (y ^ i * z ^ k + z ^ i * y ^ k)) + 8 * y ^ (i + k) * ((N - 2) * w8) + B * x ^ (i + k) in
  val 1%nat 1%nat = / 9 /\ val 2%nat 1%nat = / 15 /\ val 3%nat 1%nat = / 21 /\ (w7 * (y * z * (y - z) ^ 2) = / 525 -> val 2%nat 2%nat = / 25).
Proof.
  intros N w8 x y z B w7 XY XZ YZ Y0 Z0 E H w6 val.
  set (c := (1 - 7 * (x + z) / 5 + 7 * x * z / 3) / (21 * (y - x) * (y - z))).
  set (d := (1 - 7 * (x + y) / 5 + 7 * x * y / 3) / (21 * (z - x) * (z - y))).
  assert (W7 : 4 * (w7 * (y * z)) = d) by (rewrite E; unfold d; field; repeat split; lra).
  assert (W6 : 4 * (w6 * y ^ 2) = c - d - 8 * (N - 2) * w8 * y ^ 2 + d - 4 * (w7 * (y * z))) by (unfold w6, c; field; repeat split; lra).
  assert (V : forall i k, (1 <= i)%nat -> (1 <= k)%nat -> exists i' k', i = S i' /\ k = S k' /\ val i k = (c - 4 * (w7 * (y * z))) * y ^ (i' + k') + d * (y ^ i' * z ^ k' + z ^ i' * y ^ k') + B * x ^ 2 * x ^ (i' + k')).
  { intros [|i'] [|k'] Hi Hk; try lia. exists i', k'. split; [reflexivity|split; [reflexivity|]]. unfold val. replace (S i' + S k')%nat with (2 + (i' + k'))%nat by lia. rewrite !pow_add. cbn [pow].
    replace (4 * (w6 * (y * (y * 1) * (y ^ i' * y ^ k')))) with (4 * (w6 * y ^ 2) * (y ^ i' * y ^ k')) by (cbn [pow]; ring). rewrite W6, <- W7. cbn [pow]. ring. }
  assert (L : forall q M, (q = 0%nat /\ M = / 9) \/ (q = 1%nat /\ M = / 15) \/ (q = 2%nat /\ M = / 21) -> c * y ^ q + d * z ^ q + B * x ^ 2 * x ^ q = M).
  { intros q M Hq. rewrite H. unfold c, d. destruct Hq as [[-> ->]|[[-> ->]|[-> ->]]]; field; repeat split; lra. }
  assert (L0 := L 0%nat _ (or_introl (conj eq_refl eq_refl))). assert (L1 := L 1%nat _ (or_intror (or_introl (conj eq_refl eq_refl)))). assert (L2 := L 2%nat _ (or_intror (or_intror (conj eq_refl eq_refl)))).
  destruct (V 1%nat 1%nat) as (a1 & b1 & E1 & E1' & V1); [lia..|]. destruct (V 2%nat 1%nat) as (a2 & b2 & E2 & E2' & V2); [lia..|]. destruct (V 3%nat 1%nat) as (a3 & b3 & E3 & E3' & V3); [lia..|]. destruct (V 2%nat 2%nat) as (a4 & b4 & E4 & E4' & V4); [lia..|].
  injection E1 as <-. injection E1' as <-. injection E2 as <-. injection E2' as <-. injection E3 as <-. injection E3' as <-. injection E4 as <-. injection E4' as <-.
  rewrite V1, V2, V3, V4, W7. clearbody c d. clear V V1 V2 V3 V4 L val W6 w6 H. cbn [Nat.add pow] in *. rewrite !Rmult_1_r in *.
  set (Q := B * (x * x)) in *. clearbody Q.
  split; [|split; [|split]].
  - rewrite <- L0. ring.
  - rewrite <- L1. ring.
  - rewrite <- L2. ring.
  - intros K. assert (K' : d * ((y - z) * (y - z)) = 4 / 525) by (rewrite <- W7; transitivity (4 * (w7 * (y * z * ((y - z) * (y - z))))); [ring|rewrite K; lra]).
    transitivity ((c * (y * y) + d * (z * z) + Q * (x * x)) - d * ((y - z) * (y - z))); [ring|]. rewrite L2, K'. lra.
Qed.
(** Products of two squares, degree 7 *)
Lemma double7 : forall N w8 w7 B x y z, y <> 0 ->
  let w6 := (1 - 9 * (8 * y * z * w7 + B * x ^ 2)) / (36 * y * y) - 2 * w8 * (N - 2) in
  let val i k := 4 * (w6 * y ^ (i + k)) + 4 * (w7 * (y ^ i * z ^ k + z ^ i * y ^ k)) + 8 * y ^ (i + k) * ((N - 2) * w8) + B * x ^ (i + k) in
  val 1%nat 1%nat = / 9 /\ (z <> 0 -> z <> y -> w7 = (1 - 5 * y / 3 - 15 * (B * x ^ 2) * (x - y)) / (60 * y * z * (z - y)) -> val 2%nat 1%nat = / 15).
Proof.
  intros N w8 w7 B x y z Y0 w6 val.
  assert (W6 : 4 * (w6 * y ^ 2) = / 9 - 8 * (w7 * (y * z)) - B * x ^ 2 - 8 * (N - 2) * w8 * y ^ 2) by (unfold w6; field; exact Y0).
  split.
  - unfold val. cbn [Nat.add]. rewrite W6. cbn [pow]. ring.
  - intros Z0 ZY E. assert (W7 : 4 * (w7 * (y * z) * (z - y)) = / 15 - y / 9 - B * x ^ 2 * (x - y)) by (rewrite E; field; repeat split; lra).
    unfold val. cbn [Nat.add]. transitivity (4 * (w6 * y ^ 2) * y + 4 * (w7 * (y ^ 2 * z ^ 1 + z ^ 2 * y ^ 1)) + 8 * y ^ 3 * ((N - 2) * w8) + B * x ^ 3); [cbn [pow]; ring|]. rewrite W6.
    transitivity (y / 9 + 4 * (w7 * (y * z) * (z - y)) + B * x ^ 2 * (x - y)); [cbn [pow]; field|]. rewrite W7. field.
Qed.

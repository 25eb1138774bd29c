(** DADHRE *)

From Coq Require Import List Bool Arith ZArith Reals Permutation Lra Lia FunctionalExtensionality.
From Verif Require Import Exn Instances McModel BaModel BaLemmas ObsModel ObsLemmas2 AdModel AdSpec AdLemmas AdLemmas2 AdLemmas3 SyModel SyLemmas2 DcModel DcSpec DcLemmas8.
Import ListNotations.
Open Scope R_scope.

Lemma dc_halving : forall a c h, (1 <= a <= length h)%nat -> length h = length c ->
  wr1 h a (comp a h / 2) = Ok (half_half a h) /\ wr1 c a (comp a c - comp a h / 2) = Ok (low_centre a c h) /\
  wr1 (low_centre a c h) a (comp a c + comp a h / 2) = Ok (high_centre a c h).
Proof.
  intros a c h Ha L. destruct (halving 1 (le_n 1) a c h Ha L) as (A & B & C).
  assert (X : comp a (half_half a h) = comp a h / 2) by (unfold half_half; rewrite comp_along, Nat.eqb_refl by lia; field).
  assert (Y : comp a (low_centre a c h) = comp a c - comp a h / 2) by (unfold low_centre; rewrite comp_along, Nat.eqb_refl by lia; ring).
  rewrite X in B. rewrite X, Y in C. split; [exact A|]. split; [exact B|]. rewrite <- C. f_equal. field.
Qed.
Lemma rd_comp : forall x a, (1 <= a <= length x)%nat -> rd1 x a = Ok (comp a x).
Proof. intros x a H. unfold comp. now apply rd1_nth. Qed.

(** The greatest error *)
Lemma fold_great : forall (e : vec) l a, let g := fold_left (fun g j => if Rltb g (e j) then e j else g) l a in
  a <= g /\ (forall j, In j l -> e j <= g) /\ (g = a \/ exists j, In j l /\ g = e j).
Proof.
  intros e. induction l as [|k l IH]; intros a; cbn [fold_left]; cbv zeta; [split; [lra|]; split; [intros j []|now left]|].
  destruct (IH (if Rltb a (e k) then e k else a)) as (A & B & C). set (g := fold_left _ l _) in *.
  destruct (Rltb a (e k)) eqn:Q.
  - apply Rltb_spec in Q. split; [lra|]. split; [intros j [<-|Hj]; [lra|now apply B]|]. right. destruct C as [C|(j & Hj & C)]; [exists k; split; [now left|exact C]|exists j; split; [now right|exact C]].
  - apply Rltb_false in Q. split; [lra|]. split; [intros j [<-|Hj]; [lra|now apply B]|]. destruct C as [C|(j & Hj & C)]; [now left|right; exists j; split; [now right|exact C]].
Qed.

Section Dad.
Variables (f : list R -> vec) (n numfun : nat) (t : table) (num : Z).
Hypothesis rule_ok : forall c h, length c = n -> length h = n -> exists v e d, drlhre f n numfun t c h (t_g t) = Ok (v, e, d, t_g t) /\ (1 <= d <= n)%nat /\ ((forall x, In x h -> 0 <= x) -> forall j, 0 <= e j).
(** Another function that agrees with f where the rule evaluates it *)
Variable f2 : list R -> vec.
Variable okbox : list R -> list R -> Prop.
Hypothesis ok_half : forall a c h, (1 <= a <= length c)%nat -> length h = length c -> (forall x, In x h -> 0 <= x) -> okbox c h -> okbox (low_centre a c h) (half_half a h) /\ okbox (high_centre a c h) (half_half a h).
Hypothesis same : forall c h, length c = n -> length h = n -> (forall x, In x h -> 0 <= x) -> okbox c h -> drlhre f2 n numfun t c h (t_g t) = drlhre f n numfun t c h (t_g t).
Hypothesis ec5 : t_ec t 5 = 1 / 2.
Hypothesis ec6 : t_ec t 6 = 1 / 4.
Definition ruled (c h : list R) (v e : vec) (d : nat) : Prop := exists g, drlhre f n numfun t c h (t_g t) = Ok (v, e, d, g).

Lemma dad_error_is : forall v0 v v' e e' j, dad_error t v0 v v' e e' j = two_level (v0 j) (v j) (v' j) (e j) (e' j).
Proof.
  intros. unfold dad_error, two_level. rewrite ec5, ec6. cbv zeta. set (d := Rabs _). destruct (Rltb 0 (e j + e' j)) eqn:Q; destruct (Rlt_dec 0 (e j + e' j)) as [L|L].
  - field. lra.
  - apply Rltb_spec in Q. lra.
  - apply Rltb_false in Q. lra.
  - field.
Qed.
Lemma two_level_pos : forall v0 v v' e e', 0 <= e -> 0 <= e' -> 0 <= two_level v0 v v' e e'.
Proof.
  intros v0 v v' e e' H H'. unfold two_level. assert (D := Rabs_pos (v0 - (v + v'))). cbv zeta. set (d := Rabs _) in *. destruct (Rlt_dec 0 (e + e')) as [L|L]; [|lra].
  assert (0 <= d / (2 * (e + e'))) by (apply Rmult_le_pos; [exact D|apply Rlt_le, Rinv_0_lt_compat; lra]). assert (0 <= e * (1 + d / (2 * (e + e')))) by (apply Rmult_le_pos; lra). lra.
Qed.

Definition piece_of (c : column) : piece := Piece (c_val c) (c_err c) (c_axis c) (c_cen c) (c_hw c).
Definition good (c : column) : Prop :=
  length (c_cen c) = n /\ length (c_hw c) = n /\ (1 <= c_axis c <= n)%nat /\ (forall x, In x (c_hw c) -> 0 <= x) /\ (forall j, 0 <= c_err c j) /\ okbox (c_cen c) (c_hw c).
Definition graded (c : column) : Prop := c_great c = dad_greatest numfun (c_err c).

Record Inv (c0 h0 : list R) (st : state) : Prop := {
  i_sb : (1 <= sbrgns st <= length (cols st))%nat;
  i_pieces : pieces numfun ruled c0 h0 (map piece_of (firstn (sbrgns st) (cols st)));
  i_heap : heap (sbrgns st) (cols st);
  i_good : forall c, In c (firstn (sbrgns st) (cols st)) -> good c;
  i_graded : (2 <= sbrgns st)%nat -> forall c, In c (firstn (sbrgns st) (cols st)) -> graded c;
  i_result : forall j, result st j = sum_of (fun r => p_val r j) (map piece_of (firstn (sbrgns st) (cols st)));
  i_abserr : forall j, abserr st j = sum_of (fun r => p_err r j) (map piece_of (firstn (sbrgns st) (cols st)));
  i_neval : neval st = (num * (2 * Z.of_nat (sbrgns st) - 1))%Z;
  i_g : gcols st = t_g t }.

Lemma sum_of_perm : forall g l l', Permutation l l' -> sum_of g l = sum_of g l'.
Proof. intros g l l' H. induction H; unfold sum_of in *; cbn [map fold_right] in *; lra. Qed.
Lemma great_worst : forall c l, graded c -> (forall j, 0 <= c_err c j) -> (forall q, In q l -> graded q /\ c_great q <= c_great c) ->
  worst numfun (piece_of c) (map piece_of l).
Proof.
  intros c l G P H q j Hq Hj. apply in_map_iff in Hq as (x & <- & Hx). cbn [p_err piece_of]. destruct (H x Hx) as [Gx Le]. unfold graded in *.
  destruct (fold_great (c_err x) (seq 1 numfun) 0) as (_ & B & _). destruct (fold_great (c_err c) (seq 1 numfun) 0) as (_ & _ & C). fold (dad_greatest numfun (c_err x)) in B. fold (dad_greatest numfun (c_err c)) in C.
  specialize (B j ltac:(apply in_seq; lia)). destruct C as [C|(i & Hi & C)].
  - exists j. split; [exact Hj|]. specialize (P j). lra.
  - exists i. apply in_seq in Hi. split; [lia|]. lra.
Qed.
Lemma in_first : forall cs k c, (k <= length cs)%nat -> In c (firstn k cs) <-> exists i, (1 <= i <= k)%nat /\ c = col cs i.
Proof.
  intros cs k c Hk. split.
  - intros H. apply (In_nth _ _ nil_col) in H as (i & Hi & <-). rewrite firstn_length in Hi. exists (S i). split; [lia|]. rewrite <- (col_first cs k) by lia. unfold col. now rewrite Nat.sub_succ, Nat.sub_0_r.
  - intros (i & Hi & ->). rewrite <- (col_first cs k) by lia. unfold col. apply nth_In. rewrite firstn_length. lia.
Qed.
Lemma half_nonneg : forall a h, (forall x, In x h -> 0 <= x) -> forall x, In x (half_half a h) -> 0 <= x.
Proof.
  intros a h H x Hx. unfold half_half in Hx. apply (In_nth _ _ 0) in Hx as (k & Hk & <-). rewrite along_len in Hk. rewrite nth_along by exact Hk. assert (P := H (nth k h 0) (nth_In _ _ Hk)). destruct (Nat.eqb_spec (S k) a) as [<-|]; [|lra]. unfold comp. rewrite Nat.sub_succ, Nat.sub_0_r. lra.
Qed.

Lemma pass_ok : forall c0 h0 st, Inv c0 h0 st -> (sbrgns st + 1 <= length (cols st))%nat ->
  exists st', dad_pass f n numfun t num st = Ok st' /\ dad_pass f2 n numfun t num st = Ok st' /\ Inv c0 h0 st' /\ sbrgns st' = S (sbrgns st) /\ length (cols st') = length (cols st).
Proof.
  intros c0 h0 st I Room. destruct st as [cs k res abe nev g]. destruct I as [Isb Ip Ih Igd Igr Ir Ia In_ Ig]. cbn [cols sbrgns result abserr neval gcols] in *.
  unfold dad_pass. cbn [cols sbrgns result abserr neval gcols]. rewrite rd_col by lia. set (r := col cs 1).
  assert (Hr : In r (firstn k cs)) by (apply in_first; [lia|]; exists 1%nat; split; [lia|reflexivity]).
  destruct (Igd r Hr) as (Lc & Lh & Ax & Hp & Ep & Ob). set (d := c_axis r) in *. set (c := c_cen r) in *. set (h := c_hw r) in *.
  cbv zeta. rewrite (rd_comp h d), (rd_comp c d) by lia.
  destruct (dc_halving d c h) as (E1 & E2 & E3); [lia|congruence|]. rewrite E1, E2. rewrite rd_col by lia. set (p := col cs (k + 1)).
  rewrite wr_col by lia. set (lowc := Column (c_val p) (c_err p) (c_great p) d (low_centre d c h) (half_half d h)). set (cs1 := put cs (k + 1) lowc).
  assert (L1 : length cs1 = length cs) by (apply put_len; lia).
  assert (C1 : forall i, (1 <= i <= k)%nat -> col cs1 i = col cs i) by (intros i Hi; unfold cs1; rewrite col_put by lia; destruct (Nat.eqb_spec i (k + 1)); [lia|reflexivity]).
  assert (F1 : firstn k cs1 = firstn k cs).
  { apply (nth_ext _ _ nil_col nil_col); [rewrite !firstn_length; lia|]. intros i Hi. rewrite firstn_length in Hi. assert (X := col_first cs1 k (S i) ltac:(lia) ltac:(lia)). assert (Y := col_first cs k (S i) ltac:(lia) ltac:(lia)). rewrite C1 in X by lia. unfold col in X, Y. rewrite Nat.sub_succ, Nat.sub_0_r in X, Y. congruence. }
  destruct (remove_ok k cs1) as (cs2 & -> & L2 & H2 & P2 & O2); [lia|intros i Hi; assert (X := half_lt i ltac:(lia)); unfold gr; rewrite !C1 by lia; apply Ih; lia|].
  rewrite C1 in P2 by lia. fold r in P2. rewrite F1 in P2.
  replace (k + 1 - 1)%nat with k by lia. replace (k - 1 + 1)%nat with k by lia. replace (k - 1 + 2)%nat with (k + 1)%nat by lia.
  rewrite rd_col by lia. set (q := col cs2 k). rewrite E3. rewrite wr_col by lia.
  set (highc := Column (c_val q) (c_err q) (c_great q) d (high_centre d c h) (half_half d h)). set (cs3 := put cs2 k highc).
  assert (L3 : length cs3 = length cs) by (unfold cs3; rewrite put_len; lia).
  assert (LH : length (half_half d h) = n) by (unfold half_half; now rewrite along_len). assert (LC1 : length (low_centre d c h) = n) by (unfold low_centre; now rewrite along_len). assert (LC2 : length (high_centre d c h) = n) by (unfold high_centre; now rewrite along_len).
  destruct (rule_ok (high_centre d c h) (half_half d h) LC2 LH) as (va & ea & da & Ra & Aa & Pa). destruct (rule_ok (low_centre d c h) (half_half d h) LC1 LH) as (vb & eb & db & Rb & Ab & Pb).
  assert (Hp' := half_nonneg d h Hp). specialize (Pa Hp'). specialize (Pb Hp').
  destruct (ok_half d c h ltac:(lia) ltac:(congruence) Hp Ob) as [Ob1 Ob2].
  unfold dad_rule. rewrite rd_col by lia. replace (col cs3 k) with highc by (unfold cs3; rewrite col_put by lia; now rewrite Nat.eqb_refl). cbn [c_cen c_hw c_great highc]. rewrite Ig, (same _ _ LC2 LH Hp' Ob2), Ra. rewrite wr_col by lia. set (A0 := Column va ea _ da _ _). set (cs4 := put cs3 k A0).
  assert (L4 : length cs4 = length cs) by (unfold cs4; rewrite put_len; lia).
  rewrite rd_col by lia.
  assert (CL : col cs4 (k + 1) = lowc).
  { unfold cs4, cs3. rewrite !col_put by (rewrite ?put_len; lia). destruct (Nat.eqb_spec (k + 1) k); [lia|]. rewrite O2 by lia. unfold cs1. rewrite col_put by lia. now rewrite Nat.eqb_refl. }
  rewrite CL. cbn [c_cen c_hw c_great lowc]. rewrite (same _ _ LC1 LH Hp' Ob1), Rb. rewrite wr_col by lia. set (B0 := Column vb eb _ db _ _). set (cs5 := put cs4 (k + 1) B0).
  assert (L5 : length cs5 = length cs) by (unfold cs5; rewrite put_len; lia).
  rewrite !rd_col by lia.
  assert (CA : col cs5 k = A0) by (unfold cs5, cs4; rewrite !col_put by (rewrite ?put_len; lia); rewrite Nat.eqb_refl; destruct (Nat.eqb_spec k (k + 1)); [lia|reflexivity]).
  assert (CB : col cs5 (k + 1) = B0) by (unfold cs5; rewrite col_put by lia; now rewrite Nat.eqb_refl).
  rewrite CA, CB. cbn [c_val c_err c_axis c_cen c_hw A0 B0].
  set (ea' := dad_error t (c_val r) va vb ea eb). set (eb' := dad_error t (c_val r) va vb eb ea).
  set (A := Column va ea' _ da _ _). set (B := Column vb eb' _ db _ _). rewrite wr_col by lia. rewrite wr_col by (rewrite put_len; lia).
  set (cs6 := put (put cs5 k A) (k + 1) B). assert (L6 : length cs6 = length cs) by (unfold cs6; rewrite !put_len by (rewrite ?put_len; lia); lia).
  assert (C6 : forall i, (1 <= i)%nat -> (i <= k - 1)%nat -> col cs6 i = col cs2 i).
  { intros i Hi Hk. unfold cs6, cs5, cs4, cs3. rewrite !col_put by (rewrite ?put_len; rewrite ?put_len; rewrite ?put_len; rewrite ?put_len; lia). destruct (Nat.eqb_spec i (k + 1)), (Nat.eqb_spec i k); try lia. reflexivity. }
  assert (CA6 : col cs6 k = A). { unfold cs6. rewrite !col_put by (rewrite ?put_len; lia). rewrite Nat.eqb_refl. destruct (Nat.eqb_spec k (k + 1)); [lia|reflexivity]. }
  assert (CB6 : col cs6 (k + 1) = B). { unfold cs6. rewrite !col_put by (rewrite ?put_len; lia). now rewrite Nat.eqb_refl. }
  assert (F6 : firstn (k - 1) cs6 = firstn (k - 1) cs2).
  { apply (nth_ext _ _ nil_col nil_col); [rewrite !firstn_length; lia|]. intros i Hi. rewrite firstn_length in Hi. assert (X := col_first cs6 (k - 1) (S i) ltac:(lia) ltac:(lia)). assert (Y := col_first cs2 (k - 1) (S i) ltac:(lia) ltac:(lia)). rewrite C6 in X by lia. unfold col in X, Y. rewrite Nat.sub_succ, Nat.sub_0_r in X, Y. congruence. }
  destruct (insert_ok k cs6) as (cs7 & -> & (L7 & P7 & O7) & H7); [lia|intros i Hi; assert (X := half_lt i ltac:(lia)); unfold gr; rewrite !C6 by lia; apply H2; lia|].
  destruct (insert_ok (k + 1) cs7) as (cs8 & -> & (L8 & P8 & O8) & H8); [lia|intros i Hi; apply H7; lia|].
  assert (PF : Permutation (firstn (k + 1) cs8) (B :: A :: firstn (k - 1) cs2)).
  { rewrite P8. replace (k + 1)%nat with (S k) by lia. rewrite (first_snoc cs7 k nil_col) by lia. replace (nth k cs7 nil_col) with (col cs7 (k + 1)) by (unfold col; f_equal; lia). rewrite O7 by lia. rewrite CB6, P7. rewrite <- Permutation_cons_append. apply perm_skip.
    replace k with (S (k - 1)) at 1 by lia. rewrite (first_snoc cs6 (k - 1) nil_col) by lia. fold (col cs6 k). rewrite CA6, F6. rewrite <- Permutation_cons_append. apply Permutation_refl. }
  assert (GA : good A /\ graded A /\ good B /\ graded B).
  { unfold good, graded. cbn [c_cen c_hw c_axis c_err c_great A B]. assert (QA : forall j, 0 <= ea' j) by (intros j; unfold ea'; rewrite dad_error_is; now apply two_level_pos). assert (QB : forall j, 0 <= eb' j) by (intros j; unfold eb'; rewrite dad_error_is; now apply two_level_pos). repeat split; try assumption; try lia. }
  destruct GA as (GA & GA' & GB & GB').
  assert (IN : forall x, In x (firstn (k + 1) cs8) -> x = B \/ x = A \/ In x (firstn k cs)).
  { intros x Hx. apply (Permutation_in x PF) in Hx as [<-|[<-|Hx]]; auto. right. right. apply (Permutation_in x P2). now right. }
  assert (IN2 : forall x, In x (firstn (k - 1) cs2) -> (2 <= k)%nat) by (intros x Hx; destruct (Nat.le_gt_cases 2 k); [assumption|]; replace (k - 1)%nat with 0%nat in Hx by lia; destruct Hx).
  eexists. split; [reflexivity|]. split; [reflexivity|]. cbn [cols sbrgns]. split; [|split; lia].
  assert (PM : Permutation (map piece_of (firstn (k + 1) cs8)) (piece_of B :: piece_of A :: map piece_of (firstn (k - 1) cs2))) by (rewrite PF; apply Permutation_refl).
  assert (PM2 : Permutation (map piece_of (firstn k cs)) (piece_of r :: map piece_of (firstn (k - 1) cs2))) by (rewrite <- P2; apply Permutation_refl).
  constructor; cbn [cols sbrgns result abserr neval gcols].
  - lia.
  - eapply pieces_step with (r1 := piece_of B) (r2 := piece_of A); [exact Ip|exact PM2| | |exact PM].
    + destruct (Nat.le_gt_cases 2 k) as [K|K].
      * apply great_worst; [now apply Igr|exact Ep|]. intros x Hx. split; [now apply Igr|]. apply in_first in Hx as (i & Hi & ->); [|lia]. apply (heap_top k cs i Ih Hi).
      * intros x j Hx Hj. exists j. split; [exact Hj|]. apply (Permutation_in x PM2) in Hx as [<-|Hx]; [lra|]. replace (k - 1)%nat with 0%nat in Hx by lia. destruct Hx.
    + unfold halves. cbn [piece_of p_centre p_half p_axis p_val p_err A B]. fold d c h. repeat (split; [reflexivity|]). exists eb, ea. split; [eexists; exact Rb|]. split; [eexists; exact Ra|].
      split; intros j; [change (eb' j = two_level (c_val r j) (vb j) (va j) (eb j) (ea j)); unfold eb'|change (ea' j = two_level (c_val r j) (va j) (vb j) (ea j) (eb j)); unfold ea']; rewrite dad_error_is; [|reflexivity]. unfold two_level. rewrite (Rplus_comm (vb j) (va j)). reflexivity.
  - exact H8.
  - intros x Hx. destruct (IN x Hx) as [->|[->|Hx']]; auto.
  - intros _ x Hx. apply (Permutation_in x PF) in Hx as [<-|[<-|Hx]]; auto. apply Igr; [exact (IN2 x Hx)|]. apply (Permutation_in x P2). now right.
  - intros j. rewrite Ir, (sum_of_perm _ _ _ PM2), (sum_of_perm _ _ _ PM). unfold sum_of. cbn [map fold_right piece_of p_val]. change (c_val A j) with (va j). change (c_val B j) with (vb j). ring.
  - intros j. rewrite Ia, (sum_of_perm _ _ _ PM2), (sum_of_perm _ _ _ PM). unfold sum_of. cbn [map fold_right piece_of p_err]. change (c_err A j) with (ea' j). change (c_err B j) with (eb' j). ring.
  - rewrite In_. lia.
  - reflexivity.
Qed.

(** The tests *)
Lemma loop_ok : forall fuel minsub maxsub epsabs epsrel c0 h0 st, Inv c0 h0 st -> Z.of_nat (length (cols st)) = maxsub -> (maxsub < Z.of_nat (fuel + sbrgns st))%Z ->
  exists i st', dad_loop f n numfun t num fuel minsub maxsub epsabs epsrel st = Ok (i, st') /\ dad_loop f2 n numfun t num fuel minsub maxsub epsabs epsrel st = Ok (i, st') /\ Inv c0 h0 st' /\ (sbrgns st <= sbrgns st')%nat /\ length (cols st') = length (cols st) /\
    ((i = 0%Z /\ (minsub <= Z.of_nat (sbrgns st'))%Z /\ (sbrgns st < sbrgns st')%nat /\ forall j, (1 <= j <= numfun)%nat -> accurate epsabs epsrel (result st' j) (abserr st' j)) \/
     (i = 1%Z /\ Z.of_nat (sbrgns st') = maxsub /\ ((sbrgns st < sbrgns st')%nat -> (minsub <= maxsub)%Z -> ~ forall j, (1 <= j <= numfun)%nat -> accurate epsabs epsrel (result st' j) (abserr st' j)))).
Proof.
  induction fuel as [|fuel IH]; intros minsub maxsub epsabs epsrel c0 h0 st I Len Fuel; [assert (X := i_sb _ _ _ I); lia|]. cbn [dad_loop].
  destruct (Z.leb_spec (Z.of_nat (sbrgns st) + 1) maxsub) as [L|L].
  - destruct (pass_ok c0 h0 st I ltac:(lia)) as (st1 & -> & -> & I1 & S1 & L1).
    assert (REC : (exists i st', dad_loop f n numfun t num fuel minsub maxsub epsabs epsrel st1 = Ok (i, st') /\ dad_loop f2 n numfun t num fuel minsub maxsub epsabs epsrel st1 = Ok (i, st') /\ Inv c0 h0 st' /\ (sbrgns st1 <= sbrgns st')%nat /\ length (cols st') = length (cols st1) /\
    ((i = 0%Z /\ (minsub <= Z.of_nat (sbrgns st'))%Z /\ (sbrgns st1 < sbrgns st')%nat /\ forall j, (1 <= j <= numfun)%nat -> accurate epsabs epsrel (result st' j) (abserr st' j)) \/
     (i = 1%Z /\ Z.of_nat (sbrgns st') = maxsub /\ ((sbrgns st1 < sbrgns st')%nat -> (minsub <= maxsub)%Z -> ~ forall j, (1 <= j <= numfun)%nat -> accurate epsabs epsrel (result st' j) (abserr st' j))))) ->
     (Z.of_nat (sbrgns st1) < minsub)%Z \/ (~ forall j, (1 <= j <= numfun)%nat -> accurate epsabs epsrel (result st1 j) (abserr st1 j)) -> 
     exists i st', dad_loop f n numfun t num fuel minsub maxsub epsabs epsrel st1 = Ok (i, st') /\ dad_loop f2 n numfun t num fuel minsub maxsub epsabs epsrel st1 = Ok (i, st') /\ Inv c0 h0 st' /\ (sbrgns st <= sbrgns st')%nat /\ length (cols st') = length (cols st) /\
    ((i = 0%Z /\ (minsub <= Z.of_nat (sbrgns st'))%Z /\ (sbrgns st < sbrgns st')%nat /\ forall j, (1 <= j <= numfun)%nat -> accurate epsabs epsrel (result st' j) (abserr st' j)) \/
     (i = 1%Z /\ Z.of_nat (sbrgns st') = maxsub /\ ((sbrgns st < sbrgns st')%nat -> (minsub <= maxsub)%Z -> ~ forall j, (1 <= j <= numfun)%nat -> accurate epsabs epsrel (result st' j) (abserr st' j))))).
    { intros (i & st' & Q1 & Q1' & Q2 & Q3 & Q4 & Q5) W. exists i, st'. split; [exact Q1|]. split; [exact Q1'|]. split; [exact Q2|]. split; [lia|]. split; [lia|]. destruct Q5 as [(A & B & C & D)|(A & B & C)]; [left|right].
      - repeat split; try assumption; lia.
      - split; [exact A|]. split; [exact B|]. intros _ M. destruct (Nat.lt_ge_cases (sbrgns st1) (sbrgns st')) as [K|K]; [now apply C|].
        destruct W as [W|W]; [lia|]. assert (E : sbrgns st' = sbrgns st1) by lia. destruct fuel as [|fuel]; [discriminate Q1|]. cbn [dad_loop] in Q1. destruct (Z.leb_spec (Z.of_nat (sbrgns st1) + 1) maxsub); [lia|]. injection Q1 as <- <-. exact W. }
    destruct (Z.ltb_spec (Z.of_nat (sbrgns st1)) minsub) as [L2|L2].
    + apply REC; [apply (IH minsub maxsub epsabs epsrel c0 h0 st1 I1); lia|now left].
    + destruct (existsb _ _) eqn:X.
      * apply REC; [apply (IH minsub maxsub epsabs epsrel c0 h0 st1 I1); lia|right]. apply existsb_exists in X as (j & Hj & X). apply andb_true_iff in X as [X1 X2]. apply Rltb_spec in X1, X2. apply in_seq in Hj. intros H. specialize (H j ltac:(lia)). unfold accurate, Rmax in H. destruct (Rle_dec epsabs (epsrel * Rabs (result st1 j))); lra.
      * exists 0%Z, st1. split; [reflexivity|]. split; [reflexivity|]. split; [exact I1|]. split; [lia|]. split; [lia|]. left. split; [reflexivity|]. split; [lia|]. split; [lia|]. intros j Hj.
        assert (Y : Rltb (epsrel * Rabs (result st1 j)) (abserr st1 j) && Rltb epsabs (abserr st1 j) = false).
        { destruct (Rltb (epsrel * Rabs (result st1 j)) (abserr st1 j) && Rltb epsabs (abserr st1 j)) eqn:Y; [|reflexivity]. rewrite <- X. symmetry. apply existsb_exists. exists j. split; [apply in_seq; lia|exact Y]. }
        unfold accurate. apply andb_false_iff in Y as [Y|Y]; apply Rltb_false in Y; apply Rnot_lt_le in Y; [eapply Rle_trans; [exact Y|apply Rmax_r]|eapply Rle_trans; [exact Y|apply Rmax_l]].
  - exists 1%Z, st. split; [reflexivity|]. split; [reflexivity|]. split; [exact I|]. split; [lia|]. split; [reflexivity|]. right. split; [reflexivity|]. split; [assert (X := i_sb _ _ _ I); lia|lia].
Qed.

(** The box *)
Lemma sign_is : forall a b, intsgn a b = orientation a b.
Proof.
  intros a b. unfold intsgn. assert (K : forall a b s, fold_left (fun s ab => if Rltb (snd ab) (fst ab) then - s else s) (combine a b) s = s * orientation a b).
  { induction a0 as [|x a0 IH]; intros [|y b0] s; cbn [combine fold_left orientation]; try ring. rewrite IH. cbn [fst snd]. destruct (Rltb y x) eqn:Q; destruct (Rlt_dec y x) as [L|L]; try ring; [apply Rltb_spec in Q; lra|apply Rltb_false in Q; lra]. }
  rewrite K. ring.
Qed.
Lemma totals : forall cs k, (k <= length cs)%nat ->
  exists s, iter (seq 1 k) (fun i s => let! c := rd1 cs i in Ok (fun j => fst s j + c_val c j, fun j => snd s j + c_err c j)) ((fun _ => 0) : vec, (fun _ => 0) : vec) = Ok s /\
    forall j, fst s j = sum_of (fun r => p_val r j) (map piece_of (firstn k cs)) /\ snd s j = sum_of (fun r => p_err r j) (map piece_of (firstn k cs)).
Proof.
  induction k as [|k IH]; intros H.
  - eexists. split; [reflexivity|]. intros j. split; reflexivity.
  - destruct (IH ltac:(lia)) as (s & E & S). rewrite seq_S, (iter_app _ (seq 1 k)). rewrite E. cbn [iter]. rewrite rd_col by lia. eexists. split; [reflexivity|]. intros j. destruct (S j) as [S1 S2]. cbn [fst snd]. rewrite S1, S2.
    rewrite (first_snoc cs k nil_col) by lia. replace (nth k cs nil_col) with (col cs (1 + k)) by (unfold col; f_equal; lia).
    assert (SA : forall g l x, sum_of g (map piece_of (l ++ [x])) = sum_of g (map piece_of l) + g (piece_of x)) by (intros g l x; unfold sum_of; induction l as [|y l IHl]; cbn [app map fold_right] in *; lra).
    rewrite !SA. split; reflexivity.
Qed.
Lemma between_pos : forall a b x, In x (half_between a b) -> 0 <= x.
Proof. intros a b x H. apply in_map_iff in H as (p & <- & _). assert (X := Rabs_pos (snd p - fst p)). lra. Qed.

Lemma dadhre_ok : forall a b minsub maxsub epsabs epsrel junk, length a = n -> length b = n -> (1 <= maxsub)%Z -> okbox (centre_of a b) (half_between a b) ->
  exists o rs, dadhre f n numfun t num a b minsub maxsub epsabs epsrel junk = Ok o /\ dadhre f2 n numfun t num a b minsub maxsub epsabs epsrel junk = Ok o /\ pieces numfun ruled (centre_of a b) (half_between a b) rs /\ length rs = o_nsub o /\
    (forall j, o_result o j = orientation a b * sum_of (fun r => p_val r j) rs) /\ (forall j, o_abserr o j = sum_of (fun r => p_err r j) rs) /\
    o_neval o = (num * (2 * Z.of_nat (o_nsub o) - 1))%Z /\ (Z.of_nat (o_nsub o) <= maxsub)%Z /\
    ((o_ifail o = 0%Z /\ (minsub <= Z.of_nat (o_nsub o))%Z /\ (2 <= o_nsub o)%nat /\ forall j, (1 <= j <= numfun)%nat -> accurate epsabs epsrel (o_result o j) (o_abserr o j)) \/
     (o_ifail o = 1%Z /\ Z.of_nat (o_nsub o) = maxsub /\ ((2 <= maxsub)%Z -> (minsub <= maxsub)%Z -> ~ forall j, (1 <= j <= numfun)%nat -> accurate epsabs epsrel (o_result o j) (o_abserr o j)))).
Proof.
  intros a b minsub maxsub epsabs epsrel junk La Lb M Ob. unfold dadhre. fold (centre_of a b). fold (half_between a b).
  set (c0 := centre_of a b). set (h0 := half_between a b). assert (Lc : length c0 = n) by (unfold c0, centre_of; rewrite map_length, combine_length; lia). assert (Lh : length h0 = n) by (unfold h0, half_between; rewrite map_length, combine_length; lia).
  set (k := Z.to_nat maxsub). assert (Lr : length (repeat junk k) = k) by apply repeat_length. rewrite wr_col by lia. set (cs := put _ 1 _). assert (Ls : length cs = k) by (unfold cs; rewrite put_len; lia).
  unfold dad_rule. rewrite rd_col by lia. replace (col cs 1) with (Column (c_val junk) (c_err junk) (c_great junk) (c_axis junk) c0 h0) by (unfold cs; rewrite col_put by lia; reflexivity). cbn [c_cen c_hw c_great].
  destruct (rule_ok c0 h0 Lc Lh) as (v & e & d & R1 & R2 & R3). rewrite (same c0 h0 Lc Lh (between_pos a b) Ob), R1. rewrite wr_col by lia. set (r := Column v e (c_great junk) d c0 h0). set (cs1 := put cs 1 r). assert (L1 : length cs1 = k) by (unfold cs1; rewrite put_len; lia).
  rewrite rd_col by lia. assert (C1 : col cs1 1 = r) by (unfold cs1; rewrite col_put by lia; reflexivity). rewrite C1.
  destruct (insert_ok 1 cs1) as (cs2 & -> & (L2 & P2 & O2) & H2); [lia|intros i Hi; lia|].
  assert (F1 : forall l, (1 <= length l)%nat -> firstn 1 l = [col l 1]) by (intros [|x l] Hl; cbn [length] in Hl; [lia|reflexivity]).
  rewrite (F1 cs1), C1, (F1 cs2) in P2 by lia. apply Permutation_length_1 in P2.
  assert (I : Inv c0 h0 (State cs2 1 (fun j => 0 + c_val r j) (fun j => 0 + c_err r j) num (t_g t))).
  { constructor; cbn [cols sbrgns result abserr neval gcols]; try (rewrite F1 by lia; rewrite P2).
    - lia.
    - apply pieces_start; [reflexivity|reflexivity|]. eexists. exact R1.
    - exact H2.
    - intros x [<-|[]]. split; [exact Lc|]. split; [exact Lh|]. split; [exact R2|]. split; [exact (between_pos a b)|split; [exact (R3 (between_pos a b))|exact Ob]].
    - lia.
    - intros j. cbn. ring.
    - intros j. cbn. ring.
    - lia.
    - reflexivity. }
  destruct (loop_ok k minsub maxsub epsabs epsrel c0 h0 _ I) as (i & st & -> & -> & I' & Q1 & Q2 & Q3); cbn [cols sbrgns] in *; [lia|lia|].
  destruct I' as [Isb Ip Ih Igd Igr Ir Ia In_ Ig]. destruct (totals (cols st) (sbrgns st)) as (s & -> & S); [lia|].
  eexists. exists (map piece_of (firstn (sbrgns st) (cols st))). split; [reflexivity|]. split; [reflexivity|]. cbn [o_result o_abserr o_neval o_nsub o_ifail]. rewrite sign_is.
  split; [exact Ip|]. split; [rewrite map_length, firstn_length; lia|]. split; [intros j; destruct (S j) as [-> _]; ring|]. split; [intros j; apply S|]. split; [exact In_|]. split; [lia|].
  assert (AC : forall j, accurate epsabs epsrel (result st j) (abserr st j) <-> accurate epsabs epsrel (fst s j * orientation a b) (snd s j)).
  { intros j. destruct (S j) as [-> ->]. rewrite Ir, Ia. unfold accurate. rewrite Rabs_mult. replace (Rabs (orientation a b)) with 1; [now rewrite Rmult_1_r|].
    clear. revert b. induction a as [|x a IH]; intros [|y b]; cbn [orientation]; try (symmetry; apply Rabs_R1). rewrite Rabs_mult, <- IH. destruct (Rlt_dec y x); [rewrite Rabs_left by lra|rewrite Rabs_R1]; ring. }
  destruct Q3 as [(A & B & C & D)|(A & B & C)]; [left|right].
  - split; [exact A|]. split; [exact B|]. split; [lia|]. intros j Hj. apply AC. now apply D.
  - split; [exact A|]. split; [exact B|]. intros M2 M3 H. apply (C ltac:(lia) M3). intros j Hj. apply AC. now apply H.
Qed.
End Dad.

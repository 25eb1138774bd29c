(** BCES. *)

From Coq Require Import List Bool Arith Reals Lra Lia.
From Verif Require Import Exn Instances McModel BaModel RgModel RgSpec RgLemmas RgLemmas2 RgLemmas3 RgLemmas5 RgLemmas7.
Import ListNotations.
Open Scope R_scope.

Lemma bare_data x y : length x = length y -> let z := map (fun _ => 0) (seq 0 (length x)) in
  map (fun p => let '(x, xe, y, ye, c) := p in Datum x xe y ye c) (combine (combine (combine (combine x z) y) z) z) = map bare (combine x y).
Proof.
  intros H z. unfold z. clear z. generalize 0%nat. revert y H. induction x as [|a x IH]; intros [|b y] H m; try discriminate; [easy|]. cbn. f_equal. apply IH. now injection H.
Qed.
Lemma data_back l : map (fun p => let '(x, xe, y, ye, c) := p in Datum x xe y ye c)
  (combine (combine (combine (combine (map d_y1 l) (map d_y1err l)) (map d_y2 l)) (map d_y2err l)) (map d_cerr l)) = l.
Proof. induction l as [|[a b c d e] l IH]; [easy|]. cbn. now rewrite IH. Qed.

(** The same line and errors *)
Definition agree (r r' : line) : Prop := r_slope r = r_slope r' /\ r_inter r = r_inter r' /\ r_serr r = r_serr r' /\ r_ierr r = r_ierr r'.
Lemma no_errors_l x y : length x = length y -> (2 <= length x)%nat -> Sxy (combine x y) <> 0 ->
  exists c s, BCES x (Same 0) y (Same 0) (Same 0) = Ok c /\ SixLin x y = Ok s /\
    agree (c_yonx c) (s_yonx s) /\ agree (c_xony c) (s_xony s) /\ agree (c_bisect c) (s_bisect s) /\ agree (c_orthog c) (s_orthog s).
Proof.
  intros Hlen Hn Hsxy. destruct (six_ok x y Hlen Hn Hsxy) as (s & Es & (S1 & S2 & S3 & S4 & _) & _).
  assert (Hx : x <> []) by (destruct x; cbn in Hn; [lia|easy]). assert (Hy : y <> []) by (destruct y; cbn in *; [lia|easy]).
  assert (Hne : combine x y <> []) by (apply pts_ne; [easy|lia]).
  unfold BCES. cbn [spread]. rewrite <- Hlen, Nat.eqb_refl. cbn [negb]. rewrite (proj2 (Nat.ltb_ge _ _) Hn). rewrite bare_data by exact Hlen.
  destruct (bess_eval (combine x y) Hne Hsxy) as (e & -> & Eb & Ea & Ev & Ew). cbv zeta in *.
  assert (P : forall l i, nsqrt (pick l i) = pick (map nsqrt l) i) by (intros l; induction l as [|v l IH]; intros [|i]; cbn; auto; apply IH).
  cbv zeta. rewrite !P, Eb, Ea, Ev, Ew. cbn [map]. unfold pick. cbn [nth].
  do 4 (match goal with |- context [linreg ?s ?i ?se ?ie x y (Some ?z) (Some ?z)] => let r := fresh "r" in let E := fresh in
    destruct (linreg_ok s i se ie x y (Some z) (Some z) Hx Hy) as (r & E & ? & ? & ? & ? & _);
      [cbn; now rewrite map_length, seq_length|cbn; rewrite map_length, seq_length; lia|rewrite E; clear E] end).
  eexists _, s. split; [reflexivity|]. split; [exact Es|]. unfold agree. cbn [c_yonx c_xony c_bisect c_orthog]. unfold line_is in *.
  repeat split; (etransitivity; [eassumption|]; symmetry; (apply S1 || apply S2 || apply S3 || apply S4)).
Qed.

Section Slopes.
Variable l : list datum.
Hypothesis Hne : l <> [].
Let c0 := covariance d_y1 d_y2 l.
Let c := c0 - average d_cerr l.
Let v1 := covariance d_y1 d_y1 l - average (fun d => d_y1err d ^ 2) l.
Let v2 := covariance d_y2 d_y2 l - average (fun d => d_y2err d ^ 2) l.
Hypothesis Hc : c <> 0.
Hypothesis H1 : v1 <> 0.
Hypothesis H2 : v2 <> 0.
Let b1 := c / v1.
Let b2 := v2 / c.
Hypothesis Hb : b1 + b2 <> 0.
Lemma bess_slopes : let e := bess l in let b3 := half_way b1 b2 in let b4 := nearest (sign_of c0) b1 b2 in
  e_b e = map Num [b1; b2; b3; b4] /\ e_a e = map (fun b => Num (average d_y2 l - b * average d_y1 l)) [b1; b2; b3; b4].
Proof.
  assert (N : 0 < size l) by (unfold size; apply lt_0_INR; destruct l; [easy|cbn; lia]).
  assert (Nv : forall f : datum -> R, 0 <= Sum (fun p => (f p - Sum f l / size l) ^ 2) l / size l) by (intros f; apply Rmult_le_pos; [apply Sum_nonneg; intros; apply pow2_ge_0|left; now apply Rinv_0_lt_compat]).
  assert (C0 : count l = Num (size l)) by easy.
  assert (Z11 : (nsum (fun d => ((Num (d_y1err d))²)%num) l / Num (size l))%num = Num (average (fun d => d_y1err d ^ 2) l)) by (rewrite (nsum_ok _ (fun d => d_y1err d ^ 2)) by (intros p; nums; easy); now rewrite ndiv_ok by lra).
  assert (Z22 : (nsum (fun d => ((Num (d_y2err d))²)%num) l / Num (size l))%num = Num (average (fun d => d_y2err d ^ 2) l)) by (rewrite (nsum_ok _ (fun d => d_y2err d ^ 2)) by (intros p; nums; easy); now rewrite ndiv_ok by lra).
  assert (Z12 : (nsum (fun d => Num (d_cerr d)) l / Num (size l))%num = Num (average d_cerr l)) by (rewrite (nsum_ok _ d_cerr) by (intros p; easy); now rewrite ndiv_ok by lra).
  pose proof (class_eval (fun d => Num (d_y1 d)) d_y1 l Hne (fun _ => eq_refl)) as K1. pose proof (class_eval (fun d => Num (d_y2 d)) d_y2 l Hne (fun _ => eq_refl)) as K2.
  fold (average d_y1 l) in K1. fold (average d_y2 l) in K2.
  assert (KC : (nsum (fun d => ((Num (d_y1 d) - Num (average d_y1 l)) * (Num (d_y2 d) - Num (average d_y2 l)))%num) l / Num (size l))%num = Num c0).
  { rewrite (nsum_ok _ (fun d => (d_y1 d - average d_y1 l) * (d_y2 d - average d_y2 l))) by (intros p; nums; easy). now rewrite ndiv_ok by lra. }
  assert (Vx : (Num (sqrt (Sum (fun p => (d_y1 p - average d_y1 l) ^ 2) l / size l)))²%num = Num (covariance d_y1 d_y1 l)).
  { nums. rewrite pow2_sqrt by apply (Nv d_y1). f_equal. unfold covariance, average at 2. f_equal. apply Sum_ext. intros. ring. }
  assert (Vy : (Num (sqrt (Sum (fun p => (d_y2 p - average d_y2 l) ^ 2) l / size l)))²%num = Num (covariance d_y2 d_y2 l)).
  { nums. rewrite pow2_sqrt by apply (Nv d_y2). f_equal. unfold covariance, average at 2. f_equal. apply Sum_ext. intros. ring. }
  assert (N1 : b1 <> 0) by (apply Rmult_integral_contrapositive_currified; [exact Hc|now apply Rinv_neq_0_compat]).
  pose proof (pow2_ge_0 b1). pose proof (pow2_ge_0 b2). assert (Pr : 0 < (1 + b1 ^ 2) * (1 + b2 ^ 2)) by (apply Rmult_lt_0_compat; lra).
  assert (Pk : 0 < 4 + (b2 - 1 / b1) ^ 2) by (pose proof (pow2_ge_0 (b2 - 1 / b1)); lra).
  assert (E1 : ((Num c0 - Num (average d_cerr l)) / (Num (covariance d_y1 d_y1 l) - Num (average (fun d => (d_y1err d ^ 2)%R) l)))%num = Num b1) by (nums; now rewrite ndiv_ok by easy).
  assert (E2 : ((Num (covariance d_y2 d_y2 l) - Num (average (fun d => (d_y2err d ^ 2)%R) l)) / (Num c0 - Num (average d_cerr l)))%num = Num b2) by (nums; now rewrite ndiv_ok by easy).
  assert (ER : nsqrt ((Num 1 + (Num b1)²) * (Num 1 + (Num b2)²))%num = Num (sqrt ((1 + b1 ^ 2) * (1 + b2 ^ 2)))) by (nums; now rewrite nsqrt_ok by lra).
  assert (E3 : ((Num b1 * Num b2 - Num 1 + Num (sqrt ((1 + b1 ^ 2) * (1 + b2 ^ 2)))) / (Num b1 + Num b2))%num = Num (half_way b1 b2)) by (nums; now rewrite ndiv_ok by easy).
  assert (EI : (Num 1 / Num b1)%num = Num (1 / b1)) by now apply ndiv_ok.
  assert (EK : nsqrt (Num 4 + (Num b2 - Num (1 / b1))²)%num = Num (sqrt (4 + (b2 - 1 / b1) ^ 2))) by (nums; now rewrite nsqrt_ok by lra).
  assert (ES : (if nneg (Num c0) then Num (-1) else Num 1) = Num (sign_of c0)) by (cbn [nneg]; unfold sign_of, Rltb; now destruct (Rlt_dec _ _)).
  assert (E4 : (Num (1 / 2) * (Num b2 - Num (1 / b1) + Num (sign_of c0) * Num (sqrt (4 + (b2 - 1 / b1) ^ 2))))%num = Num (nearest (sign_of c0) b1 b2)) by (nums; f_equal; unfold nearest; field; easy).
  cbv zeta. unfold bess. rewrite C0, Z11, Z22, Z12, K1, K2. cbv iota beta. rewrite KC, Vx, Vy. cbn [e_b e_a]. rewrite !E1, !E2, !ER, !E3, !EI, !EK, !ES, !E4. easy.
Qed.
End Slopes.

Lemma corrected_l l : (2 <= length l)%nat ->
  let c0 := covariance d_y1 d_y2 l in
  let c := c0 - average d_cerr l in
  let v1 := covariance d_y1 d_y1 l - average (fun d => d_y1err d ^ 2) l in
  let v2 := covariance d_y2 d_y2 l - average (fun d => d_y2err d ^ 2) l in
  let b1 := c / v1 in
  let b2 := v2 / c in
  c <> 0 -> v1 <> 0 -> v2 <> 0 -> b1 + b2 <> 0 ->
  exists r, BCES (map d_y1 l) (Each (map d_y1err l)) (map d_y2 l) (Each (map d_y2err l)) (Each (map d_cerr l)) = Ok r /\
    r_slope (c_yonx r) = Num b1 /\ r_slope (c_xony r) = Num b2 /\ r_slope (c_bisect r) = Num (half_way b1 b2) /\ r_slope (c_orthog r) = Num (nearest (sign_of c0) b1 b2) /\
    forall q b, In q [c_yonx r; c_xony r; c_bisect r; c_orthog r] -> r_slope q = Num b -> r_inter q = Num (average d_y2 l - b * average d_y1 l).
Proof.
  intros Hn c0 c v1 v2 b1 b2 Hc H1 H2 Hb. assert (Hne : l <> []) by (destruct l; cbn in Hn; [lia|easy]).
  destruct (bess_slopes l Hne Hc H1 H2 Hb) as [Eb Ea]. cbv zeta in Eb, Ea.
  unfold BCES. cbn [spread]. rewrite !map_length, !Nat.eqb_refl. cbn [negb]. rewrite (proj2 (Nat.ltb_ge _ _) Hn). rewrite data_back. cbv zeta. rewrite Eb, Ea. cbn [map]. unfold pick at 1 2 5 6 9 10 13 14. cbn [nth].
  assert (Hx : map d_y1 l <> []) by (destruct l; easy). assert (Hy : map d_y2 l <> []) by (destruct l; easy).
  do 4 (match goal with |- context [linreg ?s ?i ?se ?ie (map d_y1 l) (map d_y2 l) (Some ?z) (Some ?z')] => let r := fresh "r" in let E := fresh in
    destruct (linreg_ok s i se ie (map d_y1 l) (map d_y2 l) (Some z) (Some z') Hx Hy) as (r & E & ? & ? & _);
      [cbn; now rewrite !map_length|cbn; now rewrite !map_length|rewrite E; clear E] end).
  eexists. split; [reflexivity|]. cbn [c_yonx c_xony c_bisect c_orthog]. do 4 (split; [assumption|]).
  intros q b [<-|[<-|[<-|[<-|[]]]]] E; match goal with H : r_slope ?q = Num ?v, E : r_slope ?q = Num b |- _ => rewrite H in E; injection E as <- end; assumption.
Qed.

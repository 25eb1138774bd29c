(** Arguments that wlss and BCES refuse, and the other attributes of their lines;
    the errors of BCES when those of the data are correlated. *)

From Coq Require Import List Bool Arith Reals Lra Lia.
From Verif Require Import Exn Instances McModel BaModel RgModel RgSpec RgLemmas RgLemmas2 RgLemmas3 RgLemmas5 RgLemmas6 RgLemmas7 RgLemmas8 RgLemmas9 RgCases.
Import ListNotations.
Open Scope R_scope.

Definition wrong (n : nat) (e : errs) : Prop := match e with Same _ => False | Each l => length l <> n end.
Definition each (x : list R) (e : errs) : list R := match e with Same e => map (fun _ => e) x | Each l => l end.
Lemma map_seq_const {A} (x : list A) (e : R) m : map (fun _ => e) (seq m (length x)) = map (fun _ => e) x.
Proof. revert m. induction x as [|a x IH]; intros m; [easy|]. cbn [length seq map]. now rewrite IH. Qed.
Lemma spread_cases x e : (wrong (length x) e /\ spread (length x) e = Err ValueError) \/ (~ wrong (length x) e /\ spread (length x) e = Ok (each x e) /\ length (each x e) = length x).
Proof.
  destruct e as [e|l]; cbn [wrong each spread].
  - right. split; [easy|]. rewrite map_seq_const, map_length. easy.
  - destruct (length l =? length x)%nat eqn:E; cbn [negb]; [apply Nat.eqb_eq in E; right|apply Nat.eqb_neq in E; left; easy]. split; [lia|easy].
Qed.
Lemma wlss_refused_l x y yerr : wrong (length x) yerr \/ length y <> length x \/ (length x < 2)%nat \/ Sxy (combine x y) = 0 -> wlss x y yerr = Err ValueError.
Proof.
  intros H. unfold wlss. destruct (spread_cases x yerr) as [[W ->]|(W & -> & L)]; [easy|]. cbv beta iota.
  destruct (length y =? length x)%nat eqn:E; cbn [negb]; [|easy]. apply Nat.eqb_eq in E. destruct (length x <? 2)%nat eqn:F; [easy|]. apply Nat.ltb_ge in F.
  destruct H as [H|[H|[H|H]]]; [easy|lia|lia|]. unfold wlss_f. rewrite sixlin_none; [easy|easy|lia|easy].
Qed.
Lemma wlss_object_l x y yerr r scat : wlss x y yerr = Ok (r, scat) ->
  r_x r = x /\ r_y r = y /\ r_npts r = length x /\ range x (map (fun _ => 0) x) (r_xmin r) (r_xmax r) /\ range y (each x yerr) (r_ymin r) (r_ymax r).
Proof.
  unfold wlss. destruct (spread_cases x yerr) as [[W ->]|(W & -> & L)]; [discriminate|]. cbv beta iota.
  destruct (length y =? length x)%nat eqn:E; cbn [negb]; [|discriminate]. apply Nat.eqb_eq in E. destruct (length x <? 2)%nat eqn:F; [discriminate|]. apply Nat.ltb_ge in F.
  assert (Hx : x <> []) by (destruct x; cbn in F; [lia|easy]). assert (Hy : y <> []) by (destruct y; cbn in *; [lia|easy]).
  destruct (wlss_f x y (each x yerr)) as [w|]; [|discriminate].
  match goal with |- context [linreg ?s ?i ?se ?ie x y None (Some ?z)] => destruct (linreg_ok s i se ie x y None (Some z) Hx Hy) as (r' & Er & _ & _ & _ & _ & A); [apply map_length|cbn; lia|rewrite Er; clear Er] end.
  intros [= <- _]. exact A.
Qed.
Lemma bces_refused_l x xe y ye ce : wrong (length x) xe \/ wrong (length x) ye \/ wrong (length x) ce \/ length y <> length x \/ (length x < 2)%nat -> BCES x xe y ye ce = Err ValueError.
Proof.
  intros H. unfold BCES. destruct (spread_cases x xe) as [[W ->]|(W & -> & L)]; [easy|]. cbv beta iota. destruct (spread_cases x ye) as [[W1 ->]|(W1 & -> & L1)]; [easy|]. cbv beta iota.
  destruct (spread_cases x ce) as [[W2 ->]|(W2 & -> & L2)]; [easy|]. cbv beta iota.
  destruct (length y =? length x)%nat eqn:E; cbn [negb]; [|easy]. apply Nat.eqb_eq in E. destruct (length x <? 2)%nat eqn:F; [easy|]. apply Nat.ltb_ge in F. exfalso. intuition lia.
Qed.
Lemma bces_object_l x xe y ye ce : ~ wrong (length x) xe -> ~ wrong (length x) ye -> ~ wrong (length x) ce -> length y = length x -> (2 <= length x)%nat ->
  exists c, BCES x xe y ye ce = Ok c /\ forall r, In r [c_yonx c; c_xony c; c_bisect c; c_orthog c] ->
    r_x r = x /\ r_y r = y /\ r_npts r = length x /\ range x (each x xe) (r_xmin r) (r_xmax r) /\ range y (each x ye) (r_ymin r) (r_ymax r).
Proof.
  intros X Y C E F. assert (Hx : x <> []) by (destruct x; cbn in F; [lia|easy]). assert (Hy : y <> []) by (destruct y; cbn in *; [lia|easy]).
  unfold BCES. destruct (spread_cases x xe) as [[W _]|(_ & -> & L)]; [easy|]. cbv beta iota. destruct (spread_cases x ye) as [[W1 _]|(_ & -> & L1)]; [easy|]. cbv beta iota.
  destruct (spread_cases x ce) as [[W2 _]|(_ & -> & L2)]; [easy|]. cbv beta iota. rewrite E, Nat.eqb_refl. cbn [negb]. rewrite (proj2 (Nat.ltb_ge _ _) F). cbv zeta.
  match goal with |- context [bess ?d] => set (e := bess d) end. clearbody e.
  do 4 (match goal with |- context [linreg ?s ?i ?se ?ie x y (Some ?z) (Some ?z')] => let r := fresh "r" in let E := fresh in
    destruct (linreg_ok s i se ie x y (Some z) (Some z') Hx Hy) as (r & E & _ & _ & _ & _ & ?); [exact L|cbn; lia|rewrite E; clear E] end).
  eexists. split; [reflexivity|]. cbn [c_yonx c_xony c_bisect c_orthog In]. intros q [<-|[<-|[<-|[<-|[]]]]]; assumption.
Qed.

(** The first two errors of the slopes *)
Lemma bces_serr l : (2 <= length l)%nat -> exists r, BCES (map d_y1 l) (Each (map d_y1err l)) (map d_y2 l) (Each (map d_y2err l)) (Each (map d_cerr l)) = Ok r /\
  r_slope (c_yonx r) = pick (e_b (bess l)) 0 /\ r_slope (c_xony r) = pick (e_b (bess l)) 1 /\
  r_serr (c_yonx r) = nsqrt (pick (e_bvar (bess l)) 0) /\ r_serr (c_xony r) = nsqrt (pick (e_bvar (bess l)) 1).
Proof.
  intros Hn. assert (Hx : map d_y1 l <> []) by (destruct l; [cbn in Hn; lia|easy]). assert (Hy : map d_y2 l <> []) by (destruct l; [cbn in Hn; lia|easy]).
  unfold BCES. cbn [spread]. rewrite !map_length, !Nat.eqb_refl. cbn [negb]. rewrite (proj2 (Nat.ltb_ge _ _) Hn). rewrite data_back. cbv zeta. generalize (bess l). intros e.
  do 4 (match goal with |- context [linreg ?s ?i ?se ?ie (map d_y1 l) (map d_y2 l) (Some ?z) (Some ?z')] => let r := fresh "r" in let E := fresh in
    destruct (linreg_ok s i se ie (map d_y1 l) (map d_y2 l) (Some z) (Some z') Hx Hy) as (r & E & ? & ? & ? & ? & _);
      [cbn; now rewrite !map_length|cbn; now rewrite !map_length|rewrite E; clear E] end).
  eexists. split; [reflexivity|]. cbn [c_yonx c_xony]. tauto.
Qed.
Definition ex_data : list datum := [Datum 1 0 1 0 (1 / 6); Datum 2 0 3 0 (1 / 6); Datum 3 0 2 0 (1 / 6)].
Definition ex_back : list datum := [Datum 1 0 1 0 (1 / 6); Datum 3 0 2 0 (1 / 6); Datum 2 0 3 0 (1 / 6)].
Ltac ex_go := unfold covariance, average, ex_data, ex_back; rewrite !size3; unfold Sum; cbn [fold_right d_y1 d_y2 d_y1err d_y2err d_cerr]; try lra; try field.
Lemma exchange_l : exists x xe y ye ce r r' b s s', BCES x xe y ye ce = Ok r /\ BCES y ye x xe ce = Ok r' /\
  r_slope (c_xony r) = Num b /\ r_slope (c_yonx r') = Num (1 / b) /\ r_serr (c_xony r) = Num s /\ r_serr (c_yonx r') = Num s' /\ s <> b ^ 2 * s'.
Proof.
  destruct (bces_serr ex_data ltac:(cbn; lia)) as (r & E & _ & S2 & _ & V2). destruct (bces_serr ex_back ltac:(cbn; lia)) as (r' & E' & S1 & _ & V1 & _).
  assert (A1 : covariance d_y1 d_y2 ex_data = 1 / 3) by ex_go. assert (A2 : average d_cerr ex_data = 1 / 6) by ex_go.
  assert (A3 : covariance d_y1 d_y1 ex_data - average (fun d => d_y1err d ^ 2) ex_data = 2 / 3) by ex_go. assert (A4 : covariance d_y2 d_y2 ex_data - average (fun d => d_y2err d ^ 2) ex_data = 2 / 3) by ex_go.
  assert (A5 : average d_y1 ex_data = 2) by ex_go. assert (A6 : average d_y2 ex_data = 2) by ex_go.
  assert (B1 : covariance d_y1 d_y2 ex_back = 1 / 3) by ex_go. assert (B2 : average d_cerr ex_back = 1 / 6) by ex_go.
  assert (B3 : covariance d_y1 d_y1 ex_back - average (fun d => d_y1err d ^ 2) ex_back = 2 / 3) by ex_go. assert (B4 : covariance d_y2 d_y2 ex_back - average (fun d => d_y2err d ^ 2) ex_back = 2 / 3) by ex_go.
  assert (B5 : average d_y1 ex_back = 2) by ex_go. assert (B6 : average d_y2 ex_back = 2) by ex_go.
  pose proof (bess_slopes ex_data ltac:(discriminate)) as T1. pose proof (bess_errs ex_data ltac:(discriminate)) as T2. cbv zeta in T1, T2. rewrite A1, A2, A3, A4 in T1, T2. rewrite A5, A6 in T2.
  pose proof (bess_slopes ex_back ltac:(discriminate)) as U1. pose proof (bess_errs ex_back ltac:(discriminate)) as U2. cbv zeta in U1, U2. rewrite B1, B2, B3, B4 in U1, U2. rewrite B5, B6 in U2.
  destruct T1 as [T1 _]; [lra|lra|lra|lra|]. destruct T2 as [T2 _]; [lra|lra|lra|lra|lra|]. destruct U1 as [U1 _]; [lra|lra|lra|lra|]. destruct U2 as [U2 _]; [lra|lra|lra|lra|lra|].
  rewrite T1 in S2. rewrite T2 in V2. rewrite U1 in S1. rewrite U2 in V1. cbn [map pick nth] in S1, S2, V1, V2. unfold pick in *. cbn [nth] in *. rewrite nsqrt_err in V1, V2.
  eexists _, _, _, _, _, r, r', _, _, _. split; [exact E|]. split; [exact E'|]. split; [exact S2|]. split; [rewrite S1; f_equal; field|]. split; [exact V2|]. split; [exact V1|].
  intros H. apply (f_equal (fun v => v ^ 2)) in H. rewrite Rpow_mult_distr in H. unfold std_err in H.
  rewrite !pow2_sqrt in H; [|ex_go|ex_go]. revert H. unfold covariance, average, ex_data, ex_back; rewrite !size3; unfold Sum; cbn [fold_right d_y1 d_y2 d_y1err d_y2err d_cerr]. lra.
Qed.
Definition err_data : list datum := [Datum 1 0 1 (1 / 2) 0; Datum 2 0 3 (1 / 2) 0; Datum 3 0 2 (1 / 2) 0].
Lemma err_moments : covariance d_y1 d_y2 err_data = 1 / 3 /\ covariance d_y1 d_y1 err_data - average (fun d => d_y1err d ^ 2) err_data = 2 / 3 /\
  covariance d_y2 d_y2 err_data - average (fun d => d_y2err d ^ 2) err_data = 5 / 12.
Proof. unfold err_data. split; [ex_go|split; ex_go]. Qed.

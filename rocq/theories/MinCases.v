(** Two searches carried out step by step, for the examples. *)

From Coq Require Import ZArith List Bool Arith Reals Lra Lia Psatz.
From Verif Require Import Exn PieModel Instances MinModel MinSpec MinLemmas.
Import ListNotations.
Open Scope R_scope.

Ltac yes := first [apply Rltb_spec | apply Rleb_spec | apply Reqb_spec].
Ltac no := first [apply Rltb_false | apply Rleb_false | apply Reqb_false].

(** ** A bracket found by parabolic extrapolation *)
Definition sq3 (x : R) : R := (x - 3) ^ 2.

Lemma extrapolation : forall f fuel x1 f1 xm fm x2 f2 tr den u,
  ~ fm < f2 -> den = 2 * ((xm - x2) * (fm - f1) - (xm - x1) * (fm - f2)) -> TINY <= den ->
  u = xm - ((xm - x2) * ((xm - x2) * (fm - f1)) - (xm - x1) * ((xm - x1) * (fm - f2))) / den ->
  (xm - u) * (u - x2) <= 0 -> 0 < (x2 - u) * (u - (xm - MAXMAG * (xm - x2))) -> f u < f2 ->
  mb_loop f (S fuel) (Brak x1 f1 xm fm x2 f2) tr
  = mb_loop f fuel (Brak x2 f2 u (f u) (u - GOLD * (xm - x2)) (f (u - GOLD * (xm - x2))))
      ((tr ++ [u]) ++ [u - GOLD * (xm - x2)]).
Proof.
  intros f fuel x1 f1 xm fm x2 f2 tr den u H0 Hd Ht Hu H1 H2 H3. cbn [mb_loop]. cbv zeta.
  replace (Rltb fm f2) with false by (symmetry; no; exact H0).
  rewrite <- Hd. rewrite (Rabs_pos_eq den) by (unfold TINY in Ht; lra).
  replace (Rltb den TINY) with false by (symmetry; no; lra). rewrite <- Hu.
  replace (Rltb 0 ((xm - u) * (u - x2))) with false by (symmetry; no; lra).
  replace (Rltb 0 ((x2 - u) * (u - (xm - MAXMAG * (xm - x2))))) with true by (symmetry; yes; lra).
  unfold bind, call. replace (Rltb (f u) f2) with true by (symmetry; yes; lra). reflexivity.
Qed.

Lemma stop : forall f fuel b tr, b_fm b < b_f2 b -> mb_loop f (S fuel) b tr = (tr, Ok b).
Proof.
  intros f fuel [x1 f1 xm fm x2 f2] tr H. cbn in H. cbn [mb_loop].
  replace (Rltb fm f2) with true by (symmetry; yes; exact H). reflexivity.
Qed.

Lemma bracket_sq3 : exists tr x1 x2, MinBracket sq3 5 0 1 [] = (tr, Ok (Brak x1 (sq3 x1) 3 (sq3 3) x2 (sq3 x2)))
  /\ x1 = 2618034 / 1000000 /\ length tr = 5%nat.
Proof.
  unfold MinBracket, bind, call.
  replace (Rltb (sq3 0) (sq3 1)) with false by (symmetry; no; unfold sq3; lra). cbv beta iota zeta.
  replace (1 + GOLD * (1 - 0)) with (2618034 / 1000000) by (unfold GOLD; lra).
  set (y := 2618034 / 1000000).
  rewrite (extrapolation sq3 4 0 (sq3 0) 1 (sq3 1) y (sq3 y) _ (2 * ((1 - y) * (sq3 1 - sq3 0) - (1 - 0) * (sq3 1 - sq3 y))) 3).
  2-8: unfold sq3, TINY, MAXMAG, y; try lra; try (field; lra).
  set (z := 3 - GOLD * (1 - y)).
  rewrite stop by (cbn; unfold sq3, z, y, GOLD; lra).
  unfold ret. cbv beta iota zeta.
  replace (Rltb z y) with false by (symmetry; no; unfold z, y, GOLD; lra).
  eexists _, _, _. split; [reflexivity|]. split; reflexivity.
Qed.

(** ** A minimum found by brent, and by powell *)
Definition sq1 (x : R) : R := (x - 1) ^ 2.

(** One round whose trial value is no improvement. *)
Lemma round : forall f tol left a b v w x fv fw fx e d tr t d' e' u a' b',
  t = tol * Rabs x + EPS0 -> 2 * t - 1/2 * (b - a) < Rabs (x - 1/2 * (a + b)) ->
  (if Rltb t (Rabs e) then
                 let xw := x - w in
                 let xv := x - v in
                 let r := xw * (fx - fv) in
                 let q := xv * (fx - fw) in
                 let p := xv * q - xw * r in
                 let q := 2 * (q - r) in
                 let p := if Rltb 0 q then - p else p in
                 let q := Rabs q in
                 let etemp := e in
                 bind (attr UnboundLocalError d) (fun e' =>
                 if Rleb (Rabs (1/2 * q * etemp)) (Rabs p) || Rleb p (q * (a - x)) || Rleb (q * (b - x)) p
                 then let e' := if Rleb (1/2 * (a + b)) x then a - x else b - x in ret (CGOLD * e', e')
                 else
                   let d' := p / q in
                   let u := x + d' in
                   if Rltb (u - a) (2 * t) || Rltb (b - u) (2 * t)
                   then ret (if Rltb (1/2 * (a + b) - x) 0 then - t else t, e')
                   else ret (d', e'))
               else let e' := if Rleb (1/2 * (a + b)) x then a - x else b - x in ret (CGOLD * e', e')) tr
    = (tr, Ok (d', e')) ->
  u = (if Rleb t (Rabs d') then x + d' else if Rltb d' 0 then x - t else x + t) ->
  fx < f u -> f u <= fw \/ w = x ->
  (if Rltb u x then (u, b) else (a, u)) = (a', b') ->
  brent_loop f tol (S left) a b v w x fv fw fx e d tr
  = brent_loop f tol left a' b' w u x fw (f u) fx e' (Some d') (tr ++ [u]).
Proof.
  intros f tol left a b v w x fv fw fx e d tr t d' e' u a' b' Ht H1 H2 Hu H3 H4 H5.
  cbn [brent_loop]. cbv zeta. cbv zeta in H2. rewrite <- Ht.
  replace (Rleb (Rabs (x - 1/2 * (a + b))) (2 * t - 1/2 * (b - a))) with false by (symmetry; no; lra).
  unfold bind at 1. rewrite H2. rewrite <- Hu. unfold bind at 1, call.
  replace (Rleb (f u) fx) with false by (symmetry; no; lra). rewrite H5.
  replace (Rleb (f u) fw || Reqb w x) with true; [reflexivity|].
  symmetry. apply orb_true_iff. destruct H4 as [H4|H4]; [left|right]; yes; exact H4.
Qed.

Lemma finish : forall f tol left a b v w x fv fw fx e d tr,
  Rabs (x - 1/2 * (a + b)) <= 2 * (tol * Rabs x + EPS0) - 1/2 * (b - a) ->
  brent_loop f tol (S left) a b v w x fv fw fx e d tr = (tr, Ok (x, fx)).
Proof.
  intros f tol left a b v w x fv fw fx e d tr H. cbn [brent_loop]. cbv zeta.
  rewrite (proj2 (Rleb_spec _ _) H). reflexivity.
Qed.

Lemma parab_den : forall v w, 2 * ((1 - v) * (0 - sq1 w) - (1 - w) * (0 - sq1 v)) = 2 * ((1 - v) * (1 - w) * (w - v)).
Proof. intros. unfold sq1. ring. Qed.

Lemma brent_sq1 : forall f2, exists tr, brent sq1 (Brak 0 1 1 0 (2618034 / 1000000) f2) (1/10^4) 100 [] = (tr, Ok (1, 0))
  /\ length tr = 5%nat.
Proof.
  intros f2. unfold brent. cbn [b_x1 b_x2 b_xm]. unfold bind, call. cbn [app].
  set (t := 1/10^4 * Rabs 1 + EPS0).
  assert (Ht : t = 1/10^4 + 1/10^10) by (unfold t, EPS0; rewrite Rabs_R1; ring).
  replace (sq1 1) with 0 by (unfold sq1; ring).
  (* golden step to the right *)
  set (u1 := 1 + CGOLD * (2618034 / 1000000 - 1)).
  assert (U1 : u1 = 1 + CGOLD * 1618034 / 1000000) by (unfold u1; lra).
  assert (B1 : 1618 / 1000 < u1 < 1619 / 1000) by (rewrite U1; unfold CGOLD; lra).
  change 100%nat with (S 99).
  rewrite (round sq1 (1/10^4) 99 0 (2618034 / 1000000) 1 1 1 0 0 0 0 None [1] t (u1 - 1) (2618034 / 1000000 - 1) u1 0 u1 eq_refl).
  2: { rewrite Rabs_left; lra. }
  2: { replace (Rltb t (Rabs 0)) with false by (symmetry; no; rewrite Rabs_R0; lra). cbv zeta.
       replace (Rleb (1 / 2 * (0 + 2618034 / 1000000)) 1) with false by (symmetry; no; lra). unfold ret.
       replace (CGOLD * (2618034 / 1000000 - 1)) with (u1 - 1); [reflexivity|]. unfold u1. ring. }
  2: { rewrite Rabs_pos_eq by lra. replace (Rleb t (u1 - 1)) with true by (symmetry; yes; lra). ring. }
  2: { unfold sq1. nra. }
  2: { now right. }
  2: { replace (Rltb u1 1) with false by (symmetry; no; lra). reflexivity. }
  (* golden step to the left *)
  set (u2 := 1 + CGOLD * (0 - 1)).
  assert (B2 : 618 / 1000 < u2 < 619 / 1000) by (unfold u2, CGOLD; lra).
  change 99%nat with (S 98).
  rewrite (round sq1 (1/10^4) 98 0 u1 1 u1 1 0 (sq1 u1) 0 _ _ _ t (u2 - 1) (0 - 1) u2 u2 u1 eq_refl).
  2: { rewrite Rabs_pos_eq; lra. }
  2: { replace (Rltb t _) with true by (symmetry; yes; rewrite Rabs_pos_eq; lra). cbv zeta.
       cbn [attr]. unfold bind, ret.
       replace ((1 - 1) * (0 - sq1 u1)) with 0 by ring. replace ((1 - u1) * (0 - 0)) with 0 by ring.
       replace (1 - 1) with 0 by ring. replace (0 * 0 - (1 - u1) * 0) with 0 by ring.
       replace (2 * (0 - 0)) with 0 by ring. replace (Rltb 0 0) with false by (symmetry; no; lra).
       rewrite Rabs_R0. replace (1 / 2 * 0 * (2618034 / 1000000 - 1)) with 0 by ring. rewrite Rabs_R0.
       replace (Rleb 0 0) with true by (symmetry; yes; lra). cbn [orb].
       replace (Rleb (1 / 2 * (0 + u1)) 1) with true by (symmetry; yes; lra).
       replace (CGOLD * (0 - 1)) with (u2 - 1); [reflexivity|]. unfold u2. ring. }
  2: { rewrite Rabs_left by lra. replace (Rleb t (- (u2 - 1))) with true by (symmetry; yes; lra). ring. }
  2: { unfold sq1. nra. }
  2: { left. unfold sq1. nra. }
  2: { replace (Rltb u2 1) with true by (symmetry; yes; lra). reflexivity. }
  (* parabola: the trial is one tolerance to the right *)
  set (u3 := 1 + t).
  assert (B3 : 1 < u3 < 10002 / 10000) by (unfold u3; lra).
  change 98%nat with (S 97).
  rewrite (round sq1 (1/10^4) 97 u2 u1 u1 u2 1 (sq1 u1) (sq1 u2) 0 _ _ _ t 0 (u2 - 1) u3 u2 u3 eq_refl).
  2: { pose proof (Rabs_pos (1 - 1 / 2 * (u2 + u1))). lra. }
  2: { replace (Rltb t _) with true by (symmetry; yes; rewrite Rabs_left; lra). cbv zeta.
       cbn [attr]. unfold bind, ret. rewrite parab_den.
       replace ((1 - u1) * ((1 - u1) * (0 - sq1 u2)) - (1 - u2) * ((1 - u2) * (0 - sq1 u1))) with 0 by (unfold sq1; ring).
       rewrite Ropp_0. set (q := Rabs (2 * ((1 - u1) * (1 - u2) * (u2 - u1)))).
       assert (Q : 0 < q).
       { unfold q. replace ((1 - u1) * (1 - u2) * (u2 - u1)) with ((u1 - 1) * (1 - u2) * (u1 - u2)) by ring.
         assert (0 < (u1 - 1) * (1 - u2) * (u1 - u2)) by (repeat apply Rmult_lt_0_compat; lra). rewrite Rabs_pos_eq; lra. }
       replace (if Rltb 0 _ then 0 else 0) with 0 by (destruct (Rltb 0 _); reflexivity). rewrite Rabs_R0.
       replace (Rleb (Rabs (1 / 2 * q * (0 - 1))) 0) with false.
       2: { symmetry. no. rewrite Rabs_left; lra. }
       replace (Rleb 0 (q * (u2 - 1))) with false by (symmetry; no; nra).
       replace (Rleb (q * (u1 - 1)) 0) with false by (symmetry; no; nra). cbn [orb].
       replace (0 / q) with 0 by (unfold Rdiv; ring). rewrite Rplus_0_r.
       replace (Rltb (1 - u2) (2 * t)) with false by (symmetry; no; lra).
       replace (Rltb (u1 - 1) (2 * t)) with false by (symmetry; no; lra). reflexivity. }
  2: { rewrite Rabs_R0. replace (Rleb t 0) with false by (symmetry; no; lra).
       replace (Rltb 0 0) with false by (symmetry; no; lra). reflexivity. }
  2: { unfold sq1. nra. }
  2: { left. unfold sq1. nra. }
  2: { replace (Rltb u3 1) with false by (symmetry; no; lra). reflexivity. }
  (* parabola: one tolerance to the left *)
  set (u4 := 1 - t).
  assert (B4 : 9998 / 10000 < u4 < 1) by (unfold u4; lra).
  change 97%nat with (S 96).
  rewrite (round sq1 (1/10^4) 96 u2 u3 u2 u3 1 (sq1 u2) (sq1 u3) 0 _ _ _ t (- t) 0 u4 u4 u3 eq_refl).
  2: { rewrite Rabs_pos_eq; lra. }
  2: { replace (Rltb t _) with true by (symmetry; yes; rewrite Rabs_left; lra). cbv zeta.
       cbn [attr]. unfold bind, ret. rewrite parab_den.
       replace ((1 - u2) * ((1 - u2) * (0 - sq1 u3)) - (1 - u3) * ((1 - u3) * (0 - sq1 u2))) with 0 by (unfold sq1; ring).
       rewrite Ropp_0. set (q := Rabs (2 * ((1 - u2) * (1 - u3) * (u3 - u2)))).
       assert (Q : 0 < q).
       { unfold q. replace ((1 - u2) * (1 - u3) * (u3 - u2)) with (- ((1 - u2) * (u3 - 1) * (u3 - u2))) by ring.
         assert (0 < (1 - u2) * (u3 - 1) * (u3 - u2)) by (repeat apply Rmult_lt_0_compat; lra). rewrite Rabs_left; lra. }
       replace (if Rltb 0 _ then 0 else 0) with 0 by (destruct (Rltb 0 _); reflexivity). rewrite Rabs_R0.
       replace (Rleb (Rabs (1 / 2 * q * (u2 - 1))) 0) with false.
       2: { symmetry. no. rewrite Rabs_left; nra. }
       replace (Rleb 0 (q * (u2 - 1))) with false by (symmetry; no; nra).
       replace (Rleb (q * (u3 - 1)) 0) with false by (symmetry; no; nra). cbn [orb].
       replace (0 / q) with 0 by (unfold Rdiv; ring). rewrite Rplus_0_r.
       replace (Rltb (1 - u2) (2 * t)) with false by (symmetry; no; lra).
       replace (Rltb (u3 - 1) (2 * t)) with true by (symmetry; yes; unfold u3; lra). cbn [orb].
       replace (Rltb (1 / 2 * (u2 + u3) - 1) 0) with true by (symmetry; yes; lra). reflexivity. }
  2: { rewrite Rabs_Ropp, Rabs_pos_eq by lra. replace (Rleb t t) with true by (symmetry; yes; lra). reflexivity. }
  2: { unfold sq1. nra. }
  2: { left. unfold sq1, u3, u4. nra. }
  2: { replace (Rltb u4 1) with true by (symmetry; yes; lra). reflexivity. }
  change 96%nat with (S 95). rewrite finish.
  - eexists. split; [reflexivity|reflexivity].
  - fold t. unfold u3, u4. rewrite Rabs_pos_eq; lra.
Qed.

Lemma linmin_sq1 : linmin R Rplus Rmult sq1 5 0 1 = Ok (1, 1, 0).
Proof.
  unfold linmin.
  assert (E : exists tr, MinBracket (fun x => sq1 (0 + x * 1)) 5 0 1 [] = (tr, Ok (Brak 0 1 1 0 (2618034 / 1000000) (sq1 (2618034 / 1000000))))).
  { unfold MinBracket, bind, call.
    replace (sq1 (0 + 0 * 1)) with 1 by (unfold sq1; ring). replace (sq1 (0 + 1 * 1)) with 0 by (unfold sq1; ring).
    replace (Rltb 1 0) with false by (symmetry; no; lra). cbv beta iota zeta.
    replace (1 + GOLD * (1 - 0)) with (2618034 / 1000000) by (unfold GOLD; lra).
    replace (0 + 2618034 / 1000000 * 1) with (2618034 / 1000000) by ring.
    rewrite stop by (cbn; unfold sq1; lra). unfold ret. cbv beta iota.
    replace (Rltb (2618034 / 1000000) 0) with false by (symmetry; no; lra). eexists. reflexivity. }
  destruct E as (tr & E). unfold bind. rewrite E, brent_trace.
  assert (X : forall b, brent (fun x => sq1 (0 + x * 1)) b (1 / 10 ^ 4) 100 [] = brent sq1 b (1 / 10 ^ 4) 100 []).
  { intros b. f_equal. apply FunctionalExtensionality.functional_extensionality. intros x. f_equal. ring. }
  rewrite X. destruct (brent_sq1 (sq1 (2618034 / 1000000))) as (tr2 & -> & _). cbn [snd].
  rewrite Rmult_1_l, Rplus_0_l. reflexivity.
Qed.

Lemma powell_sq1 : forall k, powell R Rplus Rmult sq1 5 (S k) 1 0 [1] 2 200 false = Ok (1, 0, 1%nat).
Proof.
  intros k. unfold powell. cbn [powell_loop sweep nth_error]. rewrite linmin_sq1. cbv zeta.
  assert (S0 : sq1 0 = 1) by (unfold sq1; ring). rewrite S0.
  destruct (Rltb 0 (Rabs (1 - 0))); (replace (Rleb _ _) with true; [reflexivity|]; symmetry; yes;
    rewrite Rminus_0_r, Rabs_R0, Rabs_R1; lra).
Qed.

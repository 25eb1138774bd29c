(** Proofs about level crossings. *)

From Coq Require Import ZArith String List Bool Arith Lia Reals Lra Psatz.
From Verif Require Import Exn PieModel Instances MinModel MinSpec HpdModel HpdSpec RefLemmas RefCases HpdLemmas HpdLemmas2.
Import ListNotations.
Open Scope R_scope.

(** All crossings, cell by cell. *)
Fixpoint found (c : R) (xs ys : list R) : list R :=
  match xs, ys with
  | x0 :: ((x1 :: _) as xs'), y0 :: ((y1 :: _) as ys') =>
      if (Rltb y0 c && Rltb c y1) || (Rltb y1 c && Rltb c y0)
      then (x0 + (x1 - x0) * (c - y0) / (y1 - y0)) :: found c xs' ys'
      else found c xs' ys'
  | _, _ => []
  end.
Definition numbered (k : nat) (l : list R) : list (nat * R) := combine (seq (S k) (length l)) l.
Lemma numbered_cons : forall k v l, numbered k (v :: l) = (S k, v) :: numbered (S k) l.
Proof. reflexivity. Qed.

Lemma xv_loop_spec : forall c m xs ys w nx, let o := xv_loop c m xs ys w nx in
  (x_ok o = true /\ x_writes o = w ++ numbered nx (found c xs ys) /\ x_nx o = (nx + length (found c xs ys))%nat) \/
  (x_ok o = false /\ exists pre v post, found c xs ys = pre ++ v :: post /\ x_writes o = w ++ numbered nx pre /\
     x_nx o = S (nx + length pre) /\ (m < S (nx + length pre))%nat).
Proof.
  intros c m xs. induction xs as [|x0 xs IH]; intros ys w nx.
  { left. cbn. rewrite app_nil_r. split; [reflexivity|]. split; [reflexivity|lia]. }
  destruct xs as [|x1 xs'].
  { left. cbn. rewrite app_nil_r. split; [reflexivity|]. split; [reflexivity|lia]. }
  destruct ys as [|y0 ys].
  { left. cbn. rewrite app_nil_r. split; [reflexivity|]. split; [reflexivity|lia]. }
  destruct ys as [|y1 ys'].
  { left. cbn. rewrite app_nil_r. split; [reflexivity|]. split; [reflexivity|lia]. }
  set (v := x0 + (x1 - x0) * (c - y0) / (y1 - y0)).
  assert (Step : let o := xv_loop c m (x1 :: xs') (y1 :: ys') (w ++ [(S nx, v)]) (S nx) in
    (x_ok o = true /\ x_writes o = w ++ numbered nx (v :: found c (x1 :: xs') (y1 :: ys')) /\
     x_nx o = (nx + length (v :: found c (x1 :: xs') (y1 :: ys')))%nat) \/
    (x_ok o = false /\ exists pre v' post, v :: found c (x1 :: xs') (y1 :: ys') = pre ++ v' :: post /\
      x_writes o = w ++ numbered nx pre /\ x_nx o = S (nx + length pre) /\ (m < S (nx + length pre))%nat)).
  { cbv zeta. destruct (IH (y1 :: ys') (w ++ [(S nx, v)]) (S nx)) as [[O [W N]]|[O [pre [v' [post [E [W [N L]]]]]]]].
    - left. split; [exact O|]. split.
      + rewrite W, numbered_cons, <- app_assoc. reflexivity.
      + rewrite N. cbn [length]. lia.
    - right. split; [exact O|]. exists (v :: pre), v', post. rewrite E. split; [reflexivity|].
      split; [rewrite W, numbered_cons, <- app_assoc; reflexivity|]. cbn [length]. split; [rewrite N; lia|lia]. }
  cbv zeta in *.
  change (found c (x0 :: x1 :: xs') (y0 :: y1 :: ys')) with
    (if (Rltb y0 c && Rltb c y1) || (Rltb y1 c && Rltb c y0) then v :: found c (x1 :: xs') (y1 :: ys')
     else found c (x1 :: xs') (y1 :: ys')).
  change (xv_loop c m (x0 :: x1 :: xs') (y0 :: y1 :: ys') w nx) with
    (if Rltb y0 c && Rltb c y1 then xv_loop c m (x1 :: xs') (y1 :: ys') (w ++ [(S nx, v)]) (S nx)
     else if Rltb y1 c && Rltb c y0 then
        if Nat.ltb m (S nx) then XOut w (S nx) false
        else xv_loop c m (x1 :: xs') (y1 :: ys') (w ++ [(S nx, v)]) (S nx)
     else xv_loop c m (x1 :: xs') (y1 :: ys') w nx).
  destruct (Rltb y0 c && Rltb c y1); cbn [orb]; [exact Step|].
  destruct (Rltb y1 c && Rltb c y0).
  - destruct (Nat.ltb_spec m (S nx)) as [L|L]; [|exact Step].
    right. split; [reflexivity|]. exists [], v, (found c (x1 :: xs') (y1 :: ys')).
    split; [reflexivity|]. split; [cbn; rewrite app_nil_r; reflexivity|]. cbn [length x_nx]. split; lia.
  - apply IH.
Qed.

Lemma filter_numbered : forall m n l k, (k <= m)%nat -> (n >= k + length l \/ n >= m)%nat ->
  map snd (filter (fun w => Nat.leb (fst w) m && Nat.leb (fst w) n) (numbered k l)) = firstn (m - k) l.
Proof.
  intros m n l. induction l as [|v l IH]; intros k Hk Hn; [now rewrite firstn_nil|].
  rewrite numbered_cons. cbn [filter fst].
  destruct (Nat.leb_spec (S k) m) as [L|L].
  - destruct (Nat.leb_spec (S k) n) as [L'|L']; [|cbn [length] in Hn; lia].
    cbn [andb map snd]. rewrite IH by (cbn [length] in Hn; lia).
    replace (m - k)%nat with (S (m - S k)) by lia. reflexivity.
  - cbn [andb]. replace (m - k)%nat with 0%nat by lia. cbn [firstn].
    assert (K : forall l k, (m <= k)%nat -> filter (fun w => Nat.leb (fst w) m && Nat.leb (fst w) n) (numbered k l) = []).
    { clear. intros l. induction l as [|v l IH]; intros k H; [reflexivity|]. rewrite numbered_cons. cbn [filter fst].
      destruct (Nat.leb_spec (S k) m); [lia|]. cbn [andb]. apply IH. lia. }
    rewrite K by lia. reflexivity.
Qed.

Lemma in_numbered : forall l k i v, In (i, v) (numbered k l) -> (k < i <= k + length l)%nat /\ nth_error l (i - k - 1) = Some v.
Proof.
  intros l. induction l as [|a l IH]; intros k i v H; [destruct H|]. rewrite numbered_cons in H. destruct H as [E|H].
  - injection E as <- <-. cbn [length]. split; [lia|]. replace (S k - k - 1)%nat with 0%nat by lia. reflexivity.
  - apply IH in H. destruct H as [H1 H2]. cbn [length]. split; [lia|].
    replace (i - k - 1)%nat with (S (i - S k - 1)) by lia. exact H2.
Qed.

Lemma firstn_app_le : forall m (pre l : list R), (m <= length pre)%nat -> firstn m (pre ++ l) = firstn m pre.
Proof. intros m pre l H. rewrite firstn_app. replace (m - length pre)%nat with 0%nat by lia. apply app_nil_r. Qed.

Lemma xvalues_out : forall xs ys c m, let o := xvalues xs ys c m in let cs := found c xs ys in
  xvals_of m o = firstn m cs /\ (x_ok o = true -> x_nx o = length cs) /\ ((length cs <= m)%nat -> x_ok o = true) /\
  (forall i v, In (i, v) (x_writes o) -> (1 <= i <= length cs)%nat /\ nth_error cs (i - 1) = Some v).
Proof.
  intros xs ys c m. cbv zeta. unfold xvals_of, xvalues.
  destruct (xv_loop_spec c m xs ys [] 0) as [[O [W N]]|[O [pre [v [post [E [W [N L]]]]]]]]; cbv zeta in *; rewrite W, O, N; cbn [app].
  - cbn [Nat.add]. split; [|split; [reflexivity|split; [reflexivity|]]].
    + rewrite (filter_numbered m (length (found c xs ys)) (found c xs ys) 0); [|lia|left; lia]. rewrite Nat.sub_0_r. reflexivity.
    + intros i v Hi. apply in_numbered in Hi. destruct Hi as [H1 H2]. split; [lia|]. rewrite Nat.sub_0_r in H2. exact H2.
  - cbn [Nat.add] in *. split; [|split; [discriminate|split]].
    + rewrite (filter_numbered m (S (length pre)) pre 0); [|lia|right; lia].
      rewrite Nat.sub_0_r, E, firstn_app_le by lia. reflexivity.
    + intros H. exfalso. rewrite E, app_length in H. cbn [length] in H. lia.
    + intros i v' Hi. apply in_numbered in Hi. destruct Hi as [H1 H2]. rewrite E, app_length. cbn [length]. split; [lia|].
      rewrite Nat.sub_0_r in H2. rewrite nth_error_app1 by lia. exact H2.
Qed.

(** ** What is found are the crossings *)
Lemma straddles_S : forall y ys c i, straddles (y :: ys) c (S i) <-> straddles ys c i.
Proof. intros. unfold straddles. cbn [length nth]. split; intros [H1 H2]; (split; [lia|exact H2]). Qed.
Lemma crosses_S : forall x xs y ys c i v, crosses (x :: xs) (y :: ys) c (S i) v <-> crosses xs ys c i v.
Proof. intros. unfold crosses. rewrite straddles_S. cbn [nth]. reflexivity. Qed.

Lemma crosses_0 : forall x0 x1 xs y0 y1 ys c v, x0 < x1 ->
  (crosses (x0 :: x1 :: xs) (y0 :: y1 :: ys) c 0 v <->
   ((y0 < c < y1 \/ y1 < c < y0) /\ v = x0 + (x1 - x0) * (c - y0) / (y1 - y0))).
Proof.
  intros x0 x1 xs y0 y1 ys c v Hx. unfold crosses, straddles. cbn [nth length]. split.
  - intros [[_ Hs] [Hv E]]. split; [exact Hs|]. rewrite <- E. field. split; lra.
  - intros [Hs ->]. split; [split; [lia|exact Hs]|].
    assert (Ht : exists t, 0 < t < 1 /\ t * (y1 - y0) = c - y0).
    { exists ((c - y0) / (y1 - y0)). split; [|field; lra]. destruct Hs as [Hs|Hs].
      - split; [apply Rdiv_lt_0_compat; lra|]. apply Rmult_lt_reg_r with (y1 - y0); [lra|]. unfold Rdiv. rewrite Rmult_assoc, Rinv_l by lra. lra.
      - replace ((c - y0) / (y1 - y0)) with ((y0 - c) / (y0 - y1)) by (field; lra).
        split; [apply Rdiv_lt_0_compat; lra|]. apply Rmult_lt_reg_r with (y0 - y1); [lra|]. unfold Rdiv. rewrite Rmult_assoc, Rinv_l by lra. lra. }
    destruct Ht as [t [Ht Et]].
    replace ((x1 - x0) * (c - y0) / (y1 - y0)) with ((x1 - x0) * t) by (rewrite <- Et; field; lra).
    split; [nra|]. replace (x0 + (x1 - x0) * t - x0) with ((x1 - x0) * t) by ring.
    replace ((x1 - x0) * t / (x1 - x0)) with t by (field; lra). lra.
Qed.

Lemma test_straddle : forall y0 y1 c, (Rltb y0 c && Rltb c y1) || (Rltb y1 c && Rltb c y0) = true <-> (y0 < c < y1 \/ y1 < c < y0).
Proof. intros. rewrite orb_true_iff, !andb_true_iff, !Rltb_spec. reflexivity. Qed.

Lemma crosses_bounds : forall xs ys c i v, crosses xs ys c i v -> nth i xs 0 < v < nth (S i) xs 0.
Proof. intros xs ys c i v [_ [H _]]. exact H. Qed.

Lemma sorted_tail : forall x xs, sorted (x :: xs) -> sorted xs.
Proof. intros x xs H i Hi. apply (H (S i)). cbn [length]. lia. Qed.
Lemma sorted_first : forall xs x i, sorted (x :: xs) -> (i < length (x :: xs))%nat -> x <= nth i (x :: xs) 0.
Proof.
  intros xs x i H. induction i as [|i IH]; intros Hi; [cbn; lra|].
  specialize (IH ltac:(lia)). specialize (H i Hi). lra.
Qed.

Lemma found_spec : forall c xs ys, sorted xs -> length xs = length ys -> lists_crossings xs ys c (found c xs ys).
Proof.
  intros c xs. induction xs as [|x0 xs IH]; intros ys HS HL.
  { split; [exact I|]. intros v. split; [intros []|]. intros [i [[H _] _]]. rewrite <- HL in H. cbn in H. lia. }
  destruct xs as [|x1 xs'].
  { split; [exact I|]. intros v. split; [intros []|]. intros [i [[H _] _]]. rewrite <- HL in H. cbn in H. lia. }
  destruct ys as [|y0 ys]; [discriminate|]. destruct ys as [|y1 ys']; [discriminate|].
  assert (HS' : sorted (x1 :: xs')) by (exact (sorted_tail _ _ HS)).
  assert (Hx : x0 < x1) by (exact (HS 0%nat ltac:(cbn [length]; lia))).
  destruct (IH (y1 :: ys') HS' ltac:(cbn [length] in *; lia)) as [Hinc Hin].
  set (v0 := x0 + (x1 - x0) * (c - y0) / (y1 - y0)).
  assert (Split : forall v, (exists i, crosses (x0 :: x1 :: xs') (y0 :: y1 :: ys') c i v) <->
     (((y0 < c < y1 \/ y1 < c < y0) /\ v = v0) \/ exists i, crosses (x1 :: xs') (y1 :: ys') c i v)).
  { intros v. split.
    - intros [[|i] H]; [left; apply crosses_0 in H; assumption|right]. exists i. rewrite crosses_S in H. exact H.
    - intros [H|[i H]]; [exists 0%nat; apply crosses_0; assumption|]. exists (S i). rewrite crosses_S. exact H. }
  change (found c (x0 :: x1 :: xs') (y0 :: y1 :: ys')) with
    (if (Rltb y0 c && Rltb c y1) || (Rltb y1 c && Rltb c y0) then v0 :: found c (x1 :: xs') (y1 :: ys')
     else found c (x1 :: xs') (y1 :: ys')).
  destruct ((Rltb y0 c && Rltb c y1) || (Rltb y1 c && Rltb c y0)) eqn:T.
  - apply test_straddle in T. split.
    + destruct (found c (x1 :: xs') (y1 :: ys')) as [|v1 l] eqn:EF; [exact I|]. split; [|exact Hinc].
      destruct (proj1 (Hin v1) (or_introl eq_refl)) as [i Hi].
      assert (v0 < x1).
      { assert (C : crosses (x0 :: x1 :: xs') (y0 :: y1 :: ys') c 0 v0) by (apply crosses_0; [exact Hx|split; [exact T|reflexivity]]).
        apply crosses_bounds in C. cbn [nth] in C. lra. }
      assert (x1 < v1).
      { pose proof (crosses_bounds _ _ _ _ _ Hi) as B.
        assert (i < length (x1 :: xs'))%nat. { destruct Hi as [[Hi _] _]. cbn [length] in *. lia. }
        pose proof (sorted_first xs' x1 i HS' H0). lra. }
      lra.
    + intros v. rewrite Split. cbn [In]. rewrite Hin. split.
      * intros [<-|H]; [left; split; [exact T|reflexivity]|right; exact H].
      * intros [[_ ->]|H]; [left; reflexivity|right; exact H].
  - split; [exact Hinc|]. intros v. rewrite Split, Hin. split; [intros H; right; exact H|].
    intros [[H _]|H]; [|exact H]. exfalso. apply test_straddle in H. rewrite H in T. discriminate.
Qed.

Lemma increasing_lt : forall l a i, increasing (a :: l) -> In i l -> a < i.
Proof.
  intros l. induction l as [|b l IH]; intros a i H Hi; [destruct Hi|]. destruct H as [H1 H2]. destruct Hi as [<-|Hi]; [exact H1|].
  specialize (IH b i H2 Hi). lra.
Qed.
Lemma increasing_unique : forall l l', increasing l -> increasing l' -> (forall v, In v l <-> In v l') -> l = l'.
Proof.
  intros l. induction l as [|a l IH]; intros l' H H' E.
  - destruct l' as [|b l']; [reflexivity|]. exfalso. apply (E b). left. reflexivity.
  - destruct l' as [|b l']; [exfalso; apply (E a); left; reflexivity|].
    assert (a = b).
    { destruct (proj1 (E a) (or_introl eq_refl)) as [->|Ha]; [reflexivity|].
      destruct (proj2 (E b) (or_introl eq_refl)) as [->|Hb]; [reflexivity|].
      pose proof (increasing_lt _ _ _ H Hb). pose proof (increasing_lt _ _ _ H' Ha). lra. }
    subst b. f_equal. apply IH.
    + destruct l; [exact I|apply H].
    + destruct l'; [exact I|apply H'].
    + intros v. split; intros Hv.
      * destruct (proj1 (E v) (or_intror Hv)) as [->|K]; [|exact K]. pose proof (increasing_lt _ _ _ H Hv). lra.
      * destruct (proj2 (E v) (or_intror Hv)) as [->|K]; [|exact K]. pose proof (increasing_lt _ _ _ H' Hv). lra.
Qed.

Lemma xvalues_spec : forall xs ys c m cs, sorted xs -> length xs = length ys -> lists_crossings xs ys c cs ->
  let o := xvalues xs ys c m in
  xvals_of m o = firstn m cs /\ (x_ok o = true -> x_nx o = length cs) /\ ((length cs <= m)%nat -> x_ok o = true) /\
  (forall i v, In (i, v) (x_writes o) -> (1 <= i <= length cs)%nat /\ nth_error cs (i - 1) = Some v).
Proof.
  intros xs ys c m cs HS HL [H1 H2]. destruct (found_spec c xs ys HS HL) as [F1 F2].
  assert (E : cs = found c xs ys).
  { apply increasing_unique; [exact H1|exact F1|]. intros v. rewrite H2, F2. reflexivity. }
  rewrite E. apply xvalues_out.
Qed.

(** ** Writes outside the buffer *)
Lemma xv_step : forall c m x0 x1 xs y0 y1 ys w nx, let v := x0 + (x1 - x0) * (c - y0) / (y1 - y0) in
  xv_loop c m (x0 :: x1 :: xs) (y0 :: y1 :: ys) w nx =
    (if Rltb y0 c && Rltb c y1 then xv_loop c m (x1 :: xs) (y1 :: ys) (w ++ [(S nx, v)]) (S nx)
     else if Rltb y1 c && Rltb c y0 then
        if Nat.ltb m (S nx) then XOut w (S nx) false
        else xv_loop c m (x1 :: xs) (y1 :: ys) (w ++ [(S nx, v)]) (S nx)
     else xv_loop c m (x1 :: xs) (y1 :: ys) w nx).
Proof. reflexivity. Qed.
Lemma overrun : forall c m xs ys w nx, (forall y, In y ys -> y <> c) ->
  ((nx <= m)%nat \/ (nx = S m /\ c < hd 0 ys)) -> (forall i v, In (i, v) w -> (i <= S m)%nat) ->
  forall i v, In (i, v) (x_writes (xv_loop c m xs ys w nx)) -> (i <= S m)%nat.
Proof.
  intros c m xs. induction xs as [|x0 xs IH]; intros ys w nx HC HN HW; [exact HW|].
  destruct xs as [|x1 xs']; [exact HW|]. destruct ys as [|y0 ys]; [exact HW|]. destruct ys as [|y1 ys']; [exact HW|].
  assert (HC' : forall y, In y (y1 :: ys') -> y <> c) by (intros y Hy; apply HC; right; exact Hy).
  pose proof (HC y1 (or_intror (or_introl eq_refl))) as N1. pose proof (HC y0 (or_introl eq_refl)) as N0.
  cbn [hd] in HN. rewrite xv_step. cbv zeta.
  set (v0 := x0 + (x1 - x0) * (c - y0) / (y1 - y0)).
  assert (HW' : (S nx <= S m)%nat -> forall i v, In (i, v) (w ++ [(S nx, v0)]) -> (i <= S m)%nat).
  { intros HB i v Hi. apply in_app_iff in Hi. destruct Hi as [Hi|[E|[]]]; [exact (HW i v Hi)|]. injection E as <- _. exact HB. }
  destruct (Rltb y0 c && Rltb c y1) eqn:T1.
  - apply andb_true_iff in T1. rewrite !Rltb_spec in T1. destruct HN as [HN|[_ HN]]; [|lra].
    apply IH; [exact HC'| |apply HW'; lia]. cbn [hd]. destruct (le_lt_dec (S nx) m); [left; assumption|right; split; [lia|lra]].
  - destruct (Rltb y1 c && Rltb c y0) eqn:T2.
    + destruct (Nat.ltb_spec m (S nx)) as [L|L]; [exact HW|].
      apply IH; [exact HC'|left; exact L|apply HW'; lia].
    + apply IH; [exact HC'| |exact HW]. destruct HN as [HN|[HN HN']]; [left; exact HN|]. right. split; [exact HN|]. cbn [hd].
      apply andb_false_iff in T2. rewrite !Rltb_false in T2. lra.
Qed.

Lemma xvalues_overrun : forall xs ys c m, (forall y, In y ys -> y <> c) ->
  forall i v, In (i, v) (x_writes (xvalues xs ys c m)) -> (i <= S m)%nat.
Proof. intros xs ys c m H. apply overrun; [exact H|left; lia|intros i v []]. Qed.

Lemma found_step : forall c x0 x1 xs y0 y1 ys, found c (x0 :: x1 :: xs) (y0 :: y1 :: ys) =
  if (Rltb y0 c && Rltb c y1) || (Rltb y1 c && Rltb c y0)
  then (x0 + (x1 - x0) * (c - y0) / (y1 - y0)) :: found c (x1 :: xs) (y1 :: ys)
  else found c (x1 :: xs) (y1 :: ys).
Proof. reflexivity. Qed.
(** Up from 0 to 2 and back down by way of 1, k times. *)
Fixpoint teeth (k : nat) : list R := match k with O => [0] | S k' => 0 :: 2 :: 1 :: teeth k' end.
Definition upto (k n : nat) : list R := map INR (seq k n).
Lemma teeth_head : forall k, exists l, teeth k = 0 :: l.
Proof. intros [|k]; eexists; reflexivity. Qed.
Lemma teeth_length : forall k, length (teeth k) = (3 * k + 1)%nat.
Proof. intros k. induction k; [reflexivity|]. cbn [teeth length]. lia. Qed.
Lemma teeth_found : forall k a, length (found 1 (upto a (3 * k + 1)) (teeth k)) = k.
Proof.
  intros k. induction k as [|k IH]; intros a; [reflexivity|].
  replace (3 * S k + 1)%nat with (S (S (S (3 * k + 1)))) by lia. unfold upto. cbn [seq map teeth].
  destruct (teeth_head k) as [l E].
  specialize (IH (S (S (S a)))). unfold upto in IH. 
  replace (3 * k + 1)%nat with (S (3 * k)) in * by lia. cbn [seq map] in *. rewrite E in *. rewrite !found_step.
  rdec. cbn [andb orb length]. rewrite IH. reflexivity.
Qed.
Lemma teeth_ok : forall m k a w nx, x_ok (xv_loop 1 m (upto a (3 * k + 1)) (teeth k) w nx) = true.
Proof.
  intros m k. induction k as [|k IH]; intros a w nx; [reflexivity|].
  replace (3 * S k + 1)%nat with (S (S (S (3 * k + 1)))) by lia. unfold upto. cbn [seq map teeth].
  destruct (teeth_head k) as [l E].
  specialize (IH (S (S (S a)))). unfold upto in IH. 
  replace (3 * k + 1)%nat with (S (3 * k)) in * by lia. cbn [seq map] in *. rewrite E in *. rewrite !xv_step. cbv zeta.
  rdec. cbn [andb]. apply IH.
Qed.
Lemma upto_sorted : forall a n, sorted (upto a n).
Proof.
  intros a n i Hi. unfold upto in *. rewrite map_length, seq_length in Hi.
  assert (E : forall j, (j < n)%nat -> nth j (map INR (seq a n)) 0 = INR (a + j)).
  { intros j Hj. rewrite (nth_indep _ 0 (INR 0)) by (rewrite map_length, seq_length; exact Hj). rewrite map_nth, seq_nth by exact Hj. reflexivity. }
  rewrite !E by lia. apply lt_INR. lia.
Qed.

(** Proofs about zero and minimum bracketing and the line minimiser. *)

From Coq Require Import ZArith List Bool Arith Reals Lra Lia Psatz.
From Verif Require Import Exn PieModel Instances MinModel MinSpec.
Import ListNotations.
Open Scope R_scope.

Ltac cases :=
  repeat match goal with
  | |- context [Rltb ?a ?b] =>
      destruct (Rltb a b) eqn:?; [rewrite Rltb_spec in *|rewrite Rltb_false in *]
  | |- context [Rleb ?a ?b] =>
      destruct (Rleb a b) eqn:?; [rewrite Rleb_spec in *|rewrite Rleb_false in *]
  end.
Ltac decided H :=
  repeat match type of H with
  | context [Rltb ?a ?b] =>
      let E := fresh "D" in destruct (Rltb a b) eqn:E; [rewrite Rltb_spec in E|rewrite Rltb_false in E]
  | context [Rleb ?a ?b] =>
      let E := fresh "D" in destruct (Rleb a b) eqn:E; [rewrite Rleb_spec in E|rewrite Rleb_false in E]
  | context [Reqb ?a ?b] =>
      let E := fresh "D" in destruct (Reqb a b) eqn:E; [rewrite Reqb_spec in E|rewrite Reqb_false in E]
  end.

(** ** zbracket *)
Lemma inside_trans : forall a b c d x, inside a b c -> inside a b d -> inside c d x -> inside a b x.
Proof.
  intros a b c d x. unfold inside, Rmin, Rmax.
  destruct (Rle_dec a b), (Rle_dec c d); lra.
Qed.
Lemma inside_l : forall a b, inside a b a.
Proof. intros. unfold inside, Rmin, Rmax. destruct (Rle_dec a b); lra. Qed.
Lemma inside_r : forall a b, inside a b b.
Proof. intros. unfold inside, Rmin, Rmax. destruct (Rle_dec a b); lra. Qed.
Lemma grow1 : forall e a b, 0 <= e -> inside (a + e * (a - b)) b a.
Proof.
  intros e a b He. unfold inside, Rmin, Rmax.
  destruct (Rle_dec (a + e * (a - b)) b); split; nra.
Qed.
Lemma grow2 : forall e a b, 0 <= e -> inside a (b + e * (b - a)) b.
Proof.
  intros e a b He. unfold inside, Rmin, Rmax.
  destruct (Rle_dec a (b + e * (b - a))); split; nra.
Qed.

Lemma zloop_spec : forall f expand left x1 x2 tr, 0 <= expand ->
  let '(tr', r) := zloop f expand left x1 x2 (f x1) (f x2) tr in
  (exists l, tr' = tr ++ l /\ (length l <= left)%nat) /\
  match r with
  | Ok (a, b) => f a * f b < 0 /\ inside a b x1 /\ inside a b x2
  | Err e => e = RuntimeError
  end.
Proof.
  intros f expand left. induction left as [|k IH]; intros x1 x2 tr He.
  - cbn. split; [exists []; rewrite app_nil_r; cbn; auto|reflexivity].
  - cbn [zloop]. destruct (Rltb (f x1 * f x2) 0) eqn:E.
    + cbn. apply Rltb_spec in E. split; [exists []; rewrite app_nil_r; cbn; split; [reflexivity|lia]|].
      split; [exact E|]. split; [apply inside_l|apply inside_r].
    + destruct (Rltb (Rabs (f x1)) (Rabs (f x2))).
      * unfold bind, call. specialize (IH (x1 + expand * (x1 - x2)) x2 (tr ++ [x1 + expand * (x1 - x2)]) He).
        destruct (zloop f expand k _ _ _ _ _) as [tr' r]. destruct IH as ((l & -> & Hl) & IH).
        split; [eexists; rewrite <- app_assoc; split; [reflexivity|cbn; lia]|].
        destruct r as [[a b]|e]; [|exact IH]. destruct IH as (A & B & C).
        split; [exact A|]. split; [|exact C]. eapply inside_trans; [exact B|exact C|]. now apply grow1.
      * unfold bind, call. specialize (IH x1 (x2 + expand * (x2 - x1)) (tr ++ [x2 + expand * (x2 - x1)]) He).
        destruct (zloop f expand k _ _ _ _ _) as [tr' r]. destruct IH as ((l & -> & Hl) & IH).
        split; [eexists; rewrite <- app_assoc; split; [reflexivity|cbn; lia]|].
        destruct r as [[a b]|e]; [|exact IH]. destruct IH as (A & B & C).
        split; [exact A|]. split; [exact B|]. eapply inside_trans; [exact B|exact C|]. now apply grow2.
Qed.

Lemma zbracket_spec : forall f x1 x2 vals maxtries expand, 0 <= expand -> x1 <> x2 ->
  (vals = None \/ vals = Some (f x1, f x2)) ->
  let '(tr, r) := zbracket f x1 x2 vals maxtries expand [] in
  (length tr <= maxtries + 2)%nat /\
  match r with
  | Ok (a, b) => f a * f b < 0 /\ inside a b x1 /\ inside a b x2
  | Err e => e = RuntimeError
  end.
Proof.
  intros f x1 x2 vals maxtries expand He Hx Hv. unfold zbracket.
  rewrite (proj2 (Reqb_false x1 x2) Hx). destruct Hv as [->| ->].
  - unfold bind, call. pose proof (zloop_spec f expand maxtries x1 x2 ([] ++ [x1] ++ [x2]) He) as H.
    cbn [app] in *. destruct (zloop _ _ _ _ _ _ _ _) as [tr r]. destruct H as ((l & -> & Hl) & H).
    split; [cbn; lia|exact H].
  - pose proof (zloop_spec f expand maxtries x1 x2 [] He) as H.
    destruct (zloop _ _ _ _ _ _ _ _) as [tr r]. destruct H as ((l & -> & Hl) & H).
    split; [cbn; lia|exact H].
Qed.

(** Which interval exactly. *)
Lemma widened_shift : forall f e k a b,
  widened f e (S k) (a, b) = widened f e k (widened f e 1 (a, b)).
Proof.
  intros f e k a b. induction k as [|k IH]; [reflexivity|].
  change (widened f e (S (S k)) (a, b)) with
    (let '(c, d) := widened f e (S k) (a, b) in
     if Rlt_dec (Rabs (f c)) (Rabs (f d)) then (c + e * (c - d), d) else (c, d + e * (d - c))).
  rewrite IH. reflexivity.
Qed.
Lemma zloop_exact : forall f e left a b tr,
  match snd (zloop f e left a b (f a) (f b) tr) with
  | Ok r => exists k, (k < left)%nat /\ r = widened f e k (a, b) /\ opposite f r
              /\ forall j, (j < k)%nat -> ~ opposite f (widened f e j (a, b))
  | Err _ => forall j, (j < left)%nat -> ~ opposite f (widened f e j (a, b))
  end.
Proof.
  intros f e left. induction left as [|left IH]; intros a b tr; [intros j Hj; lia|].
  cbn [zloop]. destruct (Rltb (f a * f b) 0) eqn:E.
  - cbn. apply Rltb_spec in E. exists 0%nat. split; [lia|]. split; [reflexivity|]. split; [exact E|]. intros j Hj. lia.
  - rewrite Rltb_false in E.
    assert (Fin : forall a' b' r, widened f e 1 (a, b) = (a', b') ->
      match r with
      | Ok r => exists k, (k < left)%nat /\ r = widened f e k (a', b') /\ opposite f r
                  /\ forall j, (j < k)%nat -> ~ opposite f (widened f e j (a', b'))
      | Err _ => forall j, (j < left)%nat -> ~ opposite f (widened f e j (a', b'))
      end ->
      match r with
      | Ok r => exists k, (k < S left)%nat /\ r = widened f e k (a, b) /\ opposite f r
                  /\ forall j, (j < k)%nat -> ~ opposite f (widened f e j (a, b))
      | Err _ => forall j, (j < S left)%nat -> ~ opposite f (widened f e j (a, b))
      end).
    { intros a' b' r Ew H. destruct r as [r|er].
      + destruct H as (k & Hk & -> & Ho & Hj). exists (S k). rewrite widened_shift, Ew.
        split; [lia|]. split; [reflexivity|]. split; [exact Ho|].
        intros j Hlt. destruct j as [|j]; [exact E|]. rewrite widened_shift, Ew. apply Hj. lia.
      + intros j Hlt. destruct j as [|j]; [exact E|]. rewrite widened_shift, Ew. apply H. lia. }
    destruct (Rltb (Rabs (f a)) (Rabs (f b))) eqn:D; unfold bind, call.
    + eapply Fin; [|apply IH]. cbn. rewrite Rltb_spec in D. destruct (Rlt_dec _ _); [reflexivity|contradiction].
    + eapply Fin; [|apply IH]. cbn. rewrite Rltb_false in D. destruct (Rlt_dec _ _); [contradiction|reflexivity].
Qed.
Lemma zbracket_exact : forall f x1 x2 vals maxtries expand, x1 <> x2 ->
  (vals = None \/ vals = Some (f x1, f x2)) ->
  match snd (zbracket f x1 x2 vals maxtries expand []) with
  | Ok r => exists k, (k < maxtries)%nat /\ r = widened f expand k (x1, x2) /\ opposite f r
              /\ forall j, (j < k)%nat -> ~ opposite f (widened f expand j (x1, x2))
  | Err e => e = RuntimeError /\ forall j, (j < maxtries)%nat -> ~ opposite f (widened f expand j (x1, x2))
  end.
Proof.
  intros f x1 x2 vals maxtries expand Hx Hv. unfold zbracket.
  rewrite (proj2 (Reqb_false x1 x2) Hx).
  assert (E : exists tr, snd ((match vals with
       | Some (f1, f2) => zloop f expand maxtries x1 x2 f1 f2
       | None => bind (call f x1) (fun f1 => bind (call f x2) (fun f2 => zloop f expand maxtries x1 x2 f1 f2))
       end) []) = snd (zloop f expand maxtries x1 x2 (f x1) (f x2) tr)).
  { destruct Hv as [->| ->]; eexists; reflexivity. }
  destruct E as (tr & ->). pose proof (zloop_exact f expand maxtries x1 x2 tr) as H.
  destruct (zloop f expand maxtries x1 x2 (f x1) (f x2) tr) as [tr' [r|e]] eqn:El; cbn [snd] in *; [exact H|].
  split; [|exact H]. clear H Hv Hx. revert x1 x2 tr El. generalize maxtries as left.
  induction left as [|left IH]; intros a b tr El; [now injection El|].
  cbn [zloop] in El. destruct (Rltb _ 0); [discriminate|]. cbv zeta in El. unfold bind, call in El.
  destruct (Rltb _ _); eapply IH; exact El.
Qed.

(** ** MinBracket *)
Definition mid (b : brak) : Prop := 0 < (b_xm b - b_x1 b) * (b_x2 b - b_xm b).

Lemma gold_pos : 0 < GOLD. Proof. unfold GOLD. lra. Qed.

(** A point reached by going on from x2 in the direction away from xm. *)
Lemma further : forall xm x2 u k, 0 < k -> xm <> x2 -> u = x2 - k * (xm - x2) -> 0 < (x2 - xm) * (u - x2).
Proof.
  intros xm x2 u k Hk Hx ->. replace ((x2 - xm) * (x2 - k * (xm - x2) - x2)) with (k * Rsqr (x2 - xm)) by (unfold Rsqr; ring).
  apply Rmult_lt_0_compat; [exact Hk|]. apply Rlt_0_sqr. lra.
Qed.

Lemma betw : forall x1 xm x2 u, 0 < (xm - x1) * (x2 - xm) -> 0 < (xm - u) * (u - x2) -> 0 < (xm - x1) * (u - xm).
Proof.
  intros x1 xm x2 u H D. destruct (Rtotal_order xm x2) as [L|[->|L]]; [|lra|].
  - assert (0 < xm - x1) by nra. assert (xm < u); [|nra]. apply Rnot_le_lt. intros K. nra.
  - assert (xm - x1 < 0) by nra. assert (u < xm); [|nra]. apply Rnot_le_lt. intros K. nra.
Qed.

Lemma mb_loop_spec : forall f fuel b tr c, held f b -> mid b -> b_fm b <= b_f1 b -> b_fm b <= c ->
  forall tr' b', mb_loop f fuel b tr = (tr', Ok b') ->
  held f b' /\ mid b' /\ b_fm b' <= b_f1 b' /\ b_fm b' <= b_f2 b'
  /\ (b_fm b' < b_f1 b' \/ b_fm b' < b_f2 b') /\ b_fm b' <= c.
Proof.
  intros f fuel. induction fuel as [|fuel IH]; intros b tr c Hh Hm H1 Hc tr' b' E; [discriminate|].
  destruct b as [x1 f1 xm fm x2 f2]. cbn [mb_loop] in E.
  destruct Hh as (E1 & Em & E2). unfold mid in *. cbn [b_x1 b_f1 b_xm b_fm b_x2 b_f2] in *.
  destruct (Rltb fm f2) eqn:D0; [rewrite Rltb_spec in D0|rewrite Rltb_false in D0].
  { injection E as <- <-. cbn. unfold held. cbn. repeat split; auto; lra. }
  cbv zeta in E.
  set (u := xm - _ / _) in E. clearbody u.
  assert (Hne : xm <> x2) by (intros ->; lra).
  assert (Hg : forall tr fu, mb_loop f fuel (Brak xm fm x2 f2 (x2 - GOLD * (xm - x2)) fu) tr = (tr', Ok b') ->
     fu = f (x2 - GOLD * (xm - x2)) ->
     held f b' /\ mid b' /\ b_fm b' <= b_f1 b' /\ b_fm b' <= b_f2 b'
     /\ (b_fm b' < b_f1 b' \/ b_fm b' < b_f2 b') /\ b_fm b' <= c).
  { intros tr0 fu K Ef. eapply IH; [| | | |exact K]; cbn; try lra.
    - unfold held. cbn. auto.
    - unfold mid. cbn. apply (further xm x2 _ GOLD gold_pos Hne). reflexivity. }
  destruct (Rltb 0 ((xm - u) * (u - x2))) eqn:D1; [rewrite Rltb_spec in D1|rewrite Rltb_false in D1].
  - unfold bind at 1 in E. unfold call in E at 1.
    destruct (Rltb (f u) f2) eqn:D2; [rewrite Rltb_spec in D2|rewrite Rltb_false in D2].
    + injection E as <- <-. unfold held, mid. cbn. repeat split; auto; lra.
    + destruct (Rltb fm (f u)) eqn:D3; [rewrite Rltb_spec in D3|rewrite Rltb_false in D3].
      * injection E as <- <-. unfold held, mid. cbn. repeat split; auto; try lra. now apply (betw x1 xm x2 u).
      * unfold bind, call in E. eapply Hg; [exact E|reflexivity].
  - destruct (Rltb 0 ((x2 - u) * _)) eqn:D2; [rewrite Rltb_spec in D2|rewrite Rltb_false in D2].
    + assert (Hu : 0 < (x2 - xm) * (u - x2)).
      { unfold MAXMAG in D2. clear - D2 Hne.
        destruct (Rtotal_order x2 xm) as [L|[L|L]]; [|lra|].
        - assert (u < x2); [|nra]. apply Rnot_le_lt. intros K. nra.
        - assert (x2 < u); [|nra]. apply Rnot_le_lt. intros K. nra. }
      unfold bind at 1 in E. unfold call in E at 1.
      destruct (Rltb (f u) f2) eqn:D3; [rewrite Rltb_spec in D3|rewrite Rltb_false in D3].
      * unfold bind, call in E. eapply IH; [| | | |exact E]; cbn; try lra.
        -- unfold held. cbn. auto.
        -- unfold mid. cbn. pose proof gold_pos. clear - Hu H Hne.
           destruct (Rtotal_order x2 xm) as [L|[L|L]]; [|lra|].
           ++ assert (u < x2) by nra. nra.
           ++ assert (x2 < u) by nra. nra.
      * eapply IH; [| | | |exact E]; cbn; try lra.
        unfold held. cbn. auto.
    + destruct (Rleb 0 ((u - _) * _)) eqn:D3; [rewrite Rleb_spec in D3|rewrite Rleb_false in D3].
      * unfold bind, call in E. eapply IH; [| | | |exact E]; cbn; try lra.
        -- unfold held. cbn. auto.
        -- unfold mid. cbn. apply (further xm x2 _ 99); [lra|exact Hne|]. unfold MAXMAG. ring.
      * unfold bind, call in E. eapply Hg; [exact E|reflexivity].
Qed.

Lemma MinBracket_spec : forall f fuel x1 x2 tr b, x1 <> x2 ->
  MinBracket f fuel x1 x2 [] = (tr, Ok b) ->
  (b_x1 b < b_xm b < b_x2 b) /\ held f b /\ b_fm b <= b_f1 b /\ b_fm b <= b_f2 b
  /\ (b_fm b < b_f1 b \/ b_fm b < b_f2 b) /\ b_fm b <= f x1 /\ b_fm b <= f x2.
Proof.
  intros f fuel x1 x2 tr b Hx E. unfold MinBracket, bind, call in E.
  assert (X : forall a m, a <> m -> f m <= f a ->
    match mb_loop f fuel (Brak a (f a) m (f m) (m + GOLD * (m - a)) (f (m + GOLD * (m - a))))
        ((([] ++ [x1]) ++ [x2]) ++ [m + GOLD * (m - a)]) with
    | (s', Ok (Brak y1 g1 ym gm y2 g2 as b0)) => (s', Ok (if Rltb y2 y1 then Brak y2 g2 ym gm y1 g1 else b0))
    | (s', Err e) => (s', Err e)
    end = (tr, Ok b) ->
    (b_x1 b < b_xm b < b_x2 b) /\ held f b /\ b_fm b <= b_f1 b /\ b_fm b <= b_f2 b
    /\ (b_fm b < b_f1 b \/ b_fm b < b_f2 b) /\ b_fm b <= f m).
  { intros a m Ha Hf K. destruct (mb_loop _ _ _ _) as [s [bb|e]] eqn:El; [|discriminate].
    edestruct mb_loop_spec with (c := f m) (5 := El) as (A & B & C & D & G & H); cbn; try lra.
    - unfold held. cbn. auto.
    - unfold mid. cbn. pose proof gold_pos. assert (0 < Rsqr (m - a)) by (apply Rlt_0_sqr; lra). unfold Rsqr in *. nra.
    - destruct bb as [y1 g1 ym gm y2 g2]. unfold held, mid in *. cbn in *.
      destruct (Rltb y2 y1) eqn:Dl; [rewrite Rltb_spec in Dl|rewrite Rltb_false in Dl];
        injection K as <- <-; cbn; repeat split; try tauto; try lra; nra. }
  destruct (Rltb (f x1) (f x2)) eqn:D; [rewrite Rltb_spec in D|rewrite Rltb_false in D].
  - destruct (X x2 x1) as (A & B & C & D' & G & H); [congruence|lra| |].
    + cbv beta iota in E. destruct (mb_loop _ _ _ _) as [s [[]|e]]; exact E.
    + repeat split; try tauto; try lra; apply B.
  - destruct (X x1 x2) as (A & B & C & D' & G & H); [congruence|lra| |].
    + cbv beta iota in E. destruct (mb_loop _ _ _ _) as [s [[]|e]]; exact E.
    + repeat split; try tauto; try lra; apply B.
Qed.

(** Equal start points, and functions without a strict rise: no end. *)
Lemma mb_equal : forall f fuel x tr, snd (mb_loop f fuel (Brak x (f x) x (f x) x (f x)) tr) = Err OutOfFuel.
Proof.
  intros f fuel. induction fuel as [|fuel IH]; intros x tr; [reflexivity|].
  cbn [mb_loop]. cbv zeta. replace (x - x) with 0 by ring. replace (f x - f x) with 0 by ring.
  rewrite !Rmult_0_l, ?Rmult_0_r. replace (0 - 0) with 0 by ring. unfold Rdiv. rewrite !Rmult_0_l, !Rminus_0_r.
  rewrite (proj2 (Rltb_false (f x) (f x))) by lra.
  replace (x - x) with 0 by ring. rewrite !Rmult_0_l.
  rewrite (proj2 (Rltb_false 0 0)) by lra. rewrite (proj2 (Rleb_spec 0 0)) by lra.
  unfold bind, call. apply IH.
Qed.
Lemma MinBracket_equal : forall f fuel x, snd (MinBracket f fuel x x []) = Err OutOfFuel.
Proof.
  intros f fuel x. unfold MinBracket, bind, call.
  rewrite (proj2 (Rltb_false (f x) (f x))) by lra. cbv beta iota.
  replace (x + GOLD * (x - x)) with x by ring.
  pose proof (mb_equal f fuel x ((([] ++ [x]) ++ [x]) ++ [x])) as H.
  destruct (mb_loop _ _ _ _) as [s [[]|e]]; [discriminate|exact H].
Qed.

Lemma mb_constant : forall k fuel x1 xm x2 tr, 0 < (xm - x1) * (x2 - xm) ->
  snd (mb_loop (fun _ => k) fuel (Brak x1 k xm k x2 k) tr) = Err OutOfFuel.
Proof.
  intros k fuel. induction fuel as [|fuel IH]; intros x1 xm x2 tr Hm; [reflexivity|].
  assert (Hne : xm <> x2) by (intros ->; lra).
  cbn [mb_loop]. cbv zeta. replace (k - k) with 0 by ring. rewrite !Rmult_0_r.
  replace (0 - 0) with 0 by ring. rewrite Rmult_0_r. unfold Rdiv. rewrite !Rmult_0_l, Rminus_0_r.
  rewrite (proj2 (Rltb_false k k)) by lra.
  replace (xm - xm) with 0 by ring. rewrite Rmult_0_l, (proj2 (Rltb_false 0 0)) by lra.
  assert (D1 : Rltb 0 ((x2 - xm) * (xm - (xm - MAXMAG * (xm - x2)))) = false).
  { apply Rltb_false. unfold MAXMAG. assert (0 < Rsqr (x2 - xm)) by (apply Rlt_0_sqr; lra). unfold Rsqr in *. nra. }
  rewrite D1.
  assert (D2 : Rleb 0 ((xm - (xm - MAXMAG * (xm - x2))) * ((xm - MAXMAG * (xm - x2)) - x2)) = false).
  { apply Rleb_false. unfold MAXMAG. assert (0 < Rsqr (x2 - xm)) by (apply Rlt_0_sqr; lra). unfold Rsqr in *. nra. }
  rewrite D2. unfold bind, call. apply IH.
  apply (further xm x2 _ GOLD gold_pos Hne). reflexivity.
Qed.
Lemma MinBracket_constant : forall k fuel x1 x2, x1 <> x2 ->
  snd (MinBracket (fun _ => k) fuel x1 x2 []) = Err OutOfFuel.
Proof.
  intros k fuel x1 x2 Hx. unfold MinBracket, bind, call.
  rewrite (proj2 (Rltb_false k k)) by lra. cbv beta iota.
  pose proof (mb_constant k fuel x1 x2 (x2 + GOLD * (x2 - x1)) ((([] ++ [x1]) ++ [x2]) ++ [x2 + GOLD * (x2 - x1)])) as H.
  destruct (mb_loop _ _ _ _) as [s [[]|e]]; cbn in H |- *.
  - discriminate H. pose proof gold_pos. assert (0 < Rsqr (x2 - x1)) by (apply Rlt_0_sqr; lra). unfold Rsqr in *. nra.
  - apply H. pose proof gold_pos. assert (0 < Rsqr (x2 - x1)) by (apply Rlt_0_sqr; lra). unfold Rsqr in *. nra.
Qed.

(** ** brent *)
Definition brent_res (f : R -> R) (lo hi tol : R) (tr : list R) (r : res (R * R)) : Prop :=
  match r with
  | Ok (x, fx) => lo < x < hi /\ fx = f x /\ (forall y, In y tr -> fx <= f y) /\ In x tr
      /\ (forall m, unimodal f m -> lo <= m <= hi -> Rabs (x - m) <= 2 * (tol * Rabs x + EPS0))
  | Err e => e = IterErr
  end.

Lemma brent_loop_spec : forall f tol lo hi left a b v w x e d tr fv fw fx, 0 <= tol ->
  lo <= a < x -> x < b <= hi -> fx = f x ->
  (forall y, In y tr -> lo < y < hi) -> (forall y, In y tr -> fx <= f y) -> In x tr ->
  (d = None -> e = 0) ->
  (forall m, unimodal f m -> lo <= m <= hi -> a <= m <= b) ->
  let '(tr', r) := brent_loop f tol left a b v w x fv fw fx e d tr in
  (exists l, tr' = tr ++ l /\ (length l <= left)%nat /\
     (match r with Ok _ => (length l < left)%nat | Err _ => True end)) /\
  (forall y, In y tr' -> lo < y < hi) /\ brent_res f lo hi tol tr' r.
Proof.
  intros f tol lo hi left. induction left as [|left IH];
    intros a b v w x e d tr fv fw fx Ht Ha Hb Hfx Htr Hbest Hin Hd Hm.
  { cbn. split; [exists []; rewrite app_nil_r; cbn; auto|]. auto. }
  cbn [brent_loop]. cbv zeta.
  set (xm := 1/2 * (a + b)). set (tol1 := tol * Rabs x + EPS0).
  assert (T1 : 0 < tol1).
  { unfold tol1, EPS0. pose proof (Rabs_pos x). assert (0 < 1 / 10 ^ 10) by lra. nra. }
  destruct (Rleb (Rabs (x - xm)) (2 * tol1 - 1/2 * (b - a))) eqn:D0; [rewrite Rleb_spec in D0|rewrite Rleb_false in D0].
  { cbn. split; [exists []; rewrite app_nil_r; cbn; split; [reflexivity|lia]|]. split; [exact Htr|].
    split; [lra|]. split; [exact Hfx|]. split; [exact Hbest|]. split; [exact Hin|].
    intros m Um Hl. specialize (Hm m Um Hl). fold tol1. unfold xm in D0.
    apply Rabs_le. unfold Rabs in D0. destruct (Rcase_abs _); lra. }
  assert (Far : (xm <= x -> 2 * tol1 < x - a) /\ (x <= xm -> 2 * tol1 < b - x)).
  { unfold xm in *. unfold Rabs in D0. destruct (Rcase_abs _); split; lra. }
  destruct Far as [FarL FarR].
  (* the step *)
  match goal with |- context [bind ?m _] => set (stp := m) end.
  assert (St : exists d' e', stp tr = (tr, Ok (d', e')) /\
     let u := if Rleb tol1 (Rabs d') then x + d' else if Rltb d' 0 then x - tol1 else x + tol1 in
     a < u < b /\ u <> x).
  { assert (Golden : forall e', e' = (if Rleb xm x then a - x else b - x) ->
       let d' := CGOLD * e' in
       let u := if Rleb tol1 (Rabs d') then x + d' else if Rltb d' 0 then x - tol1 else x + tol1 in
       a < u < b /\ u <> x).
    { intros e' ->. cbv zeta. unfold CGOLD.
      destruct (Rleb xm x) eqn:Dx; [rewrite Rleb_spec in Dx|rewrite Rleb_false in Dx].
      - specialize (FarL Dx). replace (Rabs (3819660 / 10000000 * (a - x))) with (3819660 / 10000000 * (x - a)).
        2: { rewrite Rabs_left by nra. nra. }
        destruct (Rleb tol1 _) eqn:Dt; [rewrite Rleb_spec in Dt|rewrite Rleb_false in Dt]; [lra|].
        rewrite (proj2 (Rltb_spec _ _)) by nra. lra.
      - assert (Dx' : x <= xm) by lra. specialize (FarR Dx').
        replace (Rabs (3819660 / 10000000 * (b - x))) with (3819660 / 10000000 * (b - x)).
        2: { rewrite Rabs_pos_eq by nra. reflexivity. }
        destruct (Rleb tol1 _) eqn:Dt; [rewrite Rleb_spec in Dt|rewrite Rleb_false in Dt]; [lra|].
        rewrite (proj2 (Rltb_false _ _)) by nra. lra. }
    unfold stp. clear stp.
    destruct (Rltb tol1 (Rabs e)) eqn:De; [rewrite Rltb_spec in De|rewrite Rltb_false in De].
    2: { unfold ret. eexists _, _. split; [reflexivity|]. now apply Golden. }
    destruct d as [d0|].
    2: { rewrite (Hd eq_refl), Rabs_R0 in De. lra. }
    unfold bind, attr.
    match goal with |- context [Rabs (2 * ?k)] => set (q0 := 2 * k) end.
    match goal with |- context [if Rltb 0 q0 then - ?pp else ?pp] => set (p := if Rltb 0 q0 then - pp else pp) end.
    clearbody p. set (q := Rabs q0).
    assert (Hq0 : 0 <= q) by (apply Rabs_pos). clearbody q. clear q0.
    destruct (Rleb (Rabs (1/2 * q * e)) (Rabs p) || Rleb p (q * (a - x)) || Rleb (q * (b - x)) p) eqn:Dp.
    { unfold ret. eexists _, _. split; [reflexivity|]. now apply Golden. }
    apply orb_false_iff in Dp. destruct Dp as [Dp D3]. apply orb_false_iff in Dp. destruct Dp as [D1 D2].
    rewrite Rleb_false in D1, D2, D3.
    assert (Hq : 0 < q).
    { destruct (Req_dec q 0) as [->|]; [|lra]. exfalso. apply D1. rewrite Rmult_0_r, Rmult_0_l, Rabs_R0. apply Rabs_pos. }
    assert (U1 : a < x + p / q < b).
    { assert (p / q * q = p) by (field; lra). split; nra. }
    destruct (Rltb (x + p / q - a) (2 * tol1) || Rltb (b - (x + p / q)) (2 * tol1)) eqn:Dn.
    - unfold ret. eexists _, _. split; [reflexivity|]. cbv zeta.
      destruct (Rltb (xm - x) 0) eqn:Dx; [rewrite Rltb_spec in Dx|rewrite Rltb_false in Dx].
      + rewrite Rabs_Ropp, Rabs_pos_eq by lra. rewrite (proj2 (Rleb_spec tol1 tol1)) by lra.
        assert (xm <= x) by lra. specialize (FarL H). lra.
      + rewrite Rabs_pos_eq by lra. rewrite (proj2 (Rleb_spec tol1 tol1)) by lra.
        assert (x <= xm) by lra. specialize (FarR H). lra.
    - unfold ret. eexists _, _. split; [reflexivity|]. cbv zeta.
      apply orb_false_iff in Dn. destruct Dn as [N1 N2]. rewrite Rltb_false in N1, N2.
      destruct (Rleb tol1 (Rabs (p / q))) eqn:Dt; [rewrite Rleb_spec in Dt|rewrite Rleb_false in Dt].
      + split; [exact U1|]. intros K. assert (p / q = 0) by lra. rewrite H, Rabs_R0 in Dt. lra.
      + destruct (Rltb (p / q) 0) eqn:Ds; [rewrite Rltb_spec in Ds|rewrite Rltb_false in Ds].
        * rewrite Rabs_left in Dt by lra. lra.
        * rewrite Rabs_pos_eq in Dt by lra. lra. }
  destruct St as (d' & e' & Es & Hu). unfold bind. rewrite Es. unfold call. cbv zeta in Hu.
  set (u := if Rleb tol1 (Rabs d') then x + d' else if Rltb d' 0 then x - tol1 else x + tol1) in *.
  clearbody u. clear Es stp. destruct Hu as (Hu & Hux).
  assert (Tr' : forall y, In y (tr ++ [u]) -> lo < y < hi).
  { intros y Hy. apply in_app_or in Hy. destruct Hy as [Hy|[<-|[]]]; [auto|lra]. }
  assert (Wrap : forall (P : list R * res (R * R)),
    (let '(tr', r) := P in
     (exists l, tr' = (tr ++ [u]) ++ l /\ (length l <= left)%nat /\
        (match r with Ok _ => (length l < left)%nat | Err _ => True end)) /\
     (forall y, In y tr' -> lo < y < hi) /\ brent_res f lo hi tol tr' r) ->
    (let '(tr', r) := P in
     (exists l, tr' = tr ++ l /\ (length l <= S left)%nat /\
        (match r with Ok _ => (length l < S left)%nat | Err _ => True end)) /\
     (forall y, In y tr' -> lo < y < hi) /\ brent_res f lo hi tol tr' r)).
  { intros [tr' r] ((l & -> & L1 & L2) & Q). split; [|exact Q].
    exists (u :: l). split; [now rewrite <- app_assoc|]. split; [cbn; lia|]. destruct r; [cbn; lia|exact I]. }
  destruct (Rleb (f u) fx) eqn:Df; [rewrite Rleb_spec in Df|rewrite Rleb_false in Df].
  - assert (X : exists a' b', (if Rleb x u then (x, b) else (a, x)) = (a', b') /\ lo <= a' < u /\ u < b' <= hi
       /\ (forall m, unimodal f m -> lo <= m <= hi -> a' <= m <= b')).
    { destruct (Rleb x u) eqn:Dx; [rewrite Rleb_spec in Dx|rewrite Rleb_false in Dx];
        eexists _, _; (split; [reflexivity|]); (split; [lra|]); (split; [lra|]);
        intros m Um Hl; specialize (Hm m Um Hl); split; try lra; apply Rnot_lt_le; intros K; destruct Um as [U1 U2].
      - specialize (U2 x u). assert (f x < f u) by (apply U2; lra). lra.
      - specialize (U1 u x). assert (f x < f u) by (apply U1; lra). lra. }
    destruct X as (a' & b' & -> & A1 & B1 & M1). apply Wrap. apply IH; auto.
    + intros y Hy. apply in_app_or in Hy. destruct Hy as [Hy|[<-|[]]]; [|lra]. specialize (Hbest y Hy). lra.
    + apply in_or_app. right. now left.
    + discriminate.
  - assert (X : exists a' b', (if Rltb u x then (u, b) else (a, u)) = (a', b') /\ lo <= a' < x /\ x < b' <= hi
       /\ (forall m, unimodal f m -> lo <= m <= hi -> a' <= m <= b')).
    { destruct (Rltb u x) eqn:Dx; [rewrite Rltb_spec in Dx|rewrite Rltb_false in Dx];
        eexists _, _; (split; [reflexivity|]); (split; [lra|]); (split; [lra|]);
        intros m Um Hl; specialize (Hm m Um Hl); split; try lra; apply Rnot_lt_le; intros K; destruct Um as [U1 U2].
      - specialize (U2 u x). assert (f u < f x) by (apply U2; lra). lra.
      - specialize (U1 x u). assert (f u < f x) by (apply U1; lra). lra. }
    destruct X as (a' & b' & -> & A1 & B1 & M1).
    assert (Best : forall y, In y (tr ++ [u]) -> fx <= f y).
    { intros y Hy. apply in_app_or in Hy. destruct Hy as [Hy|[<-|[]]]; [auto|lra]. }
    assert (In1 : In x (tr ++ [u])) by (apply in_or_app; now left).
    destruct (Rleb (f u) fw || Reqb w x); [|destruct (Rleb (f u) fv || Reqb v x || Reqb v w)];
      apply Wrap; apply IH; auto; discriminate.
Qed.

Lemma brent_spec : forall f br tol maxit, 0 <= tol -> b_x1 br < b_xm br < b_x2 br ->
  let '(tr, r) := brent f br tol maxit [] in
  (forall y, In y tr -> b_x1 br < y < b_x2 br) /\ In (b_xm br) tr /\ (length tr <= maxit + 1)%nat /\
  match r with
  | Ok (x, fx) => b_x1 br < x < b_x2 br /\ fx = f x /\ (forall y, In y tr -> fx <= f y) /\ In x tr
      /\ (length tr <= maxit)%nat
      /\ (forall m, unimodal f m -> b_x1 br <= m <= b_x2 br -> Rabs (x - m) <= 2 * (tol * Rabs x + EPS0))
  | Err e => e = IterErr
  end.
Proof.
  intros f br tol maxit Ht Hb. unfold brent, bind, call. cbn [app].
  pose proof (brent_loop_spec f tol (b_x1 br) (b_x2 br) maxit (b_x1 br) (b_x2 br) (b_xm br) (b_xm br) (b_xm br)
    0 None [b_xm br] (f (b_xm br)) (f (b_xm br)) (f (b_xm br)) Ht) as H.
  assert (P : forall y, In y [b_xm br] -> b_x1 br < y < b_x2 br) by (intros y [<-|[]]; exact Hb).
  specialize (H ltac:(lra) ltac:(lra) eq_refl P).
  specialize (H ltac:(intros y [<-|[]]; lra) ltac:(now left) ltac:(reflexivity) ltac:(auto)).
  destruct (brent_loop _ _ _ _ _ _ _ _ _ _ _ _ _ _) as [tr r]. destruct H as ((l & -> & L1 & L2) & H1 & H2).
  split; [exact H1|]. split; [now left|]. split; [cbn; lia|].
  destruct r as [[x fx]|e]; [|exact H2]. destruct H2 as (A & B & C & D & E). cbn [length app].
  repeat split; auto; try apply A.
Qed.

(** What is returned does not depend on the calls recorded before. *)
Lemma brent_trace : forall g b tol maxit tr0, snd (brent g b tol maxit tr0) = snd (brent g b tol maxit []).
Proof.
  intros g b0 tol maxit tr0. unfold brent, bind, call.
    assert (G : forall left a b v w x fv fw fx e d t1 t2,
      snd (brent_loop g tol left a b v w x fv fw fx e d t1) = snd (brent_loop g tol left a b v w x fv fw fx e d t2)).
    { induction left as [|left IH]; intros; [reflexivity|]. cbn [brent_loop]. cbv zeta.
      destruct (Rleb (Rabs _) _); [reflexivity|].
      match goal with |- snd (bind ?m ?k t1) = snd (bind ?m ?k t2) => set (mm := m); set (kk := k) end.
      assert (Em : exists r, mm t1 = (t1, r) /\ mm t2 = (t2, r)).
      { unfold mm, ret, bind, attr. destruct (Rltb _ (Rabs e)); [|eauto]. destruct d as [d0|]; [|eauto].
        destruct (_ || _ || _); [eauto|]. destruct (_ || _); eauto. }
      destruct Em as (r & E1 & E2). unfold bind. rewrite E1, E2. destruct r as [[d' e']|er]; [|reflexivity].
      unfold kk, bind, call.
      generalize (if Rleb (tol * Rabs x + EPS0) (Rabs d') then x + d'
                  else if Rltb d' 0 then x - (tol * Rabs x + EPS0) else x + (tol * Rabs x + EPS0)). intros u.
      destruct (Rleb (g u) fx).
      - destruct (Rleb x u); apply IH.
      - destruct (Rltb u x); destruct (Rleb (g u) fw || Reqb w x); try apply IH;
          destruct (Rleb (g u) fv || Reqb v x || Reqb v w); apply IH. }
    apply G. 
Qed.

(** ** linmin and powell *)
Section Powell.
Variable V : Type.
Variable vadd : V -> V -> V.
Variable scale : R -> V -> V.
Variable f : V -> R.
Variable fuel : nat.

Lemma linmin_spec : forall pt drxn p' d' fr, linmin V vadd scale f fuel pt drxn = Ok (p', d', fr) ->
  fr = f p' /\ fr <= f (vadd pt (scale 0 drxn)) /\ exists l, d' = scale l drxn /\ p' = vadd pt d'.
Proof.
  intros pt drxn p' d' fr H. unfold linmin in H. set (g := fun x => f (vadd pt (scale x drxn))) in H.
  unfold bind in H. destruct (MinBracket g fuel 0 1 []) as [tr [b|e]] eqn:Eb; [|discriminate].
  apply MinBracket_spec in Eb; [|lra]. destruct Eb as (Hx & (_ & Hh & _) & _ & _ & _ & H0 & _).
  pose proof (brent_spec g b (1/10^4) 100 ltac:(lra) Hx) as Hb.
  rewrite brent_trace in H. destruct (brent g b (1/10^4) 100 []) as [tr2 [[l fl]|e]]; [|discriminate].
  cbn [snd] in H. injection H as <- <- <-. destruct Hb as (_ & Hin & _ & _ & -> & Hbest & _).
  split; [reflexivity|]. split; [|eauto]. specialize (Hbest _ Hin).
  unfold g in *. lra.
Qed.

Lemma mb_loop_err : forall g n b tr tr' e, mb_loop g n b tr = (tr', Err e) -> e = OutOfFuel.
Proof.
  intros g n. induction n as [|n IH]; intros b tr tr' e H; [now injection H as _ <-|].
  destruct b as [x1 f1 xm fm x2 f2]. cbn [mb_loop] in H. cbv zeta in H. unfold bind, call, ret in H.
  repeat match type of H with
  | context [if ?c then _ else _] => destruct c
  end; try discriminate; eapply IH; exact H.
Qed.
Lemma MinBracket_err : forall g n x1 x2 tr tr' e, MinBracket g n x1 x2 tr = (tr', Err e) -> e = OutOfFuel.
Proof.
  intros g n x1 x2 tr tr' e H. unfold MinBracket, bind, call in H.
  destruct (Rltb (g x1) (g x2)); cbv beta iota in H;
  destruct (mb_loop _ _ _ _) as [s [[]|e0]] eqn:El; try discriminate;
  injection H as _ <-; eapply mb_loop_err; exact El.
Qed.

Lemma linmin_err : forall pt drxn e, linmin V vadd scale f fuel pt drxn = Err e -> e = IterErr \/ e = OutOfFuel.
Proof.
  intros pt drxn e H. unfold linmin in H. set (g := fun x => f (vadd pt (scale x drxn))) in H.
  unfold bind in H. destruct (MinBracket g fuel 0 1 []) as [tr [b|e0]] eqn:Eb.
  - apply MinBracket_spec in Eb; [|lra]. destruct Eb as (Hx & _).
    pose proof (brent_spec g b (1/10^4) 100 ltac:(lra) Hx) as Hb.
    rewrite brent_trace in H. destruct (brent g b (1/10^4) 100 []) as [tr2 [[l fl]|e1]]; [discriminate|].
    cbn in H. injection H as <-. left. apply Hb.
  - cbn in H. injection H as <-. right. eapply MinBracket_err. exact Eb.
Qed.

Hypothesis stay : forall p d, vadd p (scale 0 d) = p.

Lemma sweep_spec : forall drxns n i p fret ibig delta p' fret' ibig' delta', fret = f p -> 
  sweep V vadd scale f fuel n i drxns p fret ibig delta = Ok (p', fret', ibig', delta') ->
  fret' = f p' /\ fret' <= fret /\ (ibig' = ibig \/ i <= ibig' < i + n)%nat.
Proof.
  intros drxns n. induction n as [|n IH]; intros i p fret ibig delta p' fret' ibig' delta' Hf H.
  - cbn in H. injection H as <- <- <- <-. split; [exact Hf|]. split; [lra|now left].
  - cbn in H. destruct (nth_error drxns i) as [v|]; [|discriminate].
    destruct (linmin _ _ _ _ _ p v) as [[[q vv] fq]|e] eqn:El; [|discriminate].
    apply linmin_spec in El. destruct El as (E1 & E2 & _). rewrite stay in E2.
    destruct (Rltb _ _); (apply IH in H; [|exact E1]); destruct H as (A & B & C);
      (split; [exact A|]); (split; [lra|]); lia.
Qed.
Lemma sweep_err : forall drxns n i p fret ibig delta e, (i + n <= length drxns)%nat ->
  sweep V vadd scale f fuel n i drxns p fret ibig delta = Err e -> e = IterErr \/ e = OutOfFuel.
Proof.
  intros drxns n. induction n as [|n IH]; intros i p fret ibig delta e Hl H; [discriminate|].
  cbn in H. destruct (nth_error drxns i) as [v|] eqn:En.
  2: { apply nth_error_None in En. lia. }
  destruct (linmin _ _ _ _ _ p v) as [[[q vv] fq]|e0] eqn:El.
  - destruct (Rltb _ _); eapply IH; try exact H; lia.
  - injection H as <-. eapply linmin_err. exact El.
Qed.

Lemma replace_length : forall l i v, length (replace_nth V l i v) = length l.
Proof. induction l as [|x l IH]; intros [|i] v; cbn; auto. Qed.

Lemma powell_loop_spec : forall steps n iter maxit ftol drxns p p0 fret, fret = f p -> (iter < maxit)%nat ->
  (1 <= n)%nat -> length drxns = n ->
  match powell_loop V vadd scale f fuel steps n iter maxit ftol drxns p p0 fret with
  | Ok (p', fret', it) => fret' = f p' /\ fret' <= fret /\ (it <= maxit)%nat
  | Err e => e = IterErr \/ e = OutOfFuel
  end.
Proof.
  induction steps as [|steps IH]; intros n iter maxit ftol drxns p p0 fret Hf Hi Hn Hl; [now right|].
  cbn [powell_loop]. cbv zeta.
  destruct (sweep _ _ _ _ _ n 0 drxns p fret 0 0) as [[[[p1 fret1] ibig] delta]|e] eqn:Es.
  2: { eapply sweep_err; [|exact Es]. lia. }
  apply sweep_spec in Es; [|exact Hf]. destruct Es as (E1 & E2 & E3).
  destruct (Rleb _ _). { repeat split; auto; lia. }
  destruct (Nat.eqb (S iter) maxit) eqn:Em; [now left|]. apply Nat.eqb_neq in Em.
  assert (Go : forall p p0 fr dr, fr = f p -> fr <= fret -> length dr = n ->
    match powell_loop V vadd scale f fuel steps n (S iter) maxit ftol dr p p0 fr with
    | Ok (p', fret', it) => fret' = f p' /\ fret' <= fret /\ (it <= maxit)%nat
    | Err e => e = IterErr \/ e = OutOfFuel
    end).
  { intros q q0 fr dr A B C. pose proof (IH n (S iter) maxit ftol dr q q0 fr A ltac:(lia) Hn C) as H.
    destruct (powell_loop _ _ _ _ _ _ _ _ _ _ _ _ _ _) as [[[p' f'] it]|e]; [|exact H].
    destruct H as (X & Y & Z). repeat split; auto. lra. }
  destruct (Rleb fret _); [now apply Go|]. destruct (Rleb 0 _); [now apply Go|].
  destruct (linmin _ _ _ _ _ p1 _) as [[[p2 v2] f2]|e] eqn:El.
  2: { eapply linmin_err. exact El. }
  apply linmin_spec in El. destruct El as (L1 & L2 & _). rewrite stay in L2.
  destruct (nth_error drxns ibig) as [y|] eqn:Ey.
  2: { apply nth_error_None in Ey. lia. }
  destruct (nth_error drxns (length drxns - 1)) as [z|] eqn:Ez.
  2: { apply nth_error_None in Ez. lia. }
  apply Go; [exact L1|lra|]. now rewrite !replace_length.
Qed.

Lemma powell_spec : forall steps n p drxns ftol maxit shuffle, (1 <= maxit)%nat -> (1 <= n)%nat -> length drxns = n ->
  match powell V vadd scale f fuel steps n p drxns ftol maxit shuffle with
  | Ok (p', fret, it) => fret = f p' /\ fret <= f p /\ (it <= maxit)%nat
  | Err e => e = IterErr \/ e = OutOfFuel
  end.
Proof.
  intros steps n p drxns ftol maxit shuffle Hm Hn Hl. unfold powell. apply powell_loop_spec; auto.
  destruct shuffle; [|exact Hl]. destruct drxns as [|v l]; [exact Hl|]. cbn in *. rewrite app_length. cbn. lia.
Qed.

(** A function that does not change along the first direction searched. *)
Lemma powell_hangs : forall steps n p drxns v rest ftol maxit (shuffle : bool), (1 <= n)%nat ->
  (if shuffle then shuffled V n drxns else drxns) = v :: rest ->
  (forall x, f (vadd p (scale x v)) = f p) ->
  powell V vadd scale f fuel steps n p drxns ftol maxit shuffle = Err OutOfFuel.
Proof.
  intros steps n p drxns v rest ftol maxit shuffle Hn Hd Hc. unfold powell. rewrite Hd.
  destruct steps as [|steps]; [reflexivity|]. cbn [powell_loop]. cbv zeta.
  destruct n as [|n]; [lia|]. cbn [sweep nth_error].
  assert (El : linmin V vadd scale f fuel p v = Err OutOfFuel).
  { unfold linmin. set (g := fun x => f (vadd p (scale x v))).
    assert (Gc : forall x, g x = f p) by exact Hc. clearbody g.
    assert (Hg : forall b fl x1 xm x2 tr, b = Brak x1 (f p) xm (f p) x2 (f p) -> 0 < (xm - x1) * (x2 - xm) ->
       exists tr', mb_loop g fl b tr = (tr', Err OutOfFuel)).
    { intros b fl. revert b. induction fl as [|fl IH]; intros b x1 xm x2 tr -> Hm; [eexists; reflexivity|].
      assert (Hne : xm <> x2) by (intros ->; lra).
      cbn [mb_loop]. cbv zeta. replace (f p - f p) with 0 by ring. rewrite !Rmult_0_r.
      replace (0 - 0) with 0 by ring. rewrite Rmult_0_r. unfold Rdiv. rewrite !Rmult_0_l, Rminus_0_r.
      rewrite (proj2 (Rltb_false (f p) (f p))) by lra.
      replace (xm - xm) with 0 by ring. rewrite Rmult_0_l, (proj2 (Rltb_false 0 0)) by lra.
      assert (Hs : 0 < Rsqr (x2 - xm)) by (apply Rlt_0_sqr; lra). unfold Rsqr in Hs.
      rewrite (proj2 (Rltb_false 0 ((x2 - xm) * (xm - (xm - MAXMAG * (xm - x2)))))) by (unfold MAXMAG; nra).
      rewrite (proj2 (Rleb_false 0 ((xm - (xm - MAXMAG * (xm - x2))) * ((xm - MAXMAG * (xm - x2)) - x2)))) by (unfold MAXMAG; nra).
      unfold bind, call. rewrite Gc. eapply IH; [reflexivity|].
      apply (further xm x2 _ GOLD gold_pos Hne). reflexivity. }
    unfold bind, MinBracket at 1. unfold bind, call. rewrite !Gc.
    rewrite (proj2 (Rltb_false (f p) (f p))) by lra. cbv beta iota.
    rewrite ?Gc.
    edestruct Hg as (tr' & ->); [reflexivity|unfold GOLD; lra|]. reflexivity. }
  now rewrite El.
Qed.
End Powell.

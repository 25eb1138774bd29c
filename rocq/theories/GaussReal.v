(** Values of the statistics, and independence of earlier evaluations. *)

From Coq Require Import ZArith List Bool Arith Lia Reals Lra.
From Verif Require Import Exn PieModel PieGridModel GaussModel GaussSpec GaussLemmas GaussLemmas2
  Instances.
Import ListNotations.
Open Scope exn_scope.

Section Gen.
Context {N : num} {U : user N}.
Notation state := (world N U).

(** The statistics as functions. *)
Definition bc (f : N -> N -> N) (x y : obj N) : res (obj N) :=
  match o_kind x, o_kind y with
  | PyList, PyList => Err TypeError
  | _, _ =>
      match o_elems x, o_elems y with
      | [a], l => Ok (Obj NdArray (map (f a) l))
      | l, [b] => Ok (Obj NdArray (map (fun a => f a b) l))
      | l, m => if Nat.eqb (length l) (length m)
                then Ok (Obj NdArray (map (fun p => f (fst p) (snd p)) (combine l m)))
                else Err ValueError
      end
  end.
Lemma bcast_bc : forall f x y (w : state), bcast f x y w = (w, bc f x y).
Proof.
  intros f x y w. unfold bcast, bc.
  destruct (o_kind x), (o_kind y); try reflexivity;
  destruct (o_elems x) as [|a [|a' l]]; destruct (o_elems y) as [|b [|b' m]]; try reflexivity;
  destruct (Nat.eqb _ _); reflexivity.
Qed.

Definition pred_obj (e : nat -> option N) (c : C U) (xs : list N) : obj N :=
  match signals U e c xs with
  | Some l => Obj NdArray l
  | None => Obj PyList (map (signal U e c) xs)
  end.

Definition stat (e : nat -> option N) (c : C U) (d : obj N * obj N * obj N) : res N :=
  let '(x, v, s) := d in
  match bc (sub N) v (pred_obj e c (o_elems x)) with
  | Err er => Err er
  | Ok r => match bc (div N) r s with
            | Err er => Err er
            | Ok q => Ok (total (map (fun x => mul N x x) (o_elems q)))
            end
  end.

Lemma handler_seen : forall i k (w : state), exists h w1, handler i k w = (w1, Ok h)
  /\ hnds w1 i k = Some h /\ hp w1 = hp w /\ pie w1 = pie w /\ cache w1 = cache w
  /\ seen w i k = (hp w (h_locns h), hp w (h_vals h), hp w (h_sigmas h)).
Proof.
  intros i k w. unfold handler, seen. destruct (hnds w i k) as [h|] eqn:E.
  - exists h, w. auto 6.
  - do 2 eexists. split; [reflexivity|]. rewrite set_hnd_here. cbn. auto 6.
Qed.

Lemma wssr_run : forall i k (w : state), exists w',
  let '(c, e) := on_use U (env w i) (cache w i) in
  wssr i k w = (w', match e with Some x => Err x | None => stat (env w i) c (seen w i k) end)
  /\ cache w' = upd (cache w) i c /\ pie w' = pie w
  /\ (e = None -> exists h, hnds w' i k = Some h /\
        h_prdxns h = Some (pred_obj (env w i) c (o_elems (fst (fst (seen w i k)))))).
Proof.
  intros i k w. destruct (handler_seen i k w) as (h & w1 & E & Hh & Hp & Hpie & Hc & Hs).
  remember (on_use U (env w i) (cache w i)) as oo eqn:Eo. destruct oo as [c e]. symmetry in Eo.
  assert (Ee : env w1 i = env w i) by (unfold env; now rewrite Hpie).
  remember (wssr i k w) as r eqn:Er.
  unfold wssr, get_prdxns in Er.
  rewrite <- (bind_assoc _ _ _ (handler i k)) in Er. rewrite (bind_eq i k w w1 h _ _ E) in Er.
  unfold bind at 1 in Er. unfold bind at 1 in Er. unfold _on_use at 1 in Er. rewrite Ee, Hc, Eo in Er.
  destruct e as [x|].
  - eexists. split; [exact Er|]. cbn. rewrite Hpie. split; [reflexivity|]. split; [reflexivity|discriminate].
  - revert Er. set (w2 := World _ _ _ _ _ _ _). unfold bind at 1, read at 1. unfold bind at 1, get.
    assert (E2 : env w2 i = env w i) by exact Ee.
    assert (C2 : cache w2 i = c) by (unfold w2; cbn; apply upd_eq).
    rewrite E2, C2. fold (pred_obj (env w i) c (o_elems (hp w2 (h_locns h)))).
    set (p := pred_obj _ _ _).
    assert (H2 : hasH i k h w2) by exact Hh.
    unfold bind at 1. rewrite (put_has _ _ _ _ _ H2). unfold ret at 1.
    set (w3 := set_hnd _ _ _ _).
    assert (H3 : hnds w3 i k = Some (with_prdxns (Some p) h)) by apply set_hnd_here.
    rewrite (bind_eq i k w3 w3 _ _ _ (handler_has _ _ _ _ H3)).
    unfold bind at 1, read at 1. unfold bind at 1. rewrite bcast_bc.
    assert (S : seen w i k = (hp w3 (h_locns h), hp w3 (h_vals h), hp w3 (h_sigmas h))).
    { rewrite Hs. unfold w3, w2. cbn. now rewrite Hp. }
    rewrite S. unfold stat. cbn [fst].
    change (hp w3 (h_locns h)) with (hp w2 (h_locns h)). fold p.
    change (h_vals (with_prdxns (Some p) h)) with (h_vals h).
    change (h_sigmas (with_prdxns (Some p) h)) with (h_sigmas h).
    intros Er. exists w3. split.
    + destruct (bc (sub N) (hp w3 (h_vals h)) p) as [r0|er]; [|exact Er].
      unfold bind at 1, read at 1 in Er. unfold bind at 1 in Er. rewrite bcast_bc in Er.
      destruct (bc (div N) r0 (hp w3 (h_sigmas h))) as [q|er]; exact Er.
    + split; [reflexivity|]. split; [exact Hpie|]. intros _. eexists. split; [exact H3|reflexivity].
Qed.

Lemma wssr_value : forall i k (w : state),
  let r := wssr i k w in
  let '(c, e) := on_use U (env w i) (cache w i) in
  cache (fst r) = upd (cache w) i c /\ pie (fst r) = pie w /\
  snd r = match e with Some x => Err x | None => stat (env w i) c (seen w i k) end.
Proof.
  intros i k w. destruct (wssr_run i k w) as (w' & H). destruct (on_use U _ _) as [c e].
  destruct H as (E & A & B & _). cbn zeta. rewrite E. auto.
Qed.

Lemma wssr_seen : forall i k (w : state) j l, seen (fst (wssr i k w)) j l = seen w j l.
Proof. intros. apply quiet_seen. apply q_wssr. Qed.

(** Sums over predictors for a memoryless hook. *)
Definition half (r : res N) : res N :=
  match r with Ok t => Ok (mul N (div N (ofZ N (-1)) (ofZ N 2)) t) | Err e => Err e end.

Fixpoint stats (g : res N -> res N) (e : nat -> option N) (c : C U)
    (ds : list (obj N * obj N * obj N)) (acc : N) : res N :=
  match ds with
  | [] => Ok acc
  | d :: ds' => match g (stat e c d) with
                | Ok v => stats g e c ds' (add N acc v)
                | Err er => Err er
                end
  end.

Definition getter (ll : bool) (i k : nat) : G N U N := if ll then log_like i k else chisqr i k.
Definition adj (ll : bool) : res N -> res N := if ll then half else (fun r => r).

Lemma getter_value : forall ll i k (w : state),
  fst (getter ll i k w) = fst (wssr i k w) /\ snd (getter ll i k w) = adj ll (snd (wssr i k w)).
Proof.
  intros [] i k w; cbn [getter adj]; [|split; reflexivity].
  unfold log_like, bind. destruct (wssr i k w) as [w' [t|e]]; split; reflexivity.
Qed.

Lemma sum_value : memoryless U -> forall ll i preds acc (w : state) c,
  on_use U (env w i) (c0 U) = (c, None) ->
  let r := sum_over preds (getter ll i) acc w in
  snd r = stats (adj ll) (env w i) c (map (seen w i) preds) acc
  /\ (forall x, snd r = Ok x -> preds <> [] -> env (fst r) i = env w i /\ cache (fst r) i = c).
Proof.
  intros Mm ll i preds. induction preds as [|k preds IH]; intros acc w c Hc; cbn [sum_over map stats].
  - split; [reflexivity|]. intros x _ K. now elim K.
  - pose proof (wssr_value i k w) as V. cbn zeta in V.
    rewrite (Mm _ _ (c0 U)), Hc in V. destruct V as (V1 & V2 & V3).
    destruct (getter_value ll i k w) as [G1 G2]. rewrite V3 in G2.
    unfold bind. destruct (getter ll i k w) as [w' r] eqn:Eg; cbn [fst snd] in G1, G2. subst r.
    destruct (adj ll (stat (env w i) c (seen w i k))) as [v|er]; [|split; [reflexivity|discriminate]].
    assert (Ee : env w' i = env w i) by (unfold env; now rewrite G1, V2).
    rewrite <- Ee in Hc. destruct (IH (add N acc v) w' c Hc) as [I1 I2]. cbn zeta in *.
    rewrite I1, Ee. split.
    + f_equal. apply map_ext. intros l. rewrite G1. apply wssr_seen.
    + intros x Hx _. destruct preds as [|k' preds'].
      * cbn in *. split; [exact Ee|]. rewrite G1, V1. apply upd_eq.
      * rewrite <- Ee. apply (I2 x); [|discriminate]. now rewrite I1, Ee.
Qed.

Lemma sum_raises : memoryless U -> forall ll i k preds acc (w : state) c x,
  on_use U (env w i) (c0 U) = (c, Some x) ->
  snd (sum_over (k :: preds) (getter ll i) acc w) = Err x.
Proof.
  intros Mm ll i k preds acc w c x Hc. cbn [sum_over].
  pose proof (wssr_value i k w) as V. cbn zeta in V.
  rewrite (Mm _ _ (c0 U)), Hc in V. destruct V as (V1 & V2 & V3).
  destruct (getter_value ll i k w) as [G1 G2]. rewrite V3 in G2.
  unfold bind. destruct (getter ll i k w) as [w' r]; cbn in *. subst. now destruct ll.
Qed.

Lemma score_from_scratch : memoryless U -> forall (w : state) m preds i, preds <> [] ->
  snd (score m preds i w) = snd (score m preds i (forgotten w i)).
Proof.
  intros Mm w m preds i Hp.
  assert (Ee : env (forgotten w i) i = env w i) by reflexivity.
  assert (Sn : forall k, seen (forgotten w i) i k = seen w i k).
  { intros k. unfold seen, forgotten. cbn. rewrite upd_eq. now destruct (hnds w i k). }
  assert (X : forall ll acc,
     snd (sum_over preds (getter ll i) acc w) = snd (sum_over preds (getter ll i) acc (forgotten w i))
     /\ forall x, snd (sum_over preds (getter ll i) acc w) = Ok x ->
        env (fst (sum_over preds (getter ll i) acc w)) i
          = env (fst (sum_over preds (getter ll i) acc (forgotten w i))) i
        /\ cache (fst (sum_over preds (getter ll i) acc w)) i
          = cache (fst (sum_over preds (getter ll i) acc (forgotten w i))) i).
  { intros ll acc. destruct (on_use U (env w i) (c0 U)) as [c [x|]] eqn:Ec.
    - destruct preds as [|k preds]; [now elim Hp|].
      rewrite (sum_raises Mm ll i k preds acc w c x Ec).
      rewrite <- Ee in Ec. rewrite (sum_raises Mm ll i k preds acc _ c x Ec).
      split; [reflexivity|discriminate].
    - destruct (sum_value Mm ll i preds acc w c Ec) as [A1 A2].
      rewrite <- Ee in Ec. destruct (sum_value Mm ll i preds acc (forgotten w i) c Ec) as [B1 B2].
      cbn zeta in *. assert (E : snd (sum_over preds (getter ll i) acc w)
         = snd (sum_over preds (getter ll i) acc (forgotten w i))).
      { rewrite A1, B1, Ee. f_equal. apply map_ext. intros. now rewrite Sn. }
      split; [exact E|]. intros x Hx. destruct (A2 x Hx Hp) as [-> ->].
      rewrite E in Hx. destruct (B2 x Hx Hp) as [-> ->]. split; [|reflexivity]. now rewrite Ee. }
  destruct m; cbn [score].
  - apply (X false).
  - apply (X true).
  - destruct (X true (ofZ N 0)) as [X1 X2]. change (getter true i) with (log_like (U:=U) i) in X1, X2. unfold bind.
    destruct (sum_over preds (log_like i) (ofZ N 0) w) as [w1 [x|e]];
    destruct (sum_over preds (log_like i) (ofZ N 0) (forgotten w i)) as [w2 [y|e2]];
    cbn in *; try discriminate.
    + injection X1 as ->. destruct (X2 y eq_refl) as [-> ->]. reflexivity.
    + congruence.
Qed.

(** One evaluation calls the hook once, with the current values. *)
Lemma evaluation_uses_hook : forall (w : state) i k t, snd (chisqr i k w) = Ok t ->
  exists c h, on_use U (env w i) (cache w i) = (c, None)
    /\ cache (fst (chisqr i k w)) i = c
    /\ hnds (fst (chisqr i k w)) i k = Some h
    /\ option_map o_elems (h_prdxns h)
       = Some (predictions (env w i) c (o_elems (fst (fst (seen w i k))))).
Proof.
  intros w i k t H. unfold chisqr in *. destruct (wssr_run i k w) as (w' & K).
  destruct (on_use U _ _) as [c e]. destruct K as (E & A & _ & P). rewrite E in *. cbn [fst snd] in *.
  destruct e as [x|]; [discriminate|]. destruct (P eq_refl) as (h & P1 & P2).
  exists c, h. split; [reflexivity|]. split; [rewrite A; apply upd_eq|]. split; [exact P1|].
  rewrite P2. cbn. unfold pred_obj, predictions. now destruct (signals _ _ _ _).
Qed.
End Gen.

(** ** Over the real numbers *)
Open Scope R_scope.
Section Real.
Context {U : user numR}.
Notation state := (world numR U).

Lemma total_acc : forall (l : list R) a,
  fold_left Rplus l a = a + Rsum l.
Proof.
  induction l as [|x l IH]; intros a; cbn; [lra|]. rewrite IH. unfold Rsum. cbn. lra.
Qed.
Lemma total_Rsum : forall l : list numR, total l = Rsum l.
Proof. intros l. unfold total. cbn. rewrite total_acc. lra. Qed.

Lemma bc_equal : forall (f : numR -> numR -> numR) (x y : obj numR), o_kind x = NdArray ->
  length (o_elems x) = length (o_elems y) ->
  bc (N := numR) f x y = Ok (Obj (N := numR) NdArray (map (fun p => f (fst p) (snd p)) (combine (o_elems x) (o_elems y)))).
Proof.
  intros f [kx lx] [ky ly] K L. cbn in *. subst kx. unfold bc. cbn [o_kind o_elems].
  destruct lx as [|a [|a' l]]; destruct ly as [|b [|b' m]]; try discriminate; try reflexivity.
  cbn [length] in L. 
  assert (L2 : length l = length m) by lia. cbn. rewrite L2, Nat.eqb_refl. reflexivity.
Qed.

Lemma chi2_sum : forall vs qs ss : list R,
  Rsum (map (fun x => x * x) (map (fun p => fst p / snd p)
    (combine (map (fun p => fst p - snd p) (combine vs qs)) ss))) = chi2 vs qs ss.
Proof.
  induction vs as [|v vs IH]; intros qs ss; [reflexivity|].
  destruct qs as [|q qs]; [reflexivity|]. destruct ss as [|s ss]; [reflexivity|].
  cbn. unfold Rsum in *. rewrite IH. lra.
Qed.

Lemma stat_R : forall e c d, regular e c d -> stat (N := numR) (U := U) e c d = Ok (chi2_of e c d).
Proof.
  intros e c [[x v] s] (Kv & Ls & Lp). unfold stat, chi2_of.
  assert (P : o_elems (pred_obj e c (o_elems x)) = predictions e c (o_elems x)).
  { unfold pred_obj, predictions. now destruct (signals U e c (o_elems x)). }
  rewrite bc_equal; [|exact Kv|now rewrite P]. rewrite P.
  rewrite bc_equal; [|reflexivity|]; cbn [o_elems].
  - f_equal. rewrite total_Rsum. apply chi2_sum.
  - rewrite map_length, combine_length. lia.
Qed.

Lemma chisqr_R : forall (w : state) i k c, on_use U (env w i) (cache w i) = (c, None) ->
  regular (env w i) c (seen w i k) ->
  snd (chisqr i k w) = Ok (chi2_of (env w i) c (seen w i k))
  /\ snd (log_like i k w) = Ok (- (1/2) * chi2_of (env w i) c (seen w i k)).
Proof.
  intros w i k c Hc R. pose proof (wssr_value i k w) as V. cbn zeta in V. rewrite Hc in V.
  destruct V as (_ & _ & V). rewrite stat_R in V by exact R. split; [exact V|].
  destruct (getter_value true i k w) as [_ G]. cbn [getter adj] in G. rewrite G, V.
  cbn. f_equal. lra.
Qed.

Lemma chi2_nonneg : forall vs qs ss, 0 <= chi2 vs qs ss.
Proof.
  induction vs as [|v vs IH]; intros [|q qs] [|s ss]; cbn; try lra.
  specialize (IH qs ss). pose proof (pow2_ge_0 ((v - q) / s)). cbn in H. lra.
Qed.
Lemma chi2_zero : forall vs qs ss, length qs = length vs -> length ss = length vs ->
  Forall (fun s => s <> 0) ss -> (chi2 vs qs ss = 0 <-> qs = vs).
Proof.
  induction vs as [|v vs IH]; intros [|q qs] [|s ss] L1 L2 F; try discriminate.
  - cbn. tauto.
  - injection L1 as L1. injection L2 as L2. inversion F as [|? ? Hs F']; subst.
    cbn [chi2]. pose proof (chi2_nonneg vs qs ss) as Hn.
    pose proof (pow2_ge_0 ((v - q) / s)) as Hp.
    split.
    + intros E. assert (E1 : ((v - q) / s) ^ 2 = 0) by lra. assert (E2 : chi2 vs qs ss = 0) by lra.
      apply IH in E2; auto. subst. f_equal.
      assert (E3 : (v - q) / s = 0).
      { destruct (Req_dec ((v - q) / s) 0) as [E9|E9]; [exact E9|]. exfalso.
        apply (pow_nonzero _ 2 E9). exact E1. }
      assert (v - q = 0); [|lra]. replace (v - q) with ((v - q) / s * s) by (field; exact Hs).
      rewrite E3. ring.
    + intros E. injection E as -> ->. replace (v - v) with 0 by ring.
      assert (E2 : chi2 vs vs ss = 0) by (apply IH; auto). rewrite E2. unfold Rdiv. rewrite Rmult_0_l.
      cbn. lra.
Qed.

Lemma stats_R : forall ll e c ds acc, Forall (regular e c) ds ->
  stats (N := numR) (U := U) (adj ll) e c ds acc
  = Ok (acc + (if ll then - (1/2) else 1) * Rsum (map (chi2_of e c) ds)).
Proof.
  intros ll e c ds. induction ds as [|d ds IH]; intros acc F; cbn [stats map].
  - f_equal. unfold Rsum. cbn. lra.
  - inversion F; subst. rewrite stat_R by assumption.
    destruct ll; cbn [adj half]; rewrite IH by assumption; f_equal; unfold Rsum; cbn; lra.
Qed.

Lemma score_R : memoryless U -> forall (w : state) m preds i c,
  on_use U (env w i) (c0 U) = (c, None) -> preds <> [] ->
  Forall (fun k => regular (env w i) c (seen w i k)) preds ->
  snd (score m preds i w) = Ok (
    let t := Rsum (map (fun k => chi2_of (env w i) c (seen w i k)) preds) in
    match m with
    | ChisqrInference => t
    | MaxLikeInference => - (1/2) * t
    | BayesianInference => - (1/2) * t + log_prior U (env w i) c
    end).
Proof.
  intros Mm w m preds i c Hc Hp F.
  assert (F' : Forall (regular (env w i) c) (map (seen w i) preds)).
  { clear Hp. induction F; constructor; auto. }
  assert (X : forall ll, snd (sum_over preds (getter ll i) (0%R : numR) w)
     = Ok (0 + (if ll then - (1/2) else 1) * Rsum (map (chi2_of (env w i) c) (map (seen w i) preds)))).
  { intros ll. destruct (sum_value Mm ll i preds (0%R : numR) w c Hc) as [A _]. cbn zeta in A.
    rewrite A. now apply stats_R. }
  rewrite map_map in X.
  pose proof (X false) as X0. pose proof (X true) as X1. clear X.
  change (getter false i) with (chisqr (U:=U) i) in X0. change (getter true i) with (log_like (U:=U) i) in X1.
  destruct m; cbn [score].
  - etransitivity; [exact X0|]. f_equal. cbn zeta. lra.
  - etransitivity; [exact X1|]. f_equal. cbn zeta. lra.
  - destruct (sum_value Mm true i preds (0%R : numR) w c Hc) as [_ B].
    cbn zeta in B. change (getter true i) with (log_like (U:=U) i) in B. unfold bind, get.
    specialize (B _ X1 Hp). change (ofZ numR 0) with (0%R : numR).
    destruct (sum_over preds (log_like i) (0%R : numR) w) as [w1 r]. cbn [fst snd] in *. subst r.
    destruct B as [-> ->]. cbn. f_equal. lra.
Qed.

(** The likelihood score is minus half the chi-square score, for any hook and
    any data. *)
Lemma half_sum : forall preds i (w : state) (a : numR), let x := sum_over preds (chisqr i) a w in
  fst (sum_over preds (log_like i) (- (1/2) * a : numR) w) = fst x
  /\ snd (sum_over preds (log_like i) (- (1/2) * a : numR) w)
     = match snd x with Ok t => Ok (- (1/2) * t) | Err e => Err e end.
Proof.
  induction preds as [|k preds IH]; intros i w a; cbn [sum_over]; [split; reflexivity|].
  cbn zeta. unfold bind. unfold log_like at 1 3. change (chisqr i k w) with (wssr i k w). unfold bind, ret.
  destruct (wssr i k w) as [w' [t|e]]; [|split; reflexivity].
  specialize (IH i w' (a + t)). cbn zeta in *. unfold ret.
  change (PieModel.add numR) with Rplus in *. change (mul numR) with Rmult. cbn [div ofZ numR].
  replace (- (1 / 2) * a + -1 / 2 * t) with (- (1/2) * (a + t)) by lra. exact IH.
Qed.
Lemma like_is_half : forall (w : state) preds i x,
  snd (score ChisqrInference preds i w) = Ok x ->
  snd (score MaxLikeInference preds i w) = Ok (- (1/2) * x).
Proof.
  intros w preds i x H. cbn [score] in *. cbn [ofZ numR] in *.
  destruct (half_sum preds i w (0%R : numR)) as [_ E]. rewrite H in E.
  now replace (- (1/2) * 0) with 0 in E by lra.
Qed.
End Real.

Lemma same_optimum : forall (U : user numR) (w w' : world numR U) preds i (x x' : R),
  snd (score ChisqrInference preds i w) = Ok (x : numR) ->
  snd (score ChisqrInference preds i w') = Ok (x' : numR) ->
  exists y y' : R, snd (score MaxLikeInference preds i w) = Ok (y : numR)
    /\ snd (score MaxLikeInference preds i w') = Ok (y' : numR)
    /\ (x <= x' <-> y >= y')%R.
Proof.
  intros U w w' preds i x x' H H'. apply like_is_half in H. apply like_is_half in H'.
  eexists _, _. split; [exact H|]. split; [exact H'|]. lra.
Qed.

Lemma chisqr_nonneg : forall (U : user numR) (w : world numR U) i k c (t : R),
  on_use U (env w i) (cache w i) = (c, None) -> regular (env w i) c (seen w i k) ->
  snd (chisqr i k w) = Ok (t : numR) -> (0 <= t)%R.
Proof.
  intros U w i k c t Hc R E. destruct (chisqr_R w i k c Hc R) as [E' _].
  rewrite E in E'. injection E' as ->. destruct (seen w i k) as [[x v] s]. apply chi2_nonneg.
Qed.
Lemma chisqr_zero : forall (U : user numR) (w : world numR U) i k c (t : R) x v s,
  on_use U (env w i) (cache w i) = (c, None) -> seen w i k = (x, v, s) -> regular (env w i) c (x, v, s) ->
  Forall (fun u => u <> 0%R) (o_elems s) ->
  snd (chisqr i k w) = Ok (t : numR) ->
  (t = 0%R <-> predictions (env w i) c (o_elems x) = o_elems v).
Proof.
  intros U w i k c t x v s Hc Es R F E. rewrite <- Es in R. destruct (chisqr_R w i k c Hc R) as [E' _].
  rewrite E in E'. injection E' as ->. rewrite Es in *. destruct R as (_ & L1 & L2).
  cbn [chi2_of]. apply chi2_zero; assumption.
Qed.

(** Reading all parameters and writing them back. *)

From Coq Require Import ZArith List Bool Arith Lia.
From Verif Require Import Exn PieModel PieSpec PieLemmas PieLemmas2 PieGridModel PieGridSpec
  PieGridLemmas PieGridLemmas2 PieExact.
Import ListNotations.
Open Scope exn_scope.

Section Gen.
Context {N : num}.
Notation state := (st N).

(** s' is s but for the value v of p. *)
Record revalued (s : state) (p : nat) (v : N) (s' : state) : Prop := {
  rv_inv : Inv s';
  rv_ps : forall q, ps s' q = upd (ps s) p (with_value v (ps s p)) q;
  rv_f : fixedl s' = fixedl s;
  rv_v : varyl s' = varyl s;
  rv_s : stepl s' = stepl s;
  rv_i : forall q, info s' q = info s q
}.

Lemma move_same : forall l p x this, move l p x x this = l.
Proof. intros. unfold move. destruct x, this; reflexivity. Qed.

Lemma chg_same : forall (s s1 : state) p h x s', at_handler s s1 p h -> chg s1 p x s' ->
  p_status h = x -> x <> Stepping -> x <> Undef ->
  (forall q, ps s' q = upd (ps s) p h q) /\ fixedl s' = fixedl s /\ varyl s' = varyl s
  /\ stepl s' = stepl s /\ (forall q, info s' q = info s q).
Proof.
  intros s s1 p h x s' A C E Hx Hu.
  assert (Es : p_status (ps s1 p) = x) by now rewrite (ah_p _ _ _ _ A).
  destruct C as [Cp Cf Cv Cs Ci]. rewrite Es in *.
  assert (Hi : involves x x = false) by (destruct x; auto; congruence).
  split; [|split; [|split; [|split]]].
  - intros q. rewrite Cp, Hi. cbn. unfold base, upd.
    destruct (Nat.eqb_spec q p) as [->|].
    + rewrite (ah_p _ _ _ _ A). destruct h; cbn in *; subst; reflexivity.
    + now apply A.
  - rewrite Cf, move_same. apply A.
  - rewrite Cv, move_same. apply A.
  - rewrite Cs, move_same. apply A.
  - intros q. rewrite Ci, Hi. cbn. rewrite (ah_i _ _ _ _ A). reflexivity.
Qed.

Lemma set_one : forall dflt p v (s : state) pv, Inv s ->
  p_status (ps s p) = Fixed \/ p_status (ps s p) = Varying ->
  pv p = Some v -> (forall b, p_bnd (ps s p) = Some b -> within v b = true) ->
  exists s',
   (access dflt p;;;
    h <- hnd p;;
    match p_status h with
    | Fixed => v <- attr AttributeError (pv p);; fix_ p (Some v)
    | Varying => v <- attr AttributeError (pv p);; vary p (Some v) None None
    | _ => raise ParamError
    end) s = (s', Ok tt) /\ revalued s p v s'.
Proof.
  intros dflt p v s pv I Hst Hv Hb.
  assert (D : defined s p) by (unfold defined; destruct Hst; congruence).
  rewrite (bind_ok _ _ _ _ _ _ _ _ (access_defined dflt p s I D)).
  unfold bind at 1, hnd. destruct Hst as [E|E]; rewrite E, Hv;
    unfold bind, attr, ret.
  - destruct (fix_exact p (Some v) s I D) as [[K _]|[K (s1 & s' & F & I' & P & A & C)]].
    { destruct (p_bnd (ps s p)) as [b|]; [|discriminate]. now rewrite (Hb b) in K. }
    exists s'. split; [exact F|].
    destruct (chg_same s s1 p _ Fixed s' A C) as (C1 & C2 & C3 & C4 & C5); auto; try discriminate.
    now constructor.
  - pose proof (iv_h s I p) as Hp. destruct (ho_vary _ Hp E) as [V1 V2].
    destruct (p_bnd (ps s p)) as [b|] eqn:Eb; [|now elim V1].
    destruct (vary_exact p (Some v) None s b I D Eb (fun _ => V2))
      as (s1 & s' & I' & A & C & P & F).
    rewrite (Hb b eq_refl) in F. eexists. split; [exact F|].
    destruct (chg_same s s1 p _ Varying s' A C) as (C1 & C2 & C3 & C4 & C5); auto; try discriminate.
    assert (Ep : forall q, ps s' q = ps s q).
    { intros q. rewrite C1. unfold upd. destruct (Nat.eqb_spec q p); congruence. }
    constructor; auto.
    + destruct I' as [L H]. constructor.
      * apply lists_log, lists_upd; auto.
      * intros q. cbn. unfold upd. destruct (Nat.eqb_spec q p) as [->|]; [|apply H].
        apply hok_value; auto. rewrite Ep. exact D.
    + intros q. cbn. unfold upd. destruct (Nat.eqb_spec q p); congruence.
Qed.

Lemma set_params_ok : forall dflt (pv : nat -> option N) names (s : state), Inv s ->
  (forall p, In p names -> p_status (ps s p) = Fixed \/ p_status (ps s p) = Varying) ->
  (forall p, In p names -> exists v, pv p = Some v
     /\ forall b, p_bnd (ps s p) = Some b -> within v b = true) ->
  exists s', set_params dflt names pv s = (s', Ok tt) /\ Inv s'
    /\ fixedl s' = fixedl s /\ varyl s' = varyl s /\ stepl s' = stepl s
    /\ (forall q, info s' q = info s q)
    /\ (forall q, ~ In q names -> ps s' q = ps s q)
    /\ (forall q v, In q names -> pv q = Some v -> ps s' q = with_value v (ps s q)).
Proof.
  intros dflt pv. induction names as [|p names IH]; intros s I Hst Hv.
  { exists s. cbn. unfold ret. do 6 (split; [auto|]). easy. }
  destruct (Hv p (or_introl eq_refl)) as (v & Ev & Hb).
  destruct (set_one dflt p v s pv I (Hst p (or_introl eq_refl)) Ev Hb) as (s1 & E1 & R).
  unfold set_params in *. cbn [for_each]. rewrite (bind_ok _ _ _ _ _ _ _ _ E1).
  assert (St1 : forall q, p_status (ps s1 q) = p_status (ps s q)).
  { intros q. rewrite (rv_ps _ _ _ _ R). unfold upd. destruct (Nat.eqb_spec q p); [now subst|auto]. }
  assert (B1 : forall q, p_bnd (ps s1 q) = p_bnd (ps s q)).
  { intros q. rewrite (rv_ps _ _ _ _ R). unfold upd. destruct (Nat.eqb_spec q p); [now subst|auto]. }
  destruct (IH s1) as (s' & E & I' & L1 & L2 & L3 & L4 & O & V).
  - apply R.
  - intros q Hq. rewrite St1. apply Hst. now right.
  - intros q Hq. rewrite B1. apply Hv. now right.
  - exists s'. split; [exact E|]. split; [exact I'|].
    rewrite L1, L2, L3, (rv_f _ _ _ _ R), (rv_v _ _ _ _ R), (rv_s _ _ _ _ R).
    do 3 (split; [reflexivity|]). split; [intros q; now rewrite L4, (rv_i _ _ _ _ R)|]. split.
    + intros q Hq. rewrite O by (intros K; apply Hq; now right).
      rewrite (rv_ps _ _ _ _ R). apply upd_other. intros ->. apply Hq. now left.
    + intros q w Hq Ew.
      destruct (in_dec Nat.eq_dec q names) as [Hi|Hi].
      * rewrite (V q w Hi Ew), (rv_ps _ _ _ _ R). unfold upd.
        destruct (Nat.eqb_spec q p) as [->|]; reflexivity.
      * destruct Hq as [->|Hq]; [|contradiction]. rewrite O by assumption.
        rewrite (rv_ps _ _ _ _ R), upd_same. congruence.
Qed.

Lemma get_params_ok : forall dflt names (s : state), Inv s ->
  (forall p, In p names -> defined s p) ->
  exists l, get_params dflt names s = (s, Ok l) /\ map fst l = names
    /\ (forall p v, In (p, v) l -> p_value (ps s p) = Some v).
Proof.
  intros dflt. induction names as [|p names IH]; intros s I D.
  { exists []. split; [reflexivity|]. split; [reflexivity|easy]. }
  cbn [get_params]. assert (Dp : defined s p) by (apply D; now left).
  rewrite (bind_ok _ _ _ _ _ _ _ _ (access_defined dflt p s I Dp)).
  unfold bind at 1, hnd.
  destruct (p_value (ps s p)) as [v|] eqn:Ev.
  2:{ exfalso. now apply (ho_val _ (iv_h s I p) Dp). }
  destruct (IH s I) as (l & E & F & G). { intros q Hq. apply D. now right. }
  unfold bind at 1, attr, ret at 1.
  rewrite (bind_ok _ _ _ _ _ _ _ _ E). exists ((p, v) :: l).
  split; [reflexivity|]. split; [cbn; now rewrite F|].
  intros q w [K|K]; [congruence|now apply G].
Qed.
End Gen.

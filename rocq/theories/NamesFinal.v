(** Bridges from the lemmas on names to the property theorems. *)

From Coq Require Import List Bool Arith Ascii Sorting.Sorted Permutation Lia.
From Verif Require Import Exn NamesModel NamesSpec NamesLemmas NamesLemmas2.
Import ListNotations.

Section F.
Variable source : nat -> option (list text).

Lemma order : forall w s p src psrc, reachable w ->
  sourced source w Params s src -> sourced source w Params p psrc -> sourced source w Preds p psrc ->
  lookup Preds w p <> None ->
  (forall n, In n (names_of Params w s) -> ~ In n (names_of Params w p)) ->
  exists w' a preds o po, init source (Some s) (Some p) w = (w', Ok (a, preds))
    /\ lists w' a = o ++ po /\ source_order src (names_of Params w s) o
    /\ source_order psrc (names_of Params w p) po /\ source_order psrc (names_of Preds w p) preds.
Proof. intros w s p src psrc R. apply init_order. apply reachable_inv, R. Qed.

Lemma dropped : forall w s p src psrc, reachable w ->
  source s = Some src -> NoDup (names_of Params w s) -> Forall identifier (names_of Params w s) ->
  Exists (fun n => ~ declared n src) (names_of Params w s) ->
  sourced source w Params p psrc -> sourced source w Preds p psrc -> lookup Preds w p <> None ->
  exists w' a preds po, init source (Some s) (Some p) w = (w', Ok (a, preds))
    /\ lists w' a = po /\ source_order psrc (names_of Params w p) po.
Proof. intros w s p src psrc R. apply init_missing. apply reachable_inv, R. Qed.

Lemma any_dict_order : forall w1 w2 s p src psrc w1' w2' a1 a2 q1 q2,
  reachable w1 -> reachable w2 ->
  sourced source w1 Params s src -> sourced source w1 Params p psrc -> sourced source w1 Preds p psrc ->
  sourced source w2 Params s src -> sourced source w2 Params p psrc -> sourced source w2 Preds p psrc ->
  Permutation (names_of Params w1 s) (names_of Params w2 s) ->
  Permutation (names_of Params w1 p) (names_of Params w2 p) ->
  Permutation (names_of Preds w1 p) (names_of Preds w2 p) ->
  (forall n, In n (names_of Params w1 s) -> ~ In n (names_of Params w1 p)) ->
  init source (Some s) (Some p) w1 = (w1', Ok (a1, q1)) ->
  init source (Some s) (Some p) w2 = (w2', Ok (a2, q2)) ->
  lists w1' a1 = lists w2' a2 /\ q1 = q2.
Proof.
  intros w1 w2 s p src psrc w1' w2' a1 a2 q1 q2 R1 R2 A1 B1 C1 A2 B2 C2 Ps Pp Pr Dj E1 E2.
  assert (L1 : lookup Preds w1 p <> None \/ lookup Preds w1 p = None) by (destruct (lookup Preds w1 p); [left; discriminate|auto]).
  assert (Nn : forall w, source p = Some psrc -> lookup Preds w p = None ->
    sourced source w Params p psrc -> forall po pr, get_pred_names source (Some p) w = Ok (po, pr) -> False).
  { intros w Es Hn (_ & Nd & Id & De) po pr H. unfold get_pred_names, unordered_pred_names in H.
    rewrite Es, Hn in H. clear - H. destruct (lookup Params w p) as [a|]; [|discriminate].
    destruct (lists w a) as [|n l]; [discriminate|].
    destruct (collect psrc (n :: l) []) as [[[|m l3] o]|]; discriminate. }
  assert (Ex : forall w w' a q, reachable w -> source p = Some psrc -> sourced source w Params p psrc ->
     sourced source w Params s src -> init source (Some s) (Some p) w = (w', Ok (a, q)) -> lookup Preds w p <> None).
  { intros w w' a q R Es Sp Ss H Hn. destruct (reachable_inv w R) as [B _ _].
    destruct (signal_found source w s src Ss) as (w3 & b & o & X1 & X2 & X3 & X4 & X5 & _).
    unfold init, bind, get, modify in H. rewrite X1 in H. rewrite (get_pred_same source w w3) in H by auto.
    destruct (get_pred_names source (Some p) w) as [[po pr]|e] eqn:Eg; [|discriminate].
    eapply Nn; eauto. }
  assert (Esp : source p = Some psrc) by apply B1.
  assert (Dj2 : forall n, In n (names_of Params w2 s) -> ~ In n (names_of Params w2 p)).
  { intros n H1 H2. apply (Dj n).
    - exact (Permutation_in n (Permutation_sym Ps) H1).
    - exact (Permutation_in n (Permutation_sym Pp) H2). }
  destruct (order w1 s p src psrc R1 A1 B1 C1 (Ex w1 _ _ _ R1 Esp B1 A1 E1) Dj)
    as (v1 & b1 & r1 & o1 & po1 & F1 & G1 & O1 & P1 & Q1).
  destruct (order w2 s p src psrc R2 A2 B2 C2 (Ex w2 _ _ _ R2 Esp B2 A2 E2) Dj2)
    as (v2 & b2 & r2 & o2 & po2 & F2 & G2 & O2 & P2 & Q2).
  rewrite E1 in F1. injection F1 as <- <- <-. rewrite E2 in F2. injection F2 as <- <- <-.
  rewrite G1, G2. split.
  - rewrite (source_order_unique _ _ _ _ _ Ps O1 O2). f_equal. exact (source_order_unique _ _ _ _ _ Pp P1 P2).
  - exact (source_order_unique _ _ _ _ _ Pr Q1 Q2).
Qed.

Lemma instances_keep : forall w sig pred, reachable w ->
  (forall s, sig = Some s -> source s <> None) ->
  forall f c, names_of f (fst (init source sig pred w)) c = names_of f w c.
Proof. intros w sig pred R H. apply init_keeps; auto. apply reachable_inv, R. Qed.
End F.

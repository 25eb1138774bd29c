From Coq Require Import ZArith String List Bool Arith Lia.
From Verif Require Import Exn McModel IoModel IoSpec.
Import ListNotations.
Open Scope string_scope.

(** ** Strings *)
Lemma app_len : forall a b, String.length (a ++ b) = String.length a + String.length b.
Proof. induction a as [|x a IH]; intro b; cbn; [reflexivity|]. now rewrite IH. Qed.
Lemma app_assoc' : forall a b c, (a ++ b) ++ c = a ++ (b ++ c).
Proof. induction a as [|x a IH]; intros b c; cbn; [reflexivity|]. now rewrite IH. Qed.
Lemma app_inj : forall a b c, a ++ b = a ++ c -> b = c.
Proof. induction a as [|x a IH]; intros b c H; cbn in H; [exact H|]. injection H as H. now apply IH. Qed.
Lemma app_nil' : forall a, a ++ "" = a.
Proof. induction a as [|x a IH]; cbn; [reflexivity|]. now rewrite IH. Qed.
Lemma suffix_neq : forall f a b, a <> b -> f ++ a <> f ++ b.
Proof. intros f a b H E. apply H. now apply (app_inj f). Qed.
Lemma self_neq : forall f b, b <> "" -> f <> f ++ b.
Proof. intros f b H E. apply H. apply (app_inj f). now rewrite app_nil'. Qed.
Lemma substring_app : forall a b, substring (String.length a) (String.length b) (a ++ b) = b.
Proof.
  induction a as [|x a IH]; intro b; cbn.
  - induction b as [|y b IH]; cbn; [reflexivity|]. now rewrite IH.
  - apply IH.
Qed.
Lemma ends_app : forall a b, ends_with (a ++ b) b = true.
Proof.
  intros a b. unfold ends_with. rewrite app_len. replace (String.length a + String.length b - String.length b) with (String.length a) by lia.
  rewrite substring_app. apply String.eqb_refl.
Qed.
Lemma two_percent : forall f, (f ++ "%") ++ "%" = f ++ "%%".
Proof. intro f. now rewrite app_assoc'. Qed.

(** ** Dictionaries *)
Lemma lookup_store : forall V n (v : V) d n', lookup n' (store_at n v d) = if String.eqb n n' then Some v else lookup n' d.
Proof.
  intros V n v d n'. induction d as [|[a w] d IH]; cbn.
  - destruct (String.eqb n n'); reflexivity.
  - destruct (String.eqb a n) eqn:E; cbn.
    + apply String.eqb_eq in E. subst a. destruct (String.eqb n n'); reflexivity.
    + destruct (String.eqb a n') eqn:E2; [|exact IH].
      apply String.eqb_eq in E2. subst a. rewrite (proj2 (String.eqb_neq n n')); [reflexivity|]. intro Q. subst n'. now rewrite String.eqb_refl in E.
Qed.
Lemma store_keys : forall V n (v : V) d, NoDup (map fst d) -> NoDup (map fst (store_at n v d)).
Proof.
  intros V n v d. assert (K : forall x, In x (map fst (store_at n v d)) -> x = n \/ In x (map fst d)).
  { intro x. induction d as [|[a w] d IH]; cbn; [intros [Q|[]]; now left|]. destruct (String.eqb a n); cbn; [intro Q; now right|]. intros [Q|Q]; [right; now left|]. destruct (IH Q) as [R|R]; [now left|right; now right]. }
  induction d as [|[a w] d IH]; cbn in *; intro N; [constructor; [intros []|constructor]|].
  destruct (String.eqb a n) eqn:E; cbn; [exact N|]. inversion N as [|? ? N1 N2]; subst. constructor; [|].
  - intro Q. apply String.eqb_neq in E. assert (Q2 : a = n \/ In a (map fst d)).
    { clear - Q. induction d as [|[b w2] d IH]; cbn in Q |- *; [destruct Q as [Q|[]]; now left|]. destruct (String.eqb b n); cbn in Q; [destruct Q as [Q|Q]; right; [now left|now right]|]. destruct Q as [Q|Q]; [right; now left|]. destruct (IH Q) as [R|R]; [now left|right; now right]. }
    destruct Q2 as [Q2|Q2]; [exact (E Q2)|exact (N1 Q2)].
  - apply IH; [|exact N2]. intros x Hx. clear - Hx. induction d as [|[b w2] d IH]; cbn in Hx |- *; [destruct Hx as [Q|[]]; now left|]. destruct (String.eqb b n); cbn in Hx; [now right|]. destruct Hx as [Q|Q]; [right; now left|]. destruct (IH Q) as [R|R]; [now left|right; now right].
Qed.
Lemma lookup_in : forall V n (d : dict V) v, lookup n d = Some v -> In (n, v) d.
Proof.
  intros V n d v. induction d as [|[a w] d IH]; cbn; [discriminate|]. destruct (String.eqb a n) eqn:E; intro H; [|right; now apply IH].
  apply String.eqb_eq in E. injection H as ->. subst a. now left.
Qed.
Lemma in_lookup : forall V n (d : dict V) v, NoDup (map fst d) -> In (n, v) d -> lookup n d = Some v.
Proof.
  intros V n d v. induction d as [|[a w] d IH]; cbn; intros N H; [destruct H|]. inversion N as [|? ? N1 N2]; subst. destruct H as [H|H].
  - injection H as -> ->. now rewrite String.eqb_refl.
  - destruct (String.eqb a n) eqn:E; [|now apply IH]. apply String.eqb_eq in E. subst a. exfalso. apply N1. change n with (fst (n, v)). now apply in_map.
Qed.
Lemma lookup_fold : forall V (l d : dict V) n, NoDup (map fst l) ->
  lookup n (fold_left (fun a nv => store_at (fst nv) (snd nv) a) l d) = match lookup n l with Some v => Some v | None => lookup n d end.
Proof.
  intros V l. induction l as [|[a w] l IH]; intros d n N; cbn; [reflexivity|]. inversion N as [|? ? N1 N2]; subst. rewrite (IH _ _ N2), lookup_store.
  destruct (String.eqb a n) eqn:E; [|reflexivity]. apply String.eqb_eq in E. subst a. destruct (lookup n l) as [v|] eqn:L; [|reflexivity].
  exfalso. apply N1. change n with (fst (n, v)). apply in_map. now apply lookup_in.
Qed.
Lemma keys_fold : forall V (l d : dict V), NoDup (map fst d) -> NoDup (map fst (fold_left (fun a nv => store_at (fst nv) (snd nv) a) l d)).
Proof. intros V l. induction l as [|[a w] l IH]; intros d N; cbn; [exact N|]. apply IH. now apply store_keys. Qed.
Lemma lookup_fold_but : forall V (p l d : dict V) n, NoDup (map fst l) ->
  lookup n (fold_left (fun a nv => if has (fst nv) p then a else store_at (fst nv) (snd nv) a) l d) =
  if has n p then lookup n d else match lookup n l with Some v => Some v | None => lookup n d end.
Proof.
  intros V p l. induction l as [|[a w] l IH]; intros d n N; cbn; [now destruct (has n p)|]. inversion N as [|? ? N1 N2]; subst.
  destruct (String.eqb a n) eqn:E.
  - apply String.eqb_eq in E. subst a. assert (L : lookup n l = None).
    { destruct (lookup n l) as [v|] eqn:L; [|reflexivity]. exfalso. apply N1. change n with (fst (n, v)). apply in_map. now apply lookup_in. }
    rewrite (IH _ _ N2), L. destruct (has n p) eqn:P; [reflexivity|]. now rewrite lookup_store, String.eqb_refl.
  - rewrite (IH _ _ N2). destruct (has a p); [reflexivity|]. rewrite lookup_store, E. reflexivity.
Qed.
Lemma keys_fold_but : forall V (p l d : dict V), NoDup (map fst d) -> NoDup (map fst (fold_left (fun a nv => if has (fst nv) p then a else store_at (fst nv) (snd nv) a) l d)).
Proof. intros V p l. induction l as [|[a w] l IH]; intros d N; cbn; [exact N|]. apply IH. destruct (has a p); [exact N|]. now apply store_keys. Qed.

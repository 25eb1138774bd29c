(** The list of maxima. *)

From Coq Require Import ZArith List Bool Arith Reals Permutation Sorted Lra Lia.
From Verif Require Import Exn Instances RefModel RefSpec.
Import ListNotations.
Local Open Scope R_scope.

Ltac rb := repeat match goal with
  | H : Rltb _ _ = true |- _ => apply Rltb_spec in H
  | H : Rltb _ _ = false |- _ => apply Rltb_false in H
  | H : Rleb _ _ = true |- _ => apply Rleb_spec in H
  | H : Rleb _ _ = false |- _ => apply Rleb_false in H
  | H : Reqb _ _ = true |- _ => apply Reqb_spec in H
  | H : Reqb _ _ = false |- _ => apply Reqb_false in H
  end.

Section L.
Context {L : Type}.
Implicit Type l : list (R * L).
Notation desc := (StronglySorted (fun a b : R * L => fst b <= fst a)).

Lemma desc_nth : forall l i j x y, desc l -> (i <= j)%nat ->
  nth_error l i = Some x -> nth_error l j = Some y -> fst y <= fst x.
Proof.
  induction l as [|a l IH]; intros i j x y S Hij Hi Hj.
  - destruct i; discriminate.
  - inversion S as [|? ? S' F]; subst. destruct i as [|i], j as [|j]; cbn in Hi, Hj.
    + replace y with x by congruence; lra.
    + inversion Hi; subst. rewrite Forall_forall in F. apply F. eapply nth_error_In; eauto.
    + lia.
    + apply (IH i j); auto. lia.
Qed.

Lemma bisect_spec : forall fuel q l lo hi, desc l -> (hi - lo <= fuel)%nat -> (lo <= hi <= length l)%nat ->
  (forall j x, (j < lo)%nat -> nth_error l j = Some x -> q <= fst x) ->
  (forall j x, (hi <= j)%nat -> nth_error l j = Some x -> fst x < q) ->
  exists p, bisect fuel q l lo hi = Ok p /\ (p <= length l)%nat
    /\ (forall j x, (j < p)%nat -> nth_error l j = Some x -> q <= fst x)
    /\ (forall j x, (p <= j)%nat -> nth_error l j = Some x -> fst x < q).
Proof.
  induction fuel as [|fuel IH]; intros q l lo hi S Hf Hh A B; cbn [bisect].
  - destruct (Nat.ltb lo hi) eqn:E; [apply Nat.ltb_lt in E; lia|]. apply Nat.ltb_ge in E.
    exists lo. replace hi with lo in * by lia. repeat split; auto; lia.
  - destruct (Nat.ltb lo hi) eqn:E.
    + apply Nat.ltb_lt in E. set (mid := Nat.div (lo + hi) 2).
      assert (lo <= mid < hi)%nat as Hm.
      { unfold mid. split; [apply Nat.div_le_lower_bound; lia|apply Nat.div_lt_upper_bound; lia]. }
      destruct (nth_error l mid) as [[h lab]|] eqn:En; [|apply nth_error_None in En; lia].
      destruct (Rltb h q) eqn:Eq; rb.
      * apply IH; auto; try lia. intros j x Hj Hx. pose proof (desc_nth l mid j _ _ S Hj En Hx). cbn in *. lra.
      * apply IH; auto; try lia. intros j x Hj Hx.
        pose proof (desc_nth l j mid _ _ S ltac:(lia) Hx En). cbn in *. lra.
    + apply Nat.ltb_ge in E. exists lo. replace hi with lo in * by lia. repeat split; auto; lia.
Qed.

Lemma split_at : forall l p q, (p <= length l)%nat ->
  (forall j x, (j < p)%nat -> nth_error l j = Some x -> q <= fst x) ->
  (forall j x, (p <= j)%nat -> nth_error l j = Some x -> fst x < q) ->
  exists A B, l = A ++ B /\ length A = p /\ firstn p l = A /\ skipn p l = B
    /\ (forall x, In x A -> q <= fst x) /\ (forall x, In x B -> fst x < q).
Proof.
  intros l p q Hp A B. exists (firstn p l), (skipn p l). rewrite firstn_skipn.
  assert (length (firstn p l) = p) as Hl by (rewrite firstn_length; lia). repeat split; auto.
  - intros x Hx. apply In_nth_error in Hx as [j Hj].
    assert (j < p)%nat by (rewrite <- Hl; apply nth_error_Some; congruence).
    apply (A j); auto. rewrite <- (firstn_skipn p l), nth_error_app1; auto. lia.
  - intros x Hx. apply In_nth_error in Hx as [j Hj]. apply (B (p + j)%nat); [lia|].
    rewrite <- (firstn_skipn p l), nth_error_app2 by lia. rewrite Hl. now replace (p + j - p)%nat with j by lia.
Qed.

Lemma desc_app : forall A B, desc (A ++ B) <-> desc A /\ desc B /\ (forall x y, In x A -> In y B -> fst y <= fst x).
Proof.
  induction A as [|a A IH]; intros B; cbn [app].
  - split; [intros H; repeat split; auto; [constructor|intros ? ? []]|now intros [_ [H _]]].
  - split.
    + intros H. inversion H as [|? ? H1 H2]; subst. apply IH in H1 as (D1 & D2 & D3).
      rewrite Forall_forall in H2. repeat split; auto.
      * constructor; auto. apply Forall_forall. intros x Hx. apply H2, in_or_app; auto.
      * intros x y [->|Hx] Hy; [apply H2, in_or_app; auto|auto].
    + intros (D1 & D2 & D3). inversion D1 as [|? ? H1 H2]; subst. constructor.
      * apply IH. repeat split; auto. intros x y Hx Hy. apply D3; cbn; auto.
      * apply Forall_forall. intros x Hx. rewrite Forall_forall in H2. apply in_app_or in Hx as [Hx|Hx]; auto.
        apply D3; cbn; auto.
Qed.

Lemma desc_cons : forall a B, desc (a :: B) <-> desc B /\ (forall y, In y B -> fst y <= fst a).
Proof.
  intros a B. split.
  - intros H. inversion H as [|? ? H1 H2]; subst. rewrite Forall_forall in H2. auto.
  - intros [H1 H2]. constructor; auto. now apply Forall_forall.
Qed.

(** Pruning a sorted list splits it. *)
Lemma prune_split : forall top r l, desc l -> exists out, l = prune_from top r l ++ out
  /\ (forall x, In x (prune_from top r l) -> top - fst x <= r) /\ (forall x, In x out -> r < top - fst x).
Proof.
  induction l as [|a l IH]; intros D.
  - exists []. cbn. repeat split; auto; intros ? [].
  - apply desc_cons in D as [D1 D2]. destruct (IH D1) as (out & E & K & O). cbn [prune_from].
    destruct (Rltb r (top - fst a)) eqn:Ea; rb.
    + exists (a :: l). assert (prune_from top r l = []) as E0.
      { destruct (prune_from top r l) as [|b m] eqn:Eb; auto. exfalso.
        assert (top - fst b <= r) by (apply K; left; auto).
        assert (fst b <= fst a). { apply D2. rewrite E. left; auto. } lra. }
      rewrite E0. repeat split; auto; [intros ? []|]. intros x [->|Hx]; auto. rewrite E, E0 in Hx. auto.
    + exists out. cbn [app]. repeat split; [congruence| |auto]. intros x [->|Hx]; [lra|auto].
Qed.

Lemma perm_mid : forall (x : R * L) A B h out, Permutation h ((A ++ B) ++ out) ->
  Permutation (h ++ [x]) ((A ++ x :: B) ++ out).
Proof.
  intros x A B h out P. rewrite <- app_assoc in *. cbn.
  apply Permutation_trans with (x :: h); [apply Permutation_sym, Permutation_cons_append|].
  apply Permutation_trans with (x :: (A ++ B ++ out)); [now constructor|]. apply Permutation_middle.
Qed.

(** The prune of a list none of whose head part [A] is affected, seen as a
    split of the whole list. *)
Definition dyn_ok (nmax : option nat) (dyn : option R) : Prop :=
  (forall k, nmax = Some k -> (1 <= k)%nat) /\ (forall d, dyn = Some d -> 0 < d).

Lemma update_best : forall nmax dyn h l q lab,
  dyn_ok nmax dyn -> best_of nmax dyn h l ->
  exists l', lm_update q lab (Lml nmax dyn l) = (Lml nmax dyn l', Ok tt)
    /\ best_of nmax dyn (h ++ [(q, lab)]) l'.
Proof.
  intros nmax dyn h l q lab [Hk Hd] (D & Len & Rng & out & P & Lo & Why).
  set (x := (q, lab)). unfold lm_update. cbn [lm_nmax lm_dyn lm_list].
  set (full := match nmax with Some k => Nat.eqb (length l) k | None => false end).
  assert (full = true -> nmax = Some (length l)) as Hfull.
  { unfold full. destruct nmax as [k|]; [|discriminate]. intros E. apply Nat.eqb_eq in E. congruence. }
  assert (full = true -> exists h0 lab0 pre, rev l = (h0, lab0) :: pre /\ l = rev pre ++ [(h0, lab0)]) as Hlast.
  { intros E. apply Hfull in E. destruct (rev l) as [|[h0 lab0] pre] eqn:Er.
    - assert (l = []) by (rewrite <- (rev_involutive l), Er; auto). subst l. cbn in E.
      specialize (Hk _ E). lia.
    - exists h0, lab0, pre. split; auto. rewrite <- (rev_involutive l), Er. reflexivity. }
  (* the early return *)
  assert ((full = true /\ exists h0 lab0 pre, rev l = (h0, lab0) :: pre /\ q <= h0)
       \/ (match (if full then match rev l with [] => Err IndexError | (h, _) :: _ => Ok (Rleb q h) end else Ok false)
           with Err e => False | Ok b => b = false end
           /\ (full = true -> exists b, In b l /\ (forall c, In c l -> fst b <= fst c) /\ fst b < q))) as Cases.
  { destruct full eqn:Ef; [|right; split; [reflexivity|discriminate]].
    destruct (Hlast eq_refl) as (h0 & lab0 & pre & E1 & E2). rewrite E1.
    destruct (Rleb q h0) eqn:Eq; rb.
    - left. split; auto. exists h0, lab0, pre. auto.
    - right. split; auto. intros _. exists (h0, lab0). split; [rewrite E2; apply in_or_app; cbn; auto|]. split; [|cbn; lra].
      intros c Hc. rewrite E2 in Hc, D. apply desc_app in D as (_ & _ & D3).
      apply in_app_or in Hc as [Hc|[<-|[]]]; [apply D3; cbn; auto|lra]. }
  destruct Cases as [(Ef & h0 & lab0 & pre & E1 & Hq)|[E1 Low]].
  { rewrite Ef, E1. apply Rleb_spec in Hq as Hq'. rewrite Hq'. exists l. split; [reflexivity|].
    refine (conj D (conj Len (conj Rng _))). exists (out ++ [x]). split; [|split].
    - rewrite app_assoc. now apply Permutation_app_tail.
    - intros a b Ha Hb. apply in_app_or in Ha as [Ha|[<-|[]]]; [auto|]. cbn [fst x].
      destruct (Hlast Ef) as (h1 & lab1 & pre1 & F1 & F2). rewrite E1 in F1. inversion F1; subst h1 lab1 pre1.
      rewrite F2 in Hb, D. apply desc_app in D as (_ & _ & D3).
      apply in_app_or in Hb as [Hb|[<-|[]]]; cbn; [|auto].
      specialize (D3 b (h0, lab0) Hb (or_introl eq_refl)). cbn in D3. lra.
    - intros a Ha. left. auto. }
  destruct (if full then _ else _) as [b|e]; [|easy]. subst b.
  (* the insertion *)
  destruct (bisect_spec (length l) q l 0 (length l) D) as (p & Eb & Hp & B1 & B2); try lia.
  { intros j y Hj Hy. assert (nth_error l j <> None) by congruence. apply nth_error_Some in H. lia. }
  rewrite Eb. destruct (split_at l p q Hp B1 B2) as (A & B & El & HA & F1 & F2 & QA & QB).
  assert (ins_at p x l = A ++ x :: B) as Eins by (unfold ins_at; rewrite F1, F2; auto).
  fold x. rewrite Eins. subst l.
  assert (desc (A ++ x :: B)) as D1.
  { apply desc_app in D as (DA & DB & DAB). apply desc_app. split; auto. split.
    - apply desc_cons. split; auto. intros y Hy. apply QB in Hy. cbn. lra.
    - intros a b Ha [<-|Hb]; [apply QA in Ha; cbn; lra|auto]. }
  (* the truncation *)
  set (l2 := match nmax with Some k => if Nat.ltb k (length (A ++ x :: B)) then del_at k (A ++ x :: B) else A ++ x :: B
             | None => A ++ x :: B end).
  assert (exists B2 cut, l2 = A ++ x :: B2 /\ B = B2 ++ cut /\ (forall k, nmax = Some k -> (length l2 <= k)%nat)
     /\ (cut <> [] -> nmax = Some (length l2)) /\ (full = true -> nmax = Some (length l2))) as (B2' & cut & E2 & EB & Len2 & Cut & Full2).
  { subst l2. destruct nmax as [k|].
    - specialize (Hk k eq_refl). specialize (Len k eq_refl). rewrite app_length in *. cbn [length] in *.
      destruct (Nat.ltb k (length A + S (length B))) eqn:Ek.
      + apply Nat.ltb_lt in Ek. assert (k = length A + length B)%nat as Ek' by lia.
        assert (B <> []) as NB.
        { intros ->. destruct Low as (b & Hb & _ & Hlt); [unfold full; rewrite app_length; cbn; apply Nat.eqb_eq; cbn in Ek'; lia|].
          rewrite app_nil_r in Hb. apply QA in Hb. lra. }
        destruct (exists_last NB) as (B0 & z & EB). exists B0, [z].
        assert (del_at k (A ++ x :: B) = A ++ x :: B0) as Ed.
        { unfold del_at. rewrite skipn_all2 by (rewrite app_length; cbn; lia). rewrite app_nil_r.
          subst B. rewrite app_length in Ek'. cbn in Ek'.
          replace (A ++ x :: B0 ++ [z]) with ((A ++ x :: B0) ++ [z]) by (rewrite <- app_assoc; reflexivity).
          rewrite firstn_app. replace (k - length (A ++ x :: B0))%nat with 0%nat by (rewrite app_length; cbn; lia).
          cbn [firstn]. rewrite app_nil_r. apply firstn_all2. rewrite app_length. cbn. lia. }
        rewrite Ed. assert (length (A ++ x :: B0) = k) as Hl.
        { subst B. rewrite app_length in *. cbn in *. lia. }
        repeat split; auto; intros; congruence || (inversion H; subst; lia) || idtac.
      + apply Nat.ltb_ge in Ek. exists B, []. rewrite app_nil_r. rewrite app_length. cbn [length].
        split; [reflexivity|]. split; [reflexivity|]. split; [intros k0 Hk0; inversion Hk0; lia|]. split; [congruence|].
        intros Ef. apply Hfull in Ef. inversion Ef as [Ek2]. rewrite ?app_length in *. lia.
    - exists B, []. rewrite app_nil_r. split; [reflexivity|]. split; [reflexivity|]. split; [discriminate|]. split; [congruence|].
      intros Ef. now apply Hfull in Ef. }
  clearbody l2. subst B. rename E2 into El2.
  assert (A ++ x :: B2' ++ cut = l2 ++ cut) as Eall by (rewrite El2, <- app_assoc; reflexivity).
  rewrite Eall in D1. apply desc_app in D1 as (D2 & _ & CutLo).
  assert (forall b, In b l2 -> b = x \/ In b (A ++ B2' ++ cut)) as InL.
  { intros b Hb. rewrite El2 in Hb. apply in_app_or in Hb as [Hb|[Hb|Hb]]; auto; right; apply in_or_app; auto.
    right. apply in_or_app. auto. }
  assert (Permutation (h ++ [x]) (l2 ++ (cut ++ out))) as P2.
  { rewrite app_assoc, <- Eall. now apply perm_mid. }
  assert (forall a, In a out -> full = true -> fst a < q) as Below.
  { intros a Ha Ef. destruct (Low Ef) as (b1 & I1 & _ & I2). specialize (Lo a b1 Ha I1). lra. }
  assert (nmax = Some (length (A ++ B2' ++ cut)) -> full = true) as Full1.
  { intros F. unfold full. rewrite F. apply Nat.eqb_refl. }
  (* the range *)
  destruct dyn as [d|].
  2:{ exists l2. split; [reflexivity|]. refine (conj D2 (conj Len2 (conj _ _))); [discriminate|].
      exists (cut ++ out). split; [auto|]. split.
      - intros a b Ha Hb. apply in_app_or in Ha as [Ha|Ha]; [auto|].
        destruct (InL b Hb) as [->|Hb']; [|auto]. cbn.
        destruct (Why a Ha) as [F|(d & b0 & F & _)]; [|discriminate]. apply Rlt_le. auto.
      - intros a Ha. left. apply in_app_or in Ha as [Ha|Ha]; [apply Cut; intros ->; destruct Ha|].
        destruct (Why a Ha) as [F|(d & b0 & F & _)]; [|discriminate]. auto. }
  assert (0 < d) as Hd0 by auto. replace (Reqb d 0) with false by (symmetry; apply Reqb_false; lra).
  destruct l2 as [|t l2'] eqn:Et; [destruct A; discriminate|]. rewrite <- Et in *.
  assert (forall b, In b l2 -> fst b <= fst t) as Top.
  { intros b Hb. rewrite Et in Hb, D2. apply desc_cons in D2 as [_ D2]. destruct Hb as [<-|Hb]; [lra|auto]. }
  assert (firstn p l2 = A /\ skipn p l2 = x :: B2') as [G1 G2].
  { rewrite <- HA, El2. split.
    - rewrite firstn_app, Nat.sub_diag, firstn_all. cbn. apply app_nil_r.
    - rewrite skipn_app, Nat.sub_diag, skipn_all. reflexivity. }
  rewrite G1, G2. 
  assert (desc (x :: B2')) as Dx by (rewrite El2 in D2; now apply desc_app in D2).
  destruct (prune_split (fst t) d (x :: B2') Dx) as (gone & Eg & K & O).
  set (keep := prune_from (fst t) d (x :: B2')) in *.
  assert (l2 = (A ++ keep) ++ gone) as E3 by (rewrite El2, Eg, app_assoc; reflexivity).
  assert (In t l2) as It by (rewrite Et; left; auto).
  assert (In t (A ++ keep)) as Itk.
  { rewrite E3 in It. apply in_app_or in It as [It|It]; auto. apply O in It. lra. }
  assert (forall b, In b (A ++ keep) -> fst t - fst b <= d) as Within.
  { intros b Hb. apply in_app_or in Hb as [Hb|Hb]; [|now apply K].
    assert (exists A', A = t :: A') as [A' EA].
    { destruct A as [|a A']; [destruct Hb|]. rewrite El2 in Et. cbn in Et. inversion Et; subst. eauto. }
    apply (Rng d eq_refl); apply in_or_app; left; [rewrite EA; left; auto|auto]. }
  exists (A ++ keep). split; [reflexivity|]. unfold best_of.
  rewrite E3 in D2. apply desc_app in D2 as (D3 & _ & D4).
  assert (forall a, In a out -> forall b0, In b0 (A ++ B2' ++ cut) -> d < fst b0 - fst a -> d < fst t - fst a) as Far.
  { intros a Ha b0 Hb0 H. assert (fst b0 <= fst t); [|lra].
    apply in_app_or in Hb0 as [Hb|Hb]; [apply Top; rewrite El2; apply in_or_app; auto|].
    apply in_app_or in Hb as [Hb|Hb]; [apply Top; rewrite El2; apply in_or_app; right; right; auto|].
    apply CutLo; auto. }
  refine (conj D3 (conj _ (conj _ _))).
  { intros k Ek. specialize (Len2 k Ek). rewrite E3, app_length in Len2. lia. }
  { intros d0 E0 a b Ha Hb. inversion E0; subst d0. specialize (Within b Hb).
    assert (fst a <= fst t); [|lra]. apply Top. rewrite E3. apply in_or_app. auto. }
  exists (gone ++ cut ++ out). split; [|split].
  - rewrite app_assoc, <- E3. exact P2.
  - intros a b Ha Hb. apply in_app_or in Ha as [Ha|Ha]; [auto|].
    assert (In b l2) as Hb2 by (rewrite E3; apply in_or_app; auto).
    apply in_app_or in Ha as [Ha|Ha]; [auto|].
    destruct (Why a Ha) as [F|(d0 & b0 & F & I & Hlt)].
    + destruct (InL b Hb2) as [->|Hb']; [|auto]. cbn. apply Rlt_le. auto.
    + inversion F; subst d0. specialize (Far a Ha b0 I Hlt). specialize (Within b Hb). lra.
  - intros a Ha. apply in_app_or in Ha as [Ha|Ha].
    { right. exists d, t. auto. }
    assert (forall b, In b gone -> fst a <= fst b -> nmax = Some (length (A ++ keep)) \/
       exists d0 b, Some d = Some d0 /\ In b (A ++ keep) /\ d0 < fst b - fst a) as ViaGone.
    { intros b Hb Hle. right. exists d, t. split; auto. split; auto. specialize (O b Hb). lra. }
    assert (nmax = Some (length l2) -> (forall b, In b gone -> fst a <= fst b) ->
       nmax = Some (length (A ++ keep)) \/ exists d0 b, Some d = Some d0 /\ In b (A ++ keep) /\ d0 < fst b - fst a) as Fin.
    { intros F G. destruct gone as [|g0 gone']; [left; rewrite F, E3, app_nil_r; auto|].
      apply (ViaGone g0); [left; auto|apply G; left; auto]. }
    assert (forall b, In b gone -> In b l2) as Ig by (intros b Hb; rewrite E3; apply in_or_app; auto).
    apply in_app_or in Ha as [Ha|Ha].
    + apply Fin; [apply Cut; intros ->; destruct Ha|]. intros b Hb. apply CutLo; auto.
    + destruct (Why a Ha) as [F|(d0 & b0 & F & I & Hlt)].
      * apply Fin; [auto|]. intros b Hb. destruct (InL b (Ig b Hb)) as [->|Hb']; [|auto]. cbn. apply Rlt_le. auto.
      * inversion F; subst d0. right. exists d, t. split; auto. split; auto. apply (Far a Ha b0); auto.
Qed.

Lemma report_seq_best : forall nmax dyn new h l, dyn_ok nmax dyn -> best_of nmax dyn h l ->
  exists l', report_seq new (Lml nmax dyn l) = (Lml nmax dyn l', Ok tt) /\ best_of nmax dyn (h ++ new) l'.
Proof.
  intros nmax dyn. induction new as [|[q lab] new IH]; intros h l H0 H.
  - exists l. rewrite app_nil_r. auto.
  - destruct (update_best nmax dyn h l q lab H0 H) as (l1 & E1 & H1).
    destruct (IH _ _ H0 H1) as (l2 & E2 & H2). exists l2. split.
    + unfold report_seq in *. cbn [for_each fst snd]. unfold bind. rewrite E1. exact E2.
    + rewrite <- app_assoc in H2. exact H2.
Qed.

Lemma best_nil : forall nmax dyn, best_of nmax dyn [] (@nil (R * L)).
Proof.
  intros. unfold best_of. refine (conj _ (conj _ (conj _ _))).
  - constructor.
  - intros. cbn. lia.
  - intros d _ a b [].
  - exists []. cbn. split; auto. split; intros; contradiction.
Qed.
End L.

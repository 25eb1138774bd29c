(** The log of the Poisson probability, arrays of rates, and facts used in
    examples. *)

From Coq Require Import ZArith List Bool Arith Reals Lra Lia Psatz.
From Verif Require Import Exn PieModel Instances CountModel CountSpec CountLemmas CountLemmas2 CountLemmas3 CountLemmas4 CountLemmas5.
Import ListNotations.
Open Scope R_scope.

Lemma lfill_spec : forall count j a b, (forall i, (i < j)%nat -> a (S i) = INR (fact i)) -> (1 <= j)%nat ->
  (forall i, (i < j + count)%nat -> fst (lfill count j a b) (S i) = INR (fact i))
  /\ (forall i, (j <= i < j + count)%nat -> snd (lfill count j a b) (S i) = ln (INR (fact i)))
  /\ (forall i, (i < j)%nat -> snd (lfill count j a b) (S i) = b (S i)).
Proof.
  induction count as [|m IH]; intros j a b H Hj; cbn [lfill].
  - cbn [fst snd]. refine (conj _ (conj _ _)); intros; try lia; [apply H; lia|reflexivity].
  - cbv zeta. assert (A : INR j * a j = INR (fact j)).
    { destruct j as [|j]; [lia|]. rewrite (H j) by lia. now rewrite fact_simpl, mult_INR. }
    rewrite A. destruct (IH (S j) (aset a (S j) (INR (fact j))) (aset b (S j) (ln (INR (fact j))))) as (H1 & H2 & H3); [|lia|].
    { intros i Hi. unfold aset. destruct (Nat.eqb_spec (S i) (S j)) as [E|N]; [now inversion E|apply H; lia]. }
    refine (conj _ (conj _ _)).
    + intros i Hi. apply H1. lia.
    + intros i Hi. destruct (Nat.eq_dec i j) as [->|N]; [|apply H2; lia].
      rewrite H3 by lia. unfold aset. now rewrite Nat.eqb_refl.
    + intros i Hi. rewrite H3 by lia. unfold aset. destruct (Nat.eqb_spec (S i) (S j)); [lia|reflexivity].
Qed.

Lemma lppois_state : forall G junk n a s, good s ->
  good (fst (lppois G junk n a s)) /\ (p_ntop (fst (lppois G junk n a s)) <= Nat.max n (p_ntop s))%nat.
Proof.
  intros G junk n a s H. unfold lppois. destruct (Reqb a 0); [split; [exact H|cbn; lia]|].
  destruct (Nat.leb_spec n (p_ntop s)); [split; [exact H|cbn; lia]|].
  destruct (Nat.leb n 32); [|split; [exact H|cbn; lia]].
  destruct (lfill_spec (n - p_ntop s) (S (p_ntop s)) (p_a s) junk) as (H1 & _ & _); [intros; apply H; lia|lia|].
  destruct (lfill _ _ _ _) as [a' b']. cbn [fst snd] in *. split; [|cbn; lia]. intros j Hj. cbn in *. apply H1. lia.
Qed.
Lemma lafter_state : forall G calls s m, good s -> (p_ntop s < m)%nat -> Forall (fun c => (snd (fst c) < m)%nat) calls ->
  good (lafter G calls s) /\ (p_ntop (lafter G calls s) < m)%nat.
Proof.
  induction calls as [|[[junk n] a] calls IH]; intros s m Hg Hm Hc; cbn [lafter]; [now split|].
  inversion Hc; subst. cbn in *. destruct (lppois_state G junk n a s Hg) as [A B]. apply IH; [exact A|lia|assumption].
Qed.
Lemma log_increasing : forall G junk0 junk calls n a, (1 <= n <= 32)%nat -> a <> 0 ->
  Forall (fun c => (snd (fst c) < n)%nat) calls ->
  snd (lppois G junk n a (lafter G calls (pois0 junk0))) = log_poisson n a.
Proof.
  intros G junk0 junk calls n a Hn Ha Hc.
  destruct (lafter_state G calls (pois0 junk0) n (pois0_good junk0) ltac:(cbn; lia) Hc) as [Hg Ht].
  set (s := lafter G calls (pois0 junk0)) in *. unfold lppois. rewrite (proj2 (Reqb_false a 0)) by assumption.
  rewrite (proj2 (Nat.leb_gt _ _)) by lia. rewrite (proj2 (Nat.leb_le n 32)) by lia.
  destruct (lfill_spec (n - p_ntop s) (S (p_ntop s)) (p_a s) junk) as (_ & H2 & _); [intros; apply Hg; lia|lia|].
  destruct (lfill _ _ _ _) as [a' b']. cbn [fst snd] in *. rewrite H2 by lia. reflexivity.
Qed.
Lemma log_repeated : forall G junk0 junk1 junk2 a, a <> 0 -> junk2 3%nat <> ln 2 ->
  snd (lppois G junk1 2 a (pois0 junk0)) = log_poisson 2 a
  /\ snd (lppois G junk2 2 a (fst (lppois G junk1 2 a (pois0 junk0)))) <> log_poisson 2 a.
Proof.
  intros G junk0 junk1 junk2 a Ha Hj. split; [apply (log_increasing G junk0 junk1 [] 2 a); [lia|assumption|constructor]|].
  unfold lppois at 2. rewrite (proj2 (Reqb_false a 0)) by assumption. cbn [pois0 p_ntop Nat.leb lfill fst].
  destruct (lfill (2 - 0) 1 _ junk1) as [a' b']. cbn [fst]. unfold lppois. rewrite (proj2 (Reqb_false a 0)) by assumption.
  cbn [p_ntop Nat.leb snd]. unfold log_poisson. change (INR (fact 2)) with 2. intros E. apply Hj. lra.
Qed.

(** ** Arrays *)
Lemma likes_all : forall G o l vs, likes G o l = Ok vs -> Forall2 (fun s v => exists nt, like G o s = Slm v nt) l vs.
Proof.
  intros G o. induction l as [|s l IH]; intros vs H; cbn [likes] in H; [inversion H; constructor|].
  destruct (like G o s) as [v nt|] eqn:E; [|discriminate]. destruct (likes G o l) as [r|e] eqn:El; [|discriminate].
  inversion H. subst vs. constructor; [now exists nt|now apply IH].
Qed.
Lemma likes_err : forall G o l e, likes G o l = Err e -> e = ValueError /\ exists s, In s l /\ like G o s = Ierr.
Proof.
  intros G o. induction l as [|s l IH]; intros e H; cbn [likes] in H; [discriminate|].
  destruct (like G o s) as [v nt|] eqn:E.
  - destruct (likes G o l) as [r|e'] eqn:El; [discriminate|]. inversion H. subst e'. destruct (IH e eq_refl) as [A (s' & B & C)].
    split; [exact A|]. exists s'. split; [now right|exact C].
  - inversion H. split; [reflexivity|]. exists s. split; [now left|exact E].
Qed.

Lemma siglml_floats : forall G o l, length l <> 1%nat ->
  match siglml G o (RFloats l) with
  | Ok (AFloats vs) => Forall2 (fun s v => siglml G o (RFloat s) = Ok (AFloat v)) l vs
  | Err ValueError => exists s, In s l /\ siglml G o (RFloat s) = Err ValueError
  | _ => False
  end.
Proof.
  intros G o l Hl. assert (E : siglml G o (RFloats l) = match likes G o l with Ok v => Ok (AFloats v) | Err e => Err e end).
  { destruct l as [|x [|y l]]; [reflexivity|now elim Hl|reflexivity]. }
  rewrite E. destruct (likes G o l) as [vs|e] eqn:El.
  - apply likes_all in El. clear - El. induction El as [|s v l vs [nt H] El IH]; constructor; [|exact IH].
    cbn [siglml]. now rewrite H.
  - apply likes_err in El. destruct El as [-> (s & A & B)]. exists s. split; [exact A|]. cbn [siglml]. now rewrite B.
Qed.
Lemma siglml_ints : forall G o l vs, length l <> 1%nat -> siglml G o (RFloats (map IZR l)) = Ok (AFloats vs) ->
  siglml G o (RInts l) = Ok (AInts (map trunc vs)).
Proof.
  intros G o l vs Hl H.
  destruct l as [|x [|y l]]; [|now elim Hl|]; cbn [siglml map] in *;
  destruct (likes G o _) as [r|e]; try discriminate; inversion H; reflexivity.
Qed.

(** ** Facts used in examples *)
Lemma Int_part_nat : forall m, Int_part (INR m + 1) = Z.of_nat (S m).
Proof.
  intros m. rewrite <- S_INR. unfold Int_part. rewrite <- (tech_up (INR (S m)) (Z.of_nat (S m) + 1)).
  - lia.
  - rewrite plus_IZR, <- INR_IZR_INZ. lra.
  - rewrite plus_IZR, <- INR_IZR_INZ. lra.
Qed.
Lemma exactG_exact : log_fact exactG 0.
Proof.
  intros m. unfold exactG. rewrite Int_part_nat, Nat2Z.id. replace (S m - 1)%nat with m by lia.
  replace (_ - _) with 0 by ring. rewrite Rabs_R0. lra.
Qed.

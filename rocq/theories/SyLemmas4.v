(** FLSM visits every permutation of a partition once *)

From Coq Require Import List Bool Arith ZArith Reals Permutation Sorted Lra Lia.
From Verif Require Import Exn Instances McModel BaModel BaLemmas ObsModel AdModel AdLemmas AdLemmas2 SyModel SyLemmas SyLemmas2 SyLemmas3.
Import ListNotations.
Open Scope nat_scope.

Definition desc (l : list nat) : Prop := StronglySorted (fun a b => b <= a) l.
Lemma desc_cons : forall a l, desc (a :: l) <-> desc l /\ forall b, In b l -> b <= a.
Proof. intros a l. split; [intros H; apply StronglySorted_inv in H; destruct H as [H1 H2]; split; [exact H1|now apply Forall_forall]|intros [H1 H2]; constructor; [exact H1|now apply Forall_forall]]. Qed.
Lemma desc_app : forall A B, desc (A ++ B) <-> desc A /\ desc B /\ forall a b, In a A -> In b B -> b <= a.
Proof.
  induction A as [|a A IH]; intros B; cbn [app].
  - split; [intros H; split; [constructor|split; [exact H|intros ? ? []]]|tauto].
  - rewrite !desc_cons, IH. split.
    + intros [(H1 & H2 & H3) H4]. split; [split; [exact H1|]|split; [exact H2|]].
      * intros b Hb. apply H4. apply in_or_app. now left.
      * intros x b [<-|Hx] Hb; [apply H4; apply in_or_app; now right|now apply H3].
    + intros [[H1 H2] [H3 H4]]. split; [split; [exact H1|split; [exact H3|]]|].
      * intros x b Hx Hb. apply H4; [now right|exact Hb].
      * intros b Hb. apply in_app_or in Hb. destruct Hb as [Hb|Hb]; [now apply H2|apply H4; [now left|exact Hb]].
Qed.
Lemma desc_eq : forall l l', desc l -> desc l' -> Permutation l l' -> l = l'.
Proof.
  induction l as [|a l IH]; intros l' H H' P; [now apply Permutation_nil in P|].
  destruct l' as [|b l']; [apply Permutation_sym, Permutation_nil in P; discriminate|].
  apply desc_cons in H, H'. destruct H as [H1 H2], H' as [H3 H4].
  assert (a = b).
  { assert (In a (b :: l')) by (apply (Permutation_in _ P); now left). assert (In b (a :: l)) by (apply (Permutation_in _ (Permutation_sym P)); now left).
    destruct H as [->|Ha]; [reflexivity|]. destruct H0 as [->|Hb]; [reflexivity|]. specialize (H2 _ Hb). specialize (H4 _ Ha). lia. }
  subst b. f_equal. apply IH; [exact H1|exact H3|now apply Permutation_cons_inv in P].
Qed.
Lemma desc_nth : forall l, desc l -> forall i j, i <= j -> j < length l -> nth j l 0 <= nth i l 0.
Proof.
  induction l as [|a l IH]; intros H i j Hi Hj; [cbn in Hj; lia|]. apply desc_cons in H. destruct H as [H1 H2].
  destruct i as [|i], j as [|j]; cbn [nth length] in *; [lia|apply H2, nth_In; lia|lia|apply IH; [exact H1|lia|lia]].
Qed.
Lemma asc_rev : forall l, desc l -> asc (rev l).
Proof. intros l H j Hj. rewrite rev_length in Hj. rewrite !rev_nth by lia. apply desc_nth; [exact H|lia|lia]. Qed.

Definition nxt (p : list nat) (r : option (list nat)) : Prop := flsm_next p (seq 2 (length p - 1)) = Ok r.
Inductive trip : list nat -> list (list nat) -> list nat -> Prop :=
  | trip_one : forall p, trip p [p] p
  | trip_step : forall p p' ls q, nxt p (Some p') -> trip p' ls q -> trip p (p :: ls) q.
Lemma trip_join : forall a ls b c ls' d, trip a ls b -> nxt b (Some c) -> trip c ls' d -> trip a (ls ++ ls') d.
Proof. intros a ls b c ls' d H. induction H as [p|p p' ls q N H IH]; intros N' H'; [now apply trip_step with c|]. cbn [app]. apply trip_step with p'; [exact N|]. now apply IH. Qed.

(** The first descent *)
Lemma descent : forall p, asc p \/ exists A x T, p = A ++ x :: T /\ A <> [] /\ asc A /\ x < last A 0.
Proof.
  induction p as [|z p IH] using rev_ind; [left; intros j H; cbn in H; lia|].
  destruct IH as [IH|(A & x & T & -> & H)].
  - destruct p as [|a p'] eqn:E; [left; intros j H; cbn in H; lia|]. rewrite <- E in *. assert (NE : p <> []) by (rewrite E; discriminate). clear E.
    destruct (Nat.ltb_spec z (last p 0)) as [Q|Q]; [right; exists p, z, []; auto|left].
    intros j Hj. rewrite app_length in Hj. cbn [length] in Hj.
    destruct (Nat.eq_dec (j + 1) (length p)) as [E|N].
    + rewrite E, nth_mid. rewrite app_nth1 by lia. destruct (exists_last NE) as (A' & w & ->). rewrite last_last in Q. rewrite app_length in E. cbn in E. replace j with (length A') by lia. now rewrite nth_mid.
    + rewrite !app_nth1 by lia. apply IH. lia.
  - right. exists A, x, (T ++ [z]). split; [now rewrite <- app_assoc|exact H].
Qed.
Lemma nxt_lift : forall p p' T, nxt p (Some p') -> nxt (p ++ T) (Some (p' ++ T)).
Proof.
  intros p p' T H. unfold nxt in *. destruct (descent p) as [D|(A & x & T' & -> & NE & HA & Hx)]; [rewrite next_none in H by exact D; discriminate|].
  destruct (next_some A x T' NE HA Hx) as (B1 & y & B2 & R1 & Y1 & Y2 & E). rewrite E in H. injection H as <-.
  destruct (next_some A x (T' ++ T) NE HA Hx) as (B1' & y' & B2' & R1' & Y1' & Y2' & E').
  rewrite <- app_assoc. cbn [app]. rewrite E'. rewrite R1 in R1'.
  enough (Q : B1 = B1' /\ y = y' /\ B2 = B2').
  { destruct Q as (<- & <- & <-). rewrite <- app_assoc. cbn [app]. rewrite <- app_assoc. reflexivity. }
  clear - R1' Y1 Y2 Y1' Y2'. revert B1' R1'. induction B1 as [|b B1 IH]; intros [|b' B1'] R; cbn [app] in R.
  - injection R as -> ->. auto.
  - injection R as -> R. exfalso. assert (In y' B2) by (rewrite R; apply in_or_app; right; now left). specialize (Y2 _ H). lia.
  - injection R as -> R. exfalso. assert (In y B2') by (rewrite <- R; apply in_or_app; right; now left). specialize (Y2' _ H). lia.
  - injection R as -> R. apply IH in R. destruct R as (-> & -> & ->). auto.
Qed.
Lemma trip_lift : forall p ls q T, trip p ls q -> trip (p ++ T) (map (fun l => l ++ T) ls) (q ++ T).
Proof. intros p ls q T H. induction H as [p|p p' ls q N H IH]; [apply trip_one|]. cbn [map]. apply trip_step with (p' ++ T); [now apply nxt_lift|exact IH]. Qed.

Lemma above_less : forall D x y, x < y -> In y D -> length (filter (fun z => Nat.ltb y z) D) < length (filter (fun z => Nat.ltb x z) D).
Proof.
  intros D x y H. assert (M : forall D, length (filter (fun z => Nat.ltb y z) D) <= length (filter (fun z => Nat.ltb x z) D)).
  { clear D. induction D as [|d D IH]; [apply Nat.le_refl|]. cbn [filter]. destruct (Nat.ltb_spec y d), (Nat.ltb_spec x d); cbn [length]; lia. }
  induction D as [|d D IH]; intros Hin; [destruct Hin|]. cbn [filter]. destruct Hin as [->|Hin].
  - rewrite Nat.ltb_irrefl. rewrite (proj2 (Nat.ltb_lt _ _) H). cbn [length]. specialize (M D). lia.
  - specialize (IH Hin). destruct (Nat.ltb_spec y d), (Nat.ltb_spec x d); cbn [length]; lia.
Qed.

Definition all_of (ls : list (list nat)) (P : list nat -> Prop) : Prop := NoDup ls /\ forall p, In p ls <-> P p.

Section Step.
Variable n : nat.
Hypothesis smaller : forall D, length D = S n -> desc D -> exists ls, trip D ls (rev D) /\ all_of ls (fun p => Permutation p D).

Lemma perms_from : forall k D x Dx, length (filter (fun z => Nat.ltb x z) D) <= k -> length Dx = S n -> desc D -> desc Dx -> Permutation D (x :: Dx) ->
  exists ls, trip (Dx ++ [x]) ls (rev D) /\ all_of ls (fun p => Permutation p D /\ x <= last p 0).
Proof.
  induction k as [k IH] using lt_wf_ind. intros D x Dx Hk Ln HD HDx P.
  destruct (smaller Dx Ln HDx) as (ls0 & T0 & ND0 & I0). apply (trip_lift _ _ _ [x]) in T0.
  assert (ND0' : NoDup (map (fun l => l ++ [x]) ls0)).
  { apply FinFun.Injective_map_NoDup; [|exact ND0]. intros a b E. now apply app_inj_tail in E. }
  assert (I0' : forall p, In p (map (fun l => l ++ [x]) ls0) <-> Permutation p D /\ last p 0 = x).
  { intros p. rewrite in_map_iff. split.
    - intros (q & <- & Hq). apply I0 in Hq. rewrite last_last. split; [|reflexivity]. rewrite P, <- Hq. symmetry. apply Permutation_cons_append.
    - intros [Hp L]. assert (NE : p <> []) by (intros ->; apply Permutation_nil in Hp; subst D; apply Permutation_nil in P; discriminate).
      destruct (exists_last NE) as (q & z & ->). rewrite last_last in L. subst z. exists q. split; [reflexivity|]. apply I0.
      apply (Permutation_cons_inv (a := x)). rewrite <- P, <- Hp. apply Permutation_cons_append. }
  destruct Dx as [|m Dx']; [discriminate|]. pose (Dx := m :: Dx'). fold Dx in T0, P, HDx, Ln, I0 |- *.
  destruct (Nat.ltb_spec x m) as [Q|Q].
  - assert (RN : rev Dx <> []) by (intros E; apply (f_equal (@length nat)) in E; rewrite rev_length, Ln in E; discriminate).
    assert (RL : last (rev Dx) 0 = m) by (unfold Dx; cbn [rev]; apply last_last).
    destruct (next_some (rev Dx) x [] RN (asc_rev _ HDx) ltac:(now rewrite RL)) as (B1 & y & B2 & R1 & Y1 & Y2 & E). rewrite rev_involutive in R1.
    assert (HB := HDx). rewrite R1 in HB. apply desc_app in HB. destruct HB as (HB1 & HB2 & HB3). apply desc_cons in HB2. destruct HB2 as [HB2 HB4].
    assert (HDy : desc (B1 ++ x :: B2)).
    { apply desc_app. split; [exact HB1|]. split; [apply desc_cons; split; [exact HB2|exact Y2]|].
      intros a b Ha [<-|Hb]; [specialize (HB3 a y Ha (or_introl eq_refl)); lia|apply HB3; [exact Ha|now right]]. }
    assert (PD : Permutation D (y :: B1 ++ x :: B2)).
    { rewrite P, R1. rewrite <- (Permutation_middle B1 B2 y), <- (Permutation_middle B1 B2 x). apply perm_swap. }
    assert (YD : In y D) by (apply (Permutation_in _ (Permutation_sym PD)); now left).
    destruct (IH (length (filter (fun z => Nat.ltb y z) D))) with (D := D) (x := y) (Dx := B1 ++ x :: B2) as (ls1 & T1 & ND1 & I1).
    + assert (A := above_less D x y Y1 YD). lia.
    + apply Nat.le_refl.
    + rewrite <- Ln, R1, !app_length. reflexivity.
    + exact HD.
    + exact HDy.
    + exact PD.
    + exists (map (fun l => l ++ [x]) ls0 ++ ls1). split; [|split].
      * apply (trip_join _ _ (rev Dx ++ [x]) ((B1 ++ x :: B2) ++ [y])); [exact T0| |exact T1]. unfold nxt. rewrite E. rewrite <- app_assoc. reflexivity.
      * assert (AP : forall (a b : list (list nat)), NoDup a -> NoDup b -> (forall z, In z a -> ~ In z b) -> NoDup (a ++ b)).
        { clear. intros a b Ha Hb H. induction a as [|z a IHa]; [exact Hb|]. cbn [app]. inversion Ha; subst. constructor.
          - intros C. apply in_app_or in C. destruct C as [C|C]; [contradiction|]. now apply (H z (or_introl eq_refl)).
          - apply IHa; [assumption|]. intros w Hw. apply H. now right. }
        apply AP; [exact ND0'|exact ND1|]. intros z Hz Hz'. apply I0' in Hz. apply I1 in Hz'. lia.
      * intros p. rewrite in_app_iff, I0', I1. split; [intros [[H1 H2]|[H1 H2]]; (split; [exact H1|lia])|].
        intros [H1 H2]. assert (NE : p <> []) by (intros ->; apply Permutation_nil in H1; subst D; destruct YD).
        assert (IL : In (last p 0) D) by (apply (Permutation_in _ H1); destruct (exists_last NE) as (q & z & ->); rewrite last_last; apply in_or_app; right; now left).
        destruct (Nat.eq_dec (last p 0) x) as [EQ|NQ]; [left; auto|right]. split; [exact H1|].
        apply (Permutation_in _ PD) in IL. destruct IL as [<-|IL]; [lia|]. apply in_app_or in IL. destruct IL as [IL|[EQ|IL]]; [apply (HB3 _ y IL); now left|lia|specialize (Y2 _ IL); lia].
  - assert (MX : forall z, In z Dx -> z <= x) by (intros z [<-|Hz]; [exact Q|]; apply desc_cons in HDx; destruct HDx as [_ HM]; specialize (HM z Hz); lia).
    assert (DE : D = x :: Dx) by (apply desc_eq; [exact HD|apply desc_cons; split; [exact HDx|exact MX]|exact P]).
    exists (map (fun l => l ++ [x]) ls0). split; [rewrite DE; cbn [rev]; exact T0|split; [exact ND0'|]].
    intros p. rewrite I0'. split; intros [H1 H2]; (split; [exact H1|]); [lia|].
    assert (NE : p <> []) by (intros ->; apply Permutation_nil in H1; rewrite DE in H1; discriminate).
    assert (IL : In (last p 0) D) by (apply (Permutation_in _ H1); destruct (exists_last NE) as (q & z & ->); rewrite last_last; apply in_or_app; right; now left).
    rewrite DE in IL. destruct IL as [<-|IL]; [reflexivity|]. specialize (MX _ IL). lia.
Qed.
End Step.

Lemma perms_all : forall n D, length D = S n -> desc D -> exists ls, trip D ls (rev D) /\ all_of ls (fun p => Permutation p D).
Proof.
  induction n as [|n IH]; intros D L H.
  - destruct D as [|a [|]]; try discriminate. exists [[a]]. split; [apply trip_one|]. split; [repeat constructor; intros []|].
    intros p. split; [intros [<-|[]]; reflexivity|]. intros P. left. symmetry. apply Permutation_length_1_inv. now apply Permutation_sym.
  - assert (NE : D <> []) by (intros ->; discriminate). destruct (exists_last NE) as (Dx & x & ->). apply desc_app in H as H'. destruct H' as (H1 & _ & H3).
    destruct (perms_from n IH _ (Dx ++ [x]) x Dx (Nat.le_refl _)) as (ls & T & ND & I).
    + rewrite app_length in L. cbn in L. lia.
    + exact H.
    + exact H1.
    + symmetry. apply Permutation_cons_append.
    + exists ls. split; [exact T|]. split; [exact ND|]. intros p. rewrite I. split; [tauto|]. intros P. split; [exact P|].
      assert (NP : p <> []) by (intros ->; apply Permutation_nil in P; destruct Dx; discriminate).
      destruct (exists_last NP) as (q & z & ->). rewrite last_last. assert (Z : In z (Dx ++ [x])) by (apply (Permutation_in _ P); apply in_or_app; right; now left).
      apply in_app_or in Z. destruct Z as [Z|[<-|[]]]; [|apply Nat.le_refl]. apply (H3 z x Z). now left.
Qed.
Lemma trip_end : forall D, desc D -> nxt (rev D) None.
Proof. intros D H. unfold nxt. apply next_none. now apply asc_rev. Qed.

(** Ownership of arrays: what calls on one predictor of one instance leave
    alone. *)

From Coq Require Import ZArith List Bool Arith Lia.
From Verif Require Import Exn PieModel PieGridModel GaussModel GaussSpec.
Import ListNotations.
Open Scope exn_scope.

Section Gen.
Context {N : num} {U : user N}.
Notation state := (world N U).

Definition fields (h : hnd N) : list addr := [h_locns h; h_vals h; h_sigmas h].

Lemma upd_eq : forall A (f : nat -> A) p a, upd f p a p = a.
Proof. intros. unfold upd. now rewrite Nat.eqb_refl. Qed.
Lemma upd_ne : forall A (f : nat -> A) p q a, q <> p -> upd f p a q = f q.
Proof. intros. unfold upd. destruct (Nat.eqb_spec q p); [contradiction|reflexivity]. Qed.

(** Writing a handler slot. *)
Lemma set_hnd_here : forall i k h (w : state), hnds (set_hnd i k h w) i k = Some h.
Proof. intros. cbn. now rewrite !upd_eq. Qed.
Lemma set_hnd_there : forall i k h (w : state) j l, j <> i \/ l <> k ->
  hnds (set_hnd i k h w) j l = hnds w j l.
Proof.
  intros i k h w j l H. cbn. destruct (Nat.eq_dec j i) as [->|].
  - rewrite upd_eq. apply upd_ne. tauto.
  - now rewrite upd_ne.
Qed.

Lemma addr_eqb_refl : forall a, addr_eqb a a = true.
Proof. destruct a; cbn; now rewrite ?Nat.eqb_refl. Qed.
Lemma addr_eqb_spec : forall a b, reflect (a = b) (addr_eqb a b).
Proof.
  destruct a, b; cbn; try (constructor; congruence).
  - destruct (Nat.eqb_spec pred pred0), (Nat.eqb_spec field field0); constructor; congruence.
  - destruct (Nat.eqb_spec n n0); constructor; congruence.
  - destruct (Nat.eqb_spec n n0); constructor; congruence.
Qed.

(** The handler exists. *)
Definition hasH (i k : nat) (h : hnd N) (w : state) : Prop := hnds w i k = Some h.

Lemma handler_has : forall i k h (w : state), hasH i k h w -> handler i k w = (w, Ok h).
Proof. intros i k h w H. unfold handler. now rewrite H. Qed.
Lemma put_has : forall i k f h (w : state), hasH i k h w ->
  put_hnd i k f w = (set_hnd i k (f h) w, Ok tt).
Proof. intros i k f h w H. unfold put_hnd, bind. now rewrite (handler_has i k h). Qed.

(** A new array put into the handler at once. *)
Definition sets (f : addr -> hnd N -> hnd N) : Prop :=
  forall a h b, h_globals (f a h) = h_globals h /\
    (In b (fields (f a h)) -> b = a \/ In b (fields h)).

Lemma sets_locns : sets with_locns.
Proof. intros a h b. split; [reflexivity|]. cbn. intros [<-|[<-|[<-|[]]]]; auto. Qed.
Lemma sets_vals : sets with_vals.
Proof. intros a h b. split; [reflexivity|]. cbn. intros [<-|[<-|[<-|[]]]]; auto. Qed.
Lemma sets_sigmas : sets with_sigmas.
Proof. intros a h b. split; [reflexivity|]. cbn. intros [<-|[<-|[<-|[]]]]; auto. Qed.

Lemma bind_assoc : forall A B D (m : G N U A) (f : A -> G N U B) (g : B -> G N U D) w,
  bind m (fun a => bind (f a) g) w = bind (bind m f) g w.
Proof. intros. unfold bind. destruct (m w) as [w1 [a|e]]; reflexivity. Qed.
Lemma onuse_hnds : forall i (w : state), hnds (fst (_on_use i w)) = hnds w.
Proof. intros i w. unfold _on_use. now destruct (on_use U _ _) as [c [e|]]. Qed.
Lemma onuse_hp : forall i (w : state), hp (fst (_on_use i w)) = hp w.
Proof. intros i w. unfold _on_use. now destruct (on_use U _ _) as [c [e|]]. Qed.

Lemma bind_eq : forall i k w w1 h B (f : hnd N -> G N U B), handler i k w = (w1, Ok h) ->
  bind (handler i k) f w = f h w1.
Proof. intros. unfold bind. now rewrite H. Qed.
Variable data : nat -> nat -> obj N.

Record W (w : state) : Prop := {
  w_shared : forall k f, hp w (AShared k f) = data k f;
  w_fields : forall i k h a, hnds w i k = Some h -> In a (fields h) ->
     match a with
     | AShared q _ => h_globals h = true
     | AOwn n => n < nexta w
     | ACaller _ => True
     end;
  w_sep : forall i k h j l h' n, hnds w i k = Some h -> hnds w j l = Some h' ->
     In (AOwn n) (fields h) -> In (AOwn n) (fields h') -> i = j /\ k = l
}.

(** Own arrays a handler slot refers to. *)
Definition owns (w : state) (i k n : nat) : Prop :=
  exists h, hnds w i k = Some h /\ In (AOwn n) (fields h).

(** What a call on predictor k of instance i may change. *)
Record ext (i k : nat) (w w' : state) : Prop := {
  e_next : nexta w <= nexta w';
  e_hnds : forall j l, j <> i \/ l <> k -> hnds w' j l = hnds w j l;
  e_heap : forall n, n < nexta w -> ~ owns w i k n -> hp w' (AOwn n) = hp w (AOwn n);
  e_new : forall n, owns w' i k n -> owns w i k n \/ nexta w <= n
}.

Lemma ext_refl : forall i k w, ext i k w w.
Proof. intros. constructor; auto. Qed.
Lemma ext_trans : forall i k a b c, ext i k a b -> ext i k b c -> ext i k a c.
Proof.
  intros i k a b c [A1 A2 A3 A4] [B1 B2 B3 B4]. constructor.
  - lia.
  - intros j l H. now rewrite B2, A2.
  - intros n L O. rewrite B3; [now apply A3|lia|]. intros K. destruct (A4 n K); [contradiction|lia].
  - intros n K. destruct (B4 n K) as [K'|]; [|right; lia].
    destruct (A4 n K'); [now left|right; lia].
Qed.

(** Partial correctness with the frame built in. *)
Definition triple {A} (i k : nat) (P : state -> Prop) (m : G N U A) (Q : A -> state -> Prop) : Prop :=
  forall w, W w -> P w ->
  W (fst (m w)) /\ ext i k w (fst (m w))
  /\ match snd (m w) with Ok a => Q a (fst (m w)) | Err _ => True end.

Lemma t_bind : forall A B i k P (m : G N U A) Q (f : A -> G N U B) S,
  triple i k P m Q -> (forall a, triple i k (Q a) (f a) S) -> triple i k P (bind m f) S.
Proof.
  intros A B i k P m Q f S H K w I p. destruct (H w I p) as (I1 & E1 & q). unfold bind.
  destruct (m w) as [w1 [a|e]]; cbn in *; [|auto].
  destruct (K a w1 I1 q) as (I2 & E2 & r). split; [exact I2|]. split; [|exact r].
  eapply ext_trans; eauto.
Qed.
Lemma t_conseq : forall A i k (P P' : state -> Prop) (m : G N U A) (Q Q' : A -> state -> Prop),
  triple i k P m Q -> (forall w, P' w -> P w) -> (forall a w, Q a w -> Q' a w) ->
  triple i k P' m Q'.
Proof.
  intros A i k P P' m Q Q' H HP HQ w I p. destruct (H w I (HP w p)) as (A1 & A2 & A3).
  split; [exact A1|]. split; [exact A2|]. destruct (snd (m w)); auto.
Qed.
Lemma t_ret : forall A i k (a : A) P, triple i k P (ret a) (fun b w => b = a /\ P w).
Proof. intros A i k a P w I p. cbn. auto using ext_refl. Qed.
Lemma t_raise : forall A i k e P Q, triple i k P (@raise _ A e) Q.
Proof. intros A i k e P Q w I p. cbn. auto using ext_refl. Qed.
Lemma t_read : forall i k a P, triple i k P (read a) (fun _ => P).
Proof. intros i k a P w I p. cbn. auto using ext_refl. Qed.
Lemma t_get : forall i k P, triple i k P get (fun w' w => P w).
Proof. intros i k P w I p. cbn. auto using ext_refl. Qed.
Lemma t_attr : forall A i k e (o : option A) P, triple i k P (attr e o) (fun a w => o = Some a /\ P w).
Proof. intros A i k e [a|] P w I p; cbn; auto using ext_refl. Qed.

(** A fresh array that nothing refers to, or one of the caller. *)
Definition spare (w : state) (i k : nat) (a : addr) : Prop :=
  match a with
  | AShared _ _ => False
  | AOwn n => n < nexta w /\ forall j l, j <> i \/ l <> k -> ~ owns w j l n
  | ACaller _ => True
  end.

Lemma set_hnd_W : forall i k h h0 (w : state), W w -> hnds w i k = Some h0 ->
  (forall a, In a (fields h) -> In a (fields h0) \/ spare w i k a) ->
  (h_globals h0 = true -> h_globals h = true) ->
  W (set_hnd i k h w).
Proof.
  intros i k h h0 w [A B D] H0 Hf Hg. constructor.
  - exact A.
  - intros j l h' a H Ha. destruct (Nat.eq_dec j i) as [->|Hj].
    + destruct (Nat.eq_dec l k) as [->|Hl].
      * rewrite set_hnd_here in H. injection H as <-.
        destruct (Hf a Ha) as [K|K].
        -- specialize (B i k h0 a H0 K). destruct a; auto.
        -- destruct a; cbn in K; [contradiction|tauto|exact I].
      * rewrite set_hnd_there in H by tauto. now apply (B i l h').
    + rewrite set_hnd_there in H by tauto. now apply (B j l h').
  - assert (X : forall j l h' n, hnds (set_hnd i k h w) j l = Some h' -> j <> i \/ l <> k ->
       In (AOwn n) (fields h') -> In (AOwn n) (fields h) -> False).
    { intros j l h' n H Hn K1 K2. rewrite set_hnd_there in H by assumption.
      destruct (Hf _ K2) as [K|[_ K]].
      - destruct (D i k h0 j l h' n H0 H K K1). subst. tauto.
      - apply (K j l Hn). exists h'. auto. }
    intros j l h' j' l' h'' n H1 H2 K1 K2.
    destruct (Nat.eq_dec j i) as [->|Hj]; [destruct (Nat.eq_dec l k) as [->|Hl]|];
    (destruct (Nat.eq_dec j' i) as [->|Hj']; [destruct (Nat.eq_dec l' k) as [->|Hl']|]); auto.
    all: try (rewrite set_hnd_here in H1; injection H1 as <-; exfalso; eapply X; eauto; fail).
    all: try (rewrite set_hnd_here in H2; injection H2 as <-; exfalso; eapply X; eauto; fail).
    all: rewrite set_hnd_there in H1, H2 by tauto; eapply D; eauto.
Qed.

Lemma set_hnd_ext : forall i k h h0 (w : state), hnds w i k = Some h0 ->
  (forall n, In (AOwn n) (fields h) -> In (AOwn n) (fields h0) \/ nexta w <= n) ->
  ext i k w (set_hnd i k h w).
Proof.
  intros i k h h0 w H0 Hf. constructor.
  - cbn. lia.
  - intros. now apply set_hnd_there.
  - reflexivity.
  - intros n (h' & H & K). rewrite set_hnd_here in H. injection H as <-.
    destruct (Hf n K) as [K'|]; [left; exists h0; auto|now right].
Qed.

Lemma t_handler : forall i k,
  triple i k (fun _ => True) (handler i k) (fun h w => hasH i k h w).
Proof.
  intros i k w I _. unfold handler. destruct (hnds w i k) as [h|] eqn:E; cbn [fst snd].
  - split; [exact I|]. split; [apply ext_refl|exact E].
  - set (h := Hnd _ _ _ _ _ _). split; [|split].
    + destruct I as [A B D]. constructor.
      * exact A.
      * intros j l h' a H Ha. destruct (Nat.eq_dec j i) as [->|Hj];
          [destruct (Nat.eq_dec l k) as [->|Hl]|].
        -- rewrite set_hnd_here in H. injection H as <-. cbn in Ha.
           destruct Ha as [<-|[<-|[<-|[]]]]; reflexivity.
        -- rewrite set_hnd_there in H by tauto. now apply (B i l h').
        -- rewrite set_hnd_there in H by tauto. now apply (B j l h').
      * assert (X : forall n, ~ In (AOwn n) (fields h)).
        { intros n K. cbn in K. destruct K as [K|[K|[K|[]]]]; discriminate. }
        intros j l h' j' l' h'' n H1 H2 K1 K2.
        destruct (Nat.eq_dec j i) as [->|Hj]; [destruct (Nat.eq_dec l k) as [->|Hl]|];
        (destruct (Nat.eq_dec j' i) as [->|Hj']; [destruct (Nat.eq_dec l' k) as [->|Hl']|]); auto.
        all: try (rewrite set_hnd_here in H1; injection H1 as <-; now apply X in K1).
        all: try (rewrite set_hnd_here in H2; injection H2 as <-; now apply X in K2).
        all: rewrite set_hnd_there in H1, H2 by tauto; eapply D; eauto.
    + constructor.
      * cbn. lia.
      * intros. now apply set_hnd_there.
      * reflexivity.
      * intros n (h' & H & K). rewrite set_hnd_here in H. injection H as <-.
        cbn in K. destruct K as [K|[K|[K|[]]]]; discriminate.
    + apply set_hnd_here.
Qed.

(** Reading a known handler. *)
Lemma t_handler_has : forall i k h,
  triple i k (hasH i k h) (handler i k) (fun h' w => h' = h /\ hasH i k h w).
Proof. intros i k h w I H. rewrite (handler_has _ _ _ _ H). cbn. auto using ext_refl. Qed.

(** Changing a known handler without new arrays. *)
Lemma t_put : forall i k h f,
  (forall a, In a (fields (f h)) -> In a (fields h) \/ exists n, a = ACaller n) ->
  (h_globals h = true -> h_globals (f h) = true) ->
  triple i k (hasH i k h) (put_hnd i k f) (fun _ w => hasH i k (f h) w).
Proof.
  intros i k h f Hf Hg w I H. rewrite (put_has _ _ _ _ _ H). cbn [fst snd].
  split; [|split].
  - eapply set_hnd_W; eauto. intros a Ha. destruct (Hf a Ha) as [K|[n ->]]; [now left|right; exact Logic.I].
  - eapply set_hnd_ext; eauto. intros n Hn. destruct (Hf _ Hn) as [K|[m K]]; [now left|discriminate].
  - apply set_hnd_here.
Qed.
(** The two exceptions: dropping the mark once nothing shared is left. *)
Lemma t_local : forall i k h,
  (forall q f, ~ In (AShared q f) (fields h)) ->
  triple i k (hasH i k h) (put_hnd i k (with_globals false))
    (fun _ w => hasH i k (with_globals false h) w).
Proof.
  intros i k h Hs w I H. rewrite (put_has _ _ _ _ _ H). cbn [fst snd].
  split; [|split].
  - destruct I as [A B D]. constructor.
    + exact A.
    + intros j l h' a H' Ha. destruct (Nat.eq_dec j i) as [->|Hj];
        [destruct (Nat.eq_dec l k) as [->|Hl]|].
      * rewrite set_hnd_here in H'. injection H' as <-.
        change (fields (with_globals false h)) with (fields h) in Ha.
        specialize (B i k h a H Ha). destruct a; auto. now apply Hs in Ha.
      * rewrite set_hnd_there in H' by tauto. now apply (B i l h').
      * rewrite set_hnd_there in H' by tauto. now apply (B j l h').
    + assert (X : forall j l h', hnds (set_hnd i k (with_globals false h) w) j l = Some h'
           -> exists h0, hnds w j l = Some h0 /\ fields h0 = fields h').
      { intros j l h' K. destruct (Nat.eq_dec j i) as [->|Hj];
          [destruct (Nat.eq_dec l k) as [->|Hl]|].
        - rewrite set_hnd_here in K. injection K as <-. exists h. auto.
        - rewrite set_hnd_there in K by tauto. exists h'. auto.
        - rewrite set_hnd_there in K by tauto. exists h'. auto. }
      intros j l h' j' l' h'' n H1 H2 K1 K2.
      destruct (X _ _ _ H1) as (g1 & G1 & F1). destruct (X _ _ _ H2) as (g2 & G2 & F2).
      rewrite <- F1 in K1. rewrite <- F2 in K2. eapply D; eauto.
  - eapply set_hnd_ext; eauto.
  - apply set_hnd_here.
Qed.

Lemma alloc_W : forall x (w : state), W w -> W (fst (alloc x w)).
Proof.
  intros x w [A B D]. constructor; cbn.
  - exact A.
  - intros i k h a H Ha. specialize (B i k h a H Ha). destruct a; auto.
  - exact D.
Qed.
Lemma alloc_ext : forall i k x (w : state), ext i k w (fst (alloc x w)).
Proof.
  intros. constructor; cbn; auto.
  intros n L _. destruct (Nat.eqb_spec n (nexta w)); [lia|reflexivity].
Qed.

Lemma t_alloc_put : forall i k h x f, sets f ->
  triple i k (hasH i k h) (a <- alloc x;; put_hnd i k (f a))
    (fun _ w => exists n, hasH i k (f (AOwn n) h) w /\ hp w (AOwn n) = x).
Proof.
  intros i k h x f Hf w I H. unfold bind.
  pose proof (alloc_W x w I) as I1. pose proof (alloc_ext i k x w) as E1.
  set (n := nexta w). set (w1 := fst (alloc x w)) in *.
  assert (Ea : alloc x w = (w1, Ok (AOwn n))) by reflexivity. rewrite Ea.
  assert (H1 : hasH i k h w1) by exact H.
  rewrite (put_has _ _ _ _ _ H1). cbn [fst snd].
  assert (Sp : forall j l, ~ owns w1 j l n).
  { intros j l (h' & H' & K). assert (L := w_fields w I j l h' (AOwn n) H' K). cbn in L.
    unfold n in L. lia. }
  split; [|split].
  - eapply set_hnd_W; eauto.
    + intros a Ha. apply (Hf (AOwn n) h a) in Ha. destruct Ha as [->|Ha]; [|now left].
      right. cbn. split; [unfold n; cbn; lia|]. intros. apply Sp.
    + destruct (Hf (AOwn n) h (AOwn n)) as [-> _]. auto.
  - constructor.
    + cbn. lia.
    + intros. now rewrite set_hnd_there.
    + intros m L O. cbn. destruct (Nat.eqb_spec m (nexta w)); [lia|reflexivity].
    + intros m (h' & H' & K). rewrite set_hnd_here in H'. injection H' as <-.
      apply (Hf (AOwn n) h) in K. destruct K as [K|K].
      * injection K as ->. now right.
      * left. exists h. auto.
  - exists n. split; [apply set_hnd_here|]. cbn. now rewrite Nat.eqb_refl.
Qed.

(** Rearranging a sequence so that allocation and storing come together. *)
Lemma triple_eq : forall A i k P (m m' : G N U A) Q, (forall w, m w = m' w) ->
  triple i k P m Q -> triple i k P m' Q.
Proof. intros A i k P m m' Q E H w I p. rewrite <- E. now apply H. Qed.

Lemma t_alloc_then : forall A i k h x f (m : G N U A) Q, sets f ->
  (forall n, triple i k (fun w => hasH i k (f (AOwn n) h) w /\ hp w (AOwn n) = x) m Q) ->
  triple i k (hasH i k h) (a <- alloc x;; put_hnd i k (f a);;; m) Q.
Proof.
  intros A i k h x f m Q Hf H.
  eapply triple_eq; [intros w; symmetry; apply bind_assoc|].
  eapply t_bind; [now apply t_alloc_put|]. cbn. intros _ w I (n & K1 & K2). now apply (H n).
Qed.
Lemma t_copy_then : forall A i k h a f (m : G N U A) Q, sets f ->
  (forall n x, triple i k (fun w => hasH i k (f (AOwn n) h) w /\ hp w (AOwn n) = x) m Q) ->
  triple i k (hasH i k h) (b <- copy a;; put_hnd i k (f b);;; m) Q.
Proof.
  intros A i k h a f m Q Hf H w I K.
  assert (E : (b <- copy a;; put_hnd i k (f b);;; m) w
              = (b <- alloc (hp w a);; put_hnd i k (f b);;; m) w) by reflexivity.
  rewrite E. eapply t_alloc_then; eauto.
Qed.

Definition localH (i k : nat) (w : state) : Prop :=
  exists h, hasH i k h w /\ h_globals h = false.

Lemma t_localize : forall i k, triple i k (fun _ => True) (localize_data i k) (fun _ => localH i k).
Proof.
  intros i k. unfold localize_data. eapply t_bind; [apply t_handler|]. cbn. intros h.
  destruct (h_globals h) eqn:E.
  - apply t_copy_then; [apply sets_locns|]. intros n1 x1.
    apply t_conseq with (P := hasH i k (with_locns (AOwn n1) h)) (Q := fun _ => localH i k);
      [|tauto|auto].
    apply t_copy_then; [apply sets_vals|]. intros n2 x2.
    apply t_conseq with (P := hasH i k (with_vals (AOwn n2) (with_locns (AOwn n1) h)))
      (Q := fun _ => localH i k); [|tauto|auto].
    apply t_copy_then; [apply sets_sigmas|]. intros n3 x3.
    eapply t_conseq; [apply t_local with
       (h := with_sigmas (AOwn n3) (with_vals (AOwn n2) (with_locns (AOwn n1) h)))| |].
    + intros q f. cbn. intros [K|[K|[K|[]]]]; discriminate.
    + tauto.
    + intros u w H. eexists. split; [exact H|reflexivity].
  - eapply t_conseq; [apply t_ret|intros w K; exact K|]. cbn. intros _ w [_ H]. exists h. auto.
Qed.

Lemma t_changing : forall i k, triple i k (fun _ => True) (changing_data i k) (fun _ => localH i k).
Proof.
  intros i k. unfold changing_data. eapply t_bind; [apply t_localize|]. cbn. intros _ w I (h & H & L).
  refine (_ (t_put i k h (with_prdxns None) _ _ w I H)).
  - intros (A & B & D). split; [exact A|]. split; [exact B|].
    destruct (snd _); [|exact Logic.I]. exists (with_prdxns None h). auto.
  - cbn. auto.
  - cbn. auto.
Qed.

(** Evaluating the user's model keeps the handler up to its predictions. *)
Definition like (h h' : hnd N) : Prop := exists o, h' = with_prdxns o h.

Lemma onuse_W : forall i (w : state), W w -> W (fst (_on_use i w)).
Proof.
  intros i w [A B D]. unfold _on_use. destruct (on_use U _ _) as [c [e|]]; constructor; auto.
Qed.
Lemma onuse_ext : forall i k j (w : state), ext i k w (fst (_on_use j w)).
Proof.
  intros i k j w. unfold _on_use. destruct (on_use U _ _) as [c [e|]]; constructor; auto.
Qed.
Lemma t_prdxns : forall i k h,
  triple i k (hasH i k h) (get_prdxns i k) (fun p w => hasH i k (with_prdxns (Some p) h) w).
Proof.
  intros i k h. unfold get_prdxns. eapply t_bind; [apply t_handler_has|]. cbn.
  intros h'. eapply t_bind with (Q := fun _ w => h' = h /\ hasH i k h w).
  { intros w I [E H]. subst h'. split; [now apply onuse_W|]. split; [apply onuse_ext|].
    destruct (snd _); [|exact Logic.I]. split; [reflexivity|]. unfold hasH. now rewrite onuse_hnds. }
  intros _. eapply t_bind; [apply t_read|]. cbn. intros x.
  eapply t_bind; [apply t_get|]. cbn. intros w0 w I [E H]. subst h'.
  set (p := match signals U _ _ _ with Some l => _ | None => _ end).
  unfold bind. rewrite (put_has _ _ _ _ _ H). cbn [fst snd ret].
  refine (_ (t_put i k h (with_prdxns (Some p)) _ _ w I H)); [|cbn; auto|cbn; auto].
  rewrite (put_has _ _ _ _ _ H). auto.
Qed.
Lemma t_prdxns_any : forall i k,
  triple i k (fun _ => True) (get_prdxns i k)
    (fun p w => exists h, hasH i k h w /\ h_prdxns h = Some p).
Proof.
  intros i k w I _. unfold get_prdxns.
  pose proof (t_handler i k w I Logic.I) as K.
  remember (handler i k w) as r eqn:Er. destruct r as [w1 [h|e]]; cbn [fst snd] in K.
  - destruct K as (I1 & E1 & H1). rewrite (bind_eq i k w w1 h _ _ (eq_sym Er)).
    destruct (t_prdxns i k h w1 I1 H1) as (A & B & D). unfold get_prdxns in A, B, D.
    rewrite (bind_eq i k w1 w1 h _ _ (handler_has _ _ _ _ H1)) in A, B, D.
    split; [exact A|]. split; [eapply ext_trans; eauto|]. destruct (snd _); [|exact Logic.I].
    eexists; split; [exact D|reflexivity].
  - unfold bind. rewrite <- Er. cbn. tauto.
Qed.
End Gen.

(** Simulation leaves shared and foreign data alone. *)

From Coq Require Import ZArith List Bool Arith Lia.
From Verif Require Import Exn PieModel PieGridModel GaussModel GaussSpec GaussLemmas.
Import ListNotations.
Open Scope exn_scope.

Section Gen.
Context {N : num} {U : user N}.
Notation state := (world N U).
Definition pure {A} (m : G N U A) : Prop := forall w, fst (m w) = w.
Lemma pure_bcast : forall f x y, pure (bcast (U := U) f x y).
Proof.
  intros f x y w. unfold bcast.
  destruct (o_kind x), (o_kind y); try reflexivity;
  destruct (o_elems x) as [|a [|a' l]]; destruct (o_elems y) as [|b [|b' m]]; try reflexivity;
  destruct (Nat.eqb _ _); reflexivity.
Qed.
Lemma pure_bind : forall A B (m : G N U A) (f : A -> G N U B),
  pure m -> (forall a, pure (f a)) -> pure (bind m f).
Proof.
  intros A B m f H K w. unfold bind. specialize (H w). destruct (m w) as [w' [a|e]]; cbn in *.
  - subst. apply K.
  - exact H.
Qed.
Lemma pure_truth : forall o, pure (truth (U := U) (N := N) o).
Proof.
  intros [a|] w; [|reflexivity]. unfold truth, bind, read. cbn.
  destruct (o_kind _), (o_elems _) as [|v [|v' l]]; reflexivity.
Qed.
Lemma pure_both : forall x y, pure (both (U := U) (N := N) x y).
Proof.
  intros x y. apply pure_bind; [apply pure_truth|]. intros []; [apply pure_truth|]. intros w. reflexivity.
Qed.
Lemma pure_len : forall o, pure (len (U := U) (N := N) o).
Proof. intros [a|] w; reflexivity. Qed.
Lemma pure_given : forall o, pure (given (U := U) (N := N) o).
Proof. intros [a|] w; reflexivity. Qed.
Lemma pure_getitem : forall x n, pure (getitem (U := U) (N := N) x n).
Proof.
  intros x n. apply pure_bind; [now intros w; unfold attr; destruct (index _ _)|].
  intros j w. unfold attr. now destruct (nth_error _ _).
Qed.
Lemma pure_read : forall a, pure (read (U := U) (N := N) a).
Proof. intros a w. reflexivity. Qed.

(** ** Calls that evaluate *)
Definition sameh (k : nat) (n : nat) (o o' : option (hnd N)) : Prop :=
  match o with
  | Some h => exists p, o' = Some (with_prdxns p h)
  | None => o' = None \/
      exists p, o' = Some (Hnd (AShared k 0) (AShared k 1) (AShared k 2) n true p)
  end.
Definition quiet (w w' : state) : Prop :=
  hp w' = hp w /\ nexta w' = nexta w /\ draws w' = draws w /\
  forall j l, sameh l (length (o_elems (hp w (AShared l 1)))) (hnds w j l) (hnds w' j l).

Lemma quiet_refl : forall w, quiet w w.
Proof.
  intros w. split; [reflexivity|]. split; [reflexivity|]. split; [reflexivity|]. intros j l.
  destruct (hnds w j l) as [[]|] eqn:E; cbn; [|now left]. eexists. reflexivity.
Qed.
Lemma quiet_trans : forall a b c, quiet a b -> quiet b c -> quiet a c.
Proof.
  intros a b c (A1 & A2 & A3 & A4) (B1 & B2 & B3 & B4).
  split; [congruence|]. split; [congruence|]. split; [congruence|]. intros j l.
  specialize (A4 j l). specialize (B4 j l). rewrite A1 in B4. destruct (hnds a j l) as [h|]; cbn in *.
  - destruct A4 as [p E]. rewrite E in B4. cbn in B4. destruct B4 as [q ->]. exists q. reflexivity.
  - destruct A4 as [E|[p E]]; rewrite E in B4; cbn in B4; [exact B4|].
    destruct B4 as [q ->]. right. exists q. reflexivity.
Qed.
Definition quietm {A} (m : G N U A) : Prop := forall w, quiet w (fst (m w)).
Lemma q_bind : forall A B (m : G N U A) (f : A -> G N U B),
  quietm m -> (forall a, quietm (f a)) -> quietm (bind m f).
Proof.
  intros A B m f H K w. unfold bind. specialize (H w). destruct (m w) as [w' [a|e]]; cbn in *; auto.
  eapply quiet_trans; [exact H|apply K].
Qed.
Lemma q_pure : forall A (m : G N U A), pure m -> quietm m.
Proof. intros A m H w. rewrite H. apply quiet_refl. Qed.
Lemma q_sets : forall i k h (w : state),
  sameh k (length (o_elems (hp w (AShared k 1)))) (hnds w i k) (Some h) -> quiet w (set_hnd i k h w).
Proof.
  intros i k h w H. split; [reflexivity|]. split; [reflexivity|]. split; [reflexivity|]. intros j l.
  destruct (Nat.eq_dec j i) as [->|Hj]; [destruct (Nat.eq_dec l k) as [->|Hl]|].
  - rewrite set_hnd_here. exact H.
  - rewrite set_hnd_there by tauto. apply quiet_refl.
  - rewrite set_hnd_there by tauto. apply quiet_refl.
Qed.
Lemma q_handler : forall i k, quietm (handler i k).
Proof.
  intros i k w. unfold handler. destruct (hnds w i k) as [h|] eqn:E; [apply quiet_refl|].
  apply q_sets. rewrite E. right. eexists. reflexivity.
Qed.
Lemma q_put : forall i k p, quietm (put_hnd i k (with_prdxns p)).
Proof.
  intros i k p w. unfold put_hnd, bind. pose proof (q_handler i k w) as Q.
  assert (H : exists h, snd (handler i k w) = Ok h /\ hnds (fst (handler i k w)) i k = Some h).
  { unfold handler. destruct (hnds w i k) as [h|] eqn:E; cbn [fst snd]; [eauto|].
    eexists. split; [reflexivity|]. apply set_hnd_here. }
  destruct H as (h & H1 & H2). destruct (handler i k w) as [w' r]; cbn [fst snd] in *. subst r.
  eapply quiet_trans; [exact Q|]. cbn [fst modify]. apply q_sets. rewrite H2. exists p. reflexivity.
Qed.
Lemma q_onuse : forall i, quietm (_on_use i).
Proof.
  intros i w. unfold _on_use. destruct (on_use U _ _) as [c [e|]]; cbn;
  (split; [reflexivity|]; split; [reflexivity|]; split; [reflexivity|]; intros j l; apply (quiet_refl w)).
Qed.
Lemma q_get : quietm get.
Proof. intros w. apply quiet_refl. Qed.
Lemma q_prdxns : forall i k, quietm (get_prdxns i k).
Proof.
  intros i k. unfold get_prdxns. apply q_bind; [apply q_handler|]. intros h.
  apply q_bind; [apply q_onuse|]. intros _. apply q_bind; [apply q_pure, pure_read|]. intros x.
  apply q_bind; [apply q_get|]. intros w. apply q_bind; [apply q_put|]. intros _.
  apply q_pure. intros w'. reflexivity.
Qed.
Lemma q_ret : forall A (a : A), quietm (ret a).
Proof. intros A a w. apply quiet_refl. Qed.
Lemma q_wssr : forall i k, quietm (wssr i k).
Proof.
  intros i k. unfold wssr. apply q_bind; [apply q_prdxns|]. intros p.
  apply q_bind; [apply q_handler|]. intros h. apply q_bind; [apply q_pure, pure_read|]. intros v.
  apply q_bind; [apply q_pure, pure_bcast|]. intros r.
  apply q_bind; [apply q_pure, pure_read|]. intros s.
  apply q_bind; [apply q_pure, pure_bcast|]. intros q. apply q_ret.
Qed.
Lemma q_log_like : forall i k, quietm (log_like i k).
Proof. intros. apply q_bind; [apply q_wssr|]. intros. apply q_ret. Qed.
Lemma q_sum : forall preds (f : nat -> G N U N) acc, (forall k, quietm (f k)) -> quietm (sum_over preds f acc).
Proof.
  induction preds as [|k preds IH]; intros f acc H; cbn; [apply q_ret|].
  apply q_bind; [apply H|]. intros v. now apply IH.
Qed.
Lemma q_score : forall m preds i, quietm (score m preds i).
Proof.
  intros [] preds i; cbn [score].
  - apply q_sum. apply q_wssr.
  - apply q_sum. apply q_log_like.
  - apply q_bind; [apply q_sum; apply q_log_like|]. intros l. apply q_bind; [apply q_get|].
    intros w. apply q_ret.
Qed.
Lemma q_drop : forall A (m : G N U A), quietm m -> quietm (drop m).
Proof. intros A m H. apply q_bind; auto. intros a. apply q_ret. Qed.

Lemma quiet_seen : forall w w' i k, quiet w w' -> seen w' i k = seen w i k.
Proof.
  intros w w' i k (Q1 & Q2 & _ & Q3). unfold seen. specialize (Q3 i k). rewrite Q1.
  destruct (hnds w i k) as [h|]; cbn in Q3.
  - destruct Q3 as [p ->]. reflexivity.
  - destruct Q3 as [->|[p ->]]; reflexivity.
Qed.

Variable data : nat -> nat -> obj N.
Local Notation triple := (@triple N U data _).
Local Notation W := (@W N U data).
Local Notation hasH := (@hasH N U).
Local Notation localH := (@localH N U).

(** ** Calls on one predictor *)


Lemma t_local_handler : forall i k,
  triple i k (localH i k) (handler i k) (fun h w => hasH i k h w /\ h_globals h = false).
Proof.
  intros i k w I (h & H & L). rewrite (handler_has _ _ _ _ H). cbn. auto using ext_refl.
Qed.
Lemma t_local_prdxns : forall i k,
  triple i k (localH i k) (get_prdxns i k) (fun _ => localH i k).
Proof.
  intros i k w I (h & H & L). destruct (t_prdxns data i k h w I H) as (A & B & D).
  split; [exact A|]. split; [exact B|]. destruct (snd _) as [p|]; [|exact Logic.I].
  exists (with_prdxns (Some p) h). auto.
Qed.
Lemma t_local_put : forall i k f,
  (forall h a, In a (fields (f h)) -> In a (fields h) \/ exists n, a = ACaller n) ->
  (forall h, h_globals (f h) = h_globals h) ->
  triple i k (localH i k) (put_hnd i k f) (fun _ => localH i k).
Proof.
  intros i k f Hf Hg w I (h & H & L).
  destruct (t_put data i k h f (Hf h) (fun E => eq_trans (Hg h) E) w I H) as (A & B & D).
  split; [exact A|]. split; [exact B|]. destruct (snd _) as [p|]; [|exact Logic.I].
  exists (f h). split; [exact D|]. now rewrite Hg.
Qed.
Lemma t_local_alloc : forall A i k x f (m : G N U A) Q, sets f ->
  triple i k (localH i k) m Q ->
  triple i k (localH i k) (a <- alloc x;; put_hnd i k (f a);;; m) Q.
Proof.
  intros A i k x f m Q Hf H w I (h & K & L).
  apply (t_alloc_then data A i k h x f m Q Hf); auto.
  intros n w' I' [K' _]. apply H; auto. exists (f (AOwn n) h). split; [exact K'|].
  destruct (Hf (AOwn n) h (AOwn n)) as [-> _]. exact L.
Qed.
Lemma t_local_alloc1 : forall i k x f, sets f ->
  triple i k (localH i k) (a <- alloc x;; put_hnd i k (f a)) (fun _ => localH i k).
Proof.
  intros i k x f Hf w I (h & K & L).
  destruct (t_alloc_put data i k h x f Hf w I K) as (A & B & D).
  split; [exact A|]. split; [exact B|]. destruct (snd _) as [p|]; [|exact Logic.I].
  destruct D as (n & K' & _). exists (f (AOwn n) h). split; [exact K'|].
  destruct (Hf (AOwn n) h (AOwn n)) as [-> _]. exact L.
Qed.

Lemma t_pure : forall A i k P (m : G N U A), pure m -> triple i k P m (fun _ => P).
Proof.
  intros A i k P m H w I p. rewrite H. split; [exact I|]. split; [apply ext_refl|].
  destruct (snd (m w)); [now rewrite H|exact Logic.I].
Qed.
Variable noise : nat -> N.
Lemma t_rvs : forall i k n, triple i k (localH i k) (rvs noise n) (fun _ => localH i k).
Proof.
  intros i k n w [A B D] H. cbn. split; [constructor; auto|]. split; [constructor; auto|].
  exact H.
Qed.

Definition caller (o : option addr) : Prop := forall a, o = Some a -> exists n, a = ACaller n.

Lemma in_with : forall (f : addr -> hnd N -> hnd N) a, sets f -> (exists n, a = ACaller n) ->
  forall h b, In b (fields (f a h)) -> In b (fields h) \/ exists n, b = ACaller n.
Proof.
  intros f a Hf (n & ->) h b Hb. apply (Hf (ACaller n) h b) in Hb. destruct Hb as [->|Hb]; [right; eauto|now left].
Qed.

Lemma t_local_given : forall i k o f B (m : G N U B) Q, caller o -> sets f ->
  triple i k (localH i k) m Q ->
  triple i k (localH i k) (a <- given o;; put_hnd i k (f a);;; m) Q.
Proof.
  intros i k o f B m Q Ho Hf H. eapply t_bind with (Q := fun a w => o = Some a /\ localH i k w).
  - apply t_attr.
  - intros a. eapply t_bind with (Q := fun _ => localH i k); [|intros _; exact H].
    intros w I [-> L]. apply t_local_put; auto.
    + apply in_with; auto.
    + intros h. now destruct (Hf a h a).
Qed.
Lemma t_local_given1 : forall i k o f, caller o -> sets f ->
  triple i k (localH i k) (a <- given o;; put_hnd i k (f a)) (fun _ => localH i k).
Proof.
  intros i k o f Ho Hf. eapply t_bind with (Q := fun a w => o = Some a /\ localH i k w).
  - apply t_attr.
  - intros a w I [-> L]. apply t_local_put; auto.
    + apply in_with; auto.
    + intros h. now destruct (Hf a h a).
Qed.

Ltac tpure := eapply t_bind; [apply t_pure;
  first [apply pure_bcast|apply pure_truth|apply pure_both|apply pure_len|apply pure_given
        |apply pure_getitem|apply pure_read]|cbn beta; intros].

Lemma t_handler_any : forall i k, triple i k (localH i k) (handler i k) (fun _ => localH i k).
Proof.
  intros i k w I (h & H & L). rewrite (handler_has _ _ _ _ H). cbn. split; [exact I|].
  split; [apply ext_refl|]. exists h. auto.
Qed.

Lemma t_sim : forall i k a b, caller a -> caller b ->
  triple i k (fun _ => True) (sim noise i k a b) (fun _ => localH i k).
Proof.
  intros i k a b Ha Hb. unfold sim. eapply t_bind; [apply t_changing|]. cbn beta. intros _.
  tpure. eapply t_bind with (Q := fun _ => localH i k).
  - destruct a0.
    + tpure. tpure. destruct (negb _); [apply t_raise|].
      apply t_local_given; [exact Ha|apply sets_locns|].
      apply t_local_given1; [exact Hb|apply sets_sigmas].
    + tpure. destruct a0.
      * tpure. eapply t_bind; [apply t_handler_any|]. cbn beta. intros h.
        destruct (negb _); [apply t_raise|]. apply t_local_given1; [exact Ha|apply sets_locns].
      * tpure. destruct a0.
        -- tpure. eapply t_bind; [apply t_handler_any|]. cbn beta. intros h.
           destruct (negb _); [apply t_raise|]. apply t_local_given1; [exact Hb|apply sets_sigmas].
        -- eapply t_conseq; [apply t_ret with (P := localH i k)|auto|]. cbn. tauto.
  - intros _. eapply t_bind; [apply t_local_prdxns|]. cbn beta. intros p.
    eapply t_bind; [apply t_handler_any|]. cbn beta. intros h.
    eapply t_bind; [apply t_rvs|]. cbn beta. intros z.
    tpure. tpure. tpure. apply t_local_alloc1. apply sets_vals.
Qed.

(** Writing an element of an array of the handler. *)
Lemma t_setitem : forall i k h a n v, h_globals h = false -> In a (fields h) ->
  triple i k (hasH i k h) (setitem a n v) (fun _ => hasH i k h).
Proof.
  intros i k h a n v Hg Ha. unfold setitem. tpure. rename a0 into x.
  eapply t_bind with (Q := fun _ => hasH i k h).
  { eapply t_conseq; [apply t_attr|intros w p; exact p|]. cbn. tauto. }
  intros j w I H. cbn [fst snd modify].
  pose proof (w_fields data w I i k h a H Ha) as K.
  split; [|split].
  - destruct I as [A B D]. constructor; cbn.
    + intros q f. destruct a; cbn; auto. congruence.
    + exact B.
    + exact D.
  - constructor; cbn -[addr_eqb]; auto. intros m L O. destruct (addr_eqb_spec (AOwn m) a) as [E|E]; [|reflexivity].
    exfalso. apply O. exists h. split; [exact H|]. now rewrite E.
  - exact H.
Qed.

Lemma t_sim1 : forall i k n a b, triple i k (fun _ => True) (sim1 noise i k n a b) (fun _ _ => True).
Proof.
  intros i k n a b. unfold sim1. eapply t_bind; [apply t_changing|]. cbn beta. intros _.
  eapply t_bind; [apply t_local_handler|]. cbn beta. intros h w I [H L].
  revert w I H.
  change (triple i k (hasH i k h)
    ((match truthy_opt a with Some v => setitem (h_locns h) n v | None => ret tt end);;;
     (match truthy_opt b with Some v => setitem (h_sigmas h) n v | None => ret tt end);;;
     p <- get_prdxns i k;;
     pn <- getitem p n;;
     s <- read (h_sigmas h);;
     sn <- getitem s n;;
     z <- rvs noise 1;;
     setitem (h_vals h) n (add N pn (mul N sn (nth 0 z (ofZ N 0))))) (fun _ _ => True)).
  assert (O : forall (o : option N) c, In c (fields h) -> triple i k (hasH i k h)
     (match o with Some v => setitem c n v | None => ret tt end) (fun _ => hasH i k h)).
  { intros [v|] c Hc; [now apply t_setitem|].
    eapply t_conseq; [apply t_ret with (P := hasH i k h)|auto|]. cbn. tauto. }
  eapply t_bind; [apply O; cbn; auto|]. cbn beta. intros _.
  eapply t_bind; [apply O; cbn; auto|]. cbn beta. intros _.
  eapply t_bind; [apply t_prdxns|]. cbn beta. intros p.
  eapply t_bind; [apply t_pure; apply pure_getitem|]. cbn beta. intros pn.
  eapply t_bind; [apply t_pure; apply pure_read|]. cbn beta. intros s.
  eapply t_bind; [apply t_pure; apply pure_getitem|]. cbn beta. intros sn.
  eapply t_bind with (Q := fun _ => hasH i k (with_prdxns (Some p) h)).
  { intros w [A B D] H. cbn. split; [constructor; auto|]. split; [constructor; auto|]. exact H. }
  intros z. eapply t_conseq; [apply t_setitem|intros w q; exact q|auto]; cbn; auto.
Qed.

Lemma t_concat : forall A i k a l f (m : G N U A) Q, sets f ->
  triple i k (localH i k) m Q ->
  triple i k (localH i k) (b <- concat a l;; put_hnd i k (f b);;; m) Q.
Proof.
  intros A i k a l f m Q Hf H w I K.
  assert (E : (b <- concat a l;; put_hnd i k (f b);;; m) w
     = (b <- alloc (Obj NdArray (o_elems (hp w a) ++ l));; put_hnd i k (f b);;; m) w) by reflexivity.
  rewrite E. now apply t_local_alloc.
Qed.
Lemma t_concat1 : forall i k a l f, sets f ->
  triple i k (localH i k) (b <- concat a l;; put_hnd i k (f b)) (fun _ => localH i k).
Proof.
  intros i k a l f Hf w I K.
  assert (E : (b <- concat a l;; put_hnd i k (f b)) w
     = (b <- alloc (Obj NdArray (o_elems (hp w a) ++ l));; put_hnd i k (f b)) w) by reflexivity.
  rewrite E. now apply t_local_alloc1.
Qed.

Lemma t_add_sim : forall i k a b c d,
  triple i k (fun _ => True) (add_sim i k a b c d) (fun _ _ => True).
Proof.
  intros i k a b c d. unfold add_sim. eapply t_bind; [apply t_changing|]. cbn beta. intros _.
  assert (Pn : forall g : hnd N -> nat, triple i k (localH i k)
     (put_hnd i k (fun h => with_ndata (g h) h)) (fun _ => localH i k)).
  { intros g. apply t_local_put; cbn; auto. }
  assert (B : triple i k (localH i k)
       (x <- both c d;;
        if x then
         n <- len c;; m <- len d;;
         if negb (Nat.eqb n m) then raise ValueError
         else
           put_hnd i k (fun h => with_ndata (h_ndata h + n) h);;;
           h <- handler i k;;
           l <- given c;; x <- read l;;
           a <- concat (h_locns h) (o_elems x);; put_hnd i k (with_locns a);;;
           u <- given d;; y <- read u;;
           c <- concat (h_sigmas h) (o_elems y);; put_hnd i k (with_sigmas c)
        else ret tt) (fun _ => localH i k)).
  { tpure. destruct a0.
    - tpure. tpure. destruct (negb _); [apply t_raise|].
      eapply t_bind; [apply Pn|]. cbn beta. intros _.
      eapply t_bind; [apply t_handler_any|]. cbn beta. intros h.
      tpure. tpure. apply t_concat; [apply sets_locns|].
      tpure. tpure. apply t_concat1. apply sets_sigmas.
    - eapply t_conseq; [apply t_ret with (P := localH i k)|auto|]. cbn. tauto. }
  eapply t_bind with (Q := fun _ => localH i k).
  - destruct (truthy_opt a) as [v|]; [|exact B]. destruct (truthy_opt b) as [u|]; [|exact B].
    eapply t_bind; [apply Pn|]. cbn beta. intros _.
    eapply t_bind; [apply t_handler_any|]. cbn beta. intros h.
    apply t_concat; [apply sets_locns|]. apply t_concat1. apply sets_sigmas.
  - intros _. eapply t_bind; [apply t_handler_any|]. cbn beta. intros h.
    tpure. eapply t_bind; [apply Pn|]. cbn beta. intros _.
    destruct (o_kind a0); [apply t_raise|].
    eapply t_bind; [apply t_local_prdxns|]. cbn beta. intros p.
    intros w I _. cbn. auto using ext_refl.
Qed.

Lemma quiet_W : forall w w', quiet w w' -> W w -> W w'.
Proof.
  intros w w' (Q1 & Q2 & _ & Q3) [A B D].
  assert (F : forall i k h', hnds w' i k = Some h' ->
     (exists h, hnds w i k = Some h /\ fields h = fields h' /\ h_globals h = h_globals h')
     \/ (h_globals h' = true /\ forall n, ~ In (AOwn n) (fields h'))).
  { intros i k h' H. specialize (Q3 i k). rewrite H in Q3. destruct (hnds w i k) as [h|]; cbn in Q3.
    - left. destruct Q3 as [p E]. injection E as ->. exists h. auto.
    - right. destruct Q3 as [E|[p E]]; [discriminate|]. injection E as ->. split; [reflexivity|].
      cbn. intros n [K|[K|[K|[]]]]; discriminate. }
  constructor.
  - now rewrite Q1.
  - intros i k h' a H Ha. rewrite Q2. destruct (F i k h' H) as [(h & H0 & Fh & Gh)|[Gh Fh]].
    + rewrite <- Gh. apply (B i k h a H0). now rewrite Fh.
    + destruct a; auto. now apply Fh in Ha.
  - intros i k h j l h' n H H' K K'.
    destruct (F i k h H) as [(g & Hg & Fg & _)|[_ X]]; [|now apply X in K].
    destruct (F j l h' H') as [(g' & Hg' & Fg' & _)|[_ X]]; [|now apply X in K'].
    rewrite <- Fg in K. rewrite <- Fg' in K'. eapply D; eauto.
Qed.
(** ** Data of an instance that does not simulate *)
Definition mine_only (w : state) (i k : nat) : Prop :=
  forall h n, hnds w i k = Some h -> ~ In (ACaller n) (fields h).

Lemma ext_seen : forall i k j l w w', W w -> W w' -> ext j l w w' -> j <> i \/ l <> k ->
  mine_only w i k -> seen w' i k = seen w i k /\ mine_only w' i k.
Proof.
  intros i k j l w w' I I' E Hn M.
  assert (Eh : hnds w' i k = hnds w i k) by (apply (e_hnds _ _ _ _ E); intuition congruence).
  assert (Hs : forall q f, hp w' (AShared q f) = hp w (AShared q f)).
  { intros. now rewrite (w_shared data w' I'), (w_shared data w I). }
  split; [|intros h n H; rewrite Eh in H; now apply M].
  unfold seen. rewrite Eh. destruct (hnds w i k) as [h|] eqn:H; [|now rewrite !Hs].
  assert (F : forall a, In a (fields h) -> hp w' a = hp w a).
  { intros a Ha. destruct a as [q f|n|n].
    - apply Hs.
    - apply (e_heap _ _ _ _ E).
      + exact (w_fields data w I i k h _ H Ha).
      + intros (h' & H' & K). destruct (w_sep data w I i k h j l h' n H H' Ha K). subst. tauto.
    - exfalso. eapply M; eauto. }
  rewrite !F by (cbn; auto). reflexivity.
Qed.

Lemma localize_seen : forall i k w, W w -> mine_only w i k ->
  seen (fst (localize_data (N := N) (U := U) i k w)) i k = seen w i k
  /\ mine_only (fst (localize_data i k w)) i k.
Proof.
  intros i k w I M. unfold localize_data.
  pose proof (q_handler i k w) as Q.
  assert (H : exists h w1, handler i k w = (w1, Ok h) /\ hasH i k h w1).
  { unfold handler. destruct (hnds w i k) as [h|] eqn:E; [eauto|].
    do 2 eexists. split; [reflexivity|]. apply set_hnd_here. }
  destruct H as (h & w1 & E & H). rewrite E in Q. cbn [fst] in Q.
  pose proof (quiet_W _ _ Q I) as I1. rewrite <- (quiet_seen w w1 i k Q).
  assert (M1 : mine_only w1 i k).
  { intros h1 n H1 K. pose proof (proj2 (proj2 (proj2 Q)) i k) as Q3. rewrite H1 in Q3.
    destruct (hnds w i k) as [h0|] eqn:E0; cbn in Q3.
    - destruct Q3 as [p Ep]. injection Ep as ->. apply (M h0 n E0). exact K.
    - destruct Q3 as [Q3|[p Ep]]; [discriminate|]. injection Ep as ->.
      destruct K as [K|[K|[K|[]]]]; discriminate. }
  rewrite (bind_eq i k w w1 h _ _ E). clear E Q I M. destruct (h_globals h) eqn:G; [|now split].
  unfold bind, copy, bind, read, alloc.
  pose proof (fun a => w_fields data w1 I1 i k h a H) as B.
  unfold put_hnd, bind, modify, handler.
  assert (H' : hnds w1 i k = Some h) by exact H. clear H.
  cbn -[Nat.eqb]. rewrite !H'. cbn -[Nat.eqb]. rewrite !upd_eq. cbn -[Nat.eqb].
  rewrite !upd_eq. cbn -[Nat.eqb]. rewrite !upd_eq. cbn -[Nat.eqb].
  split.
  - unfold seen. cbn -[Nat.eqb]. rewrite !upd_eq, H'. cbn -[Nat.eqb].
    assert (X : forall a n, In a (fields h) -> nexta w1 <= n -> addr_eqb a (AOwn n) = false).
    { intros a n Ha Ln. destruct (addr_eqb_spec a (AOwn n)) as [->|]; [|reflexivity].
      specialize (B _ Ha). cbn in B. lia. }
    rewrite !Nat.eqb_refl.
    destruct (Nat.eqb_spec (nexta w1) (S (S (nexta w1)))); [lia|].
    destruct (Nat.eqb_spec (nexta w1) (S (nexta w1))); [lia|].
    destruct (Nat.eqb_spec (S (nexta w1)) (S (S (nexta w1)))); [lia|].
    rewrite !X by (cbn; auto; lia). reflexivity.
  - intros h1 n. cbn -[Nat.eqb]. rewrite !upd_eq. intros E. injection E as <-. cbn.
    intros [K|[K|[K|[]]]]; discriminate.
Qed.

Variable dflt : nat -> option N.
Lemma q_pie : forall i o, quietm (on_pie dflt i o).
Proof.
  intros i o w. unfold on_pie. destruct (run_op dflt o (pie w i)) as [s' r]. cbn.
  split; [reflexivity|]. split; [reflexivity|]. split; [reflexivity|]. intros j l. apply (quiet_refl w).
Qed.
Lemma step_other : forall o w, W w -> W (fst (run_gop noise dflt o w)).
Proof.
  intros o w I.
  destruct o; cbn [run_gop].
  - eapply quiet_W; [apply q_pie|exact I].
  - eapply quiet_W; [apply q_drop, q_handler|exact I].
  - eapply quiet_W; [apply q_drop, q_log_like|exact I].
  - eapply quiet_W; [apply q_drop, q_wssr|exact I].
  - eapply quiet_W; [apply q_drop, q_score|exact I].
  - now apply (t_localize data i k w I).
  - apply (t_sim i k (option_map ACaller locns) (option_map ACaller sigmas)); auto.
    + intros a E. destruct locns; [|discriminate]. injection E as <-. eauto.
    + intros a E. destruct sigmas; [|discriminate]. injection E as <-. eauto.
  - now apply (t_sim1 i k n locn sigma w I).
  - now apply (t_add_sim i k locn sigma (option_map ACaller locns) (option_map ACaller sigmas) w I).
Qed.

Lemma quiet_mine : forall w w' i k, quiet w w' -> mine_only w i k -> mine_only w' i k.
Proof.
  intros w w' i k Q M h n H K. pose proof (proj2 (proj2 (proj2 Q)) i k) as Q3. rewrite H in Q3.
  destruct (hnds w i k) as [h0|] eqn:E0; cbn in Q3.
  - destruct Q3 as [p Ep]. injection Ep as ->. apply (M h0 n E0). exact K.
  - destruct Q3 as [Q3|[p Ep]]; [discriminate|]. injection Ep as ->.
    destruct K as [K|[K|[K|[]]]]; discriminate.
Qed.

Lemma step_seen : forall o w i k, W w -> mine_only w i k -> ~ simulates i k o ->
  seen (fst (run_gop noise dflt o w)) i k = seen w i k
  /\ mine_only (fst (run_gop noise dflt o w)) i k.
Proof.
  intros o w i k I M Hs. pose proof (step_other o w I) as I'.
  assert (Q : forall A (m : G N U A), quietm m ->
     seen (fst (drop m w)) i k = seen w i k /\ mine_only (fst (drop m w)) i k).
  { intros A m H. split; [now apply quiet_seen, q_drop|].
    eapply quiet_mine; [now apply q_drop|exact M]. }
  destruct o as [j o|j l|j l|j l|j m preds|j l|j l a b|j l n a b|j l a b c d]; cbn [run_gop] in *.
  - split; [apply quiet_seen, q_pie|]. eapply quiet_mine; [apply q_pie|exact M].
  - apply Q, q_handler.
  - apply Q, q_log_like.
  - apply Q, q_wssr.
  - apply Q, q_score.
  - destruct (Nat.eq_dec j i) as [->|Hj]; [destruct (Nat.eq_dec l k) as [->|Hl]|].
    + now apply localize_seen.
    + apply (ext_seen i k i l w); auto. now apply (t_localize data i l w I).
    + apply (ext_seen i k j l w); auto. now apply (t_localize data j l w I).
  - assert (Hn : j <> i \/ l <> k).
    { destruct (Nat.eq_dec j i); [|now left]. destruct (Nat.eq_dec l k); [|now right].
      exfalso. apply Hs. cbn. auto. }
    apply (ext_seen i k j l w); auto.
    apply (t_sim j l (option_map ACaller a) (option_map ACaller b)); auto.
    + intros x E. destruct a; [|discriminate]. injection E as <-. eauto.
    + intros x E. destruct b; [|discriminate]. injection E as <-. eauto.
  - assert (Hn : j <> i \/ l <> k).
    { destruct (Nat.eq_dec j i); [|now left]. destruct (Nat.eq_dec l k); [|now right].
      exfalso. apply Hs. cbn. auto. }
    apply (ext_seen i k j l w); auto. now apply (t_sim1 j l n a b w I).
  - assert (Hn : j <> i \/ l <> k).
    { destruct (Nat.eq_dec j i); [|now left]. destruct (Nat.eq_dec l k); [|now right].
      exfalso. apply Hs. cbn. auto. }
    apply (ext_seen i k j l w); auto.
    now apply (t_add_sim j l a b (option_map ACaller c) (option_map ACaller d) w I).
Qed.

Variable mine : nat -> obj N.
Lemma world0_W : W (world0 (U := U) data mine).
Proof. constructor; cbn; [reflexivity|discriminate|discriminate]. Qed.

Lemma grun_W : forall l w, W w -> W (grun noise dflt l w).
Proof. induction l as [|o l IH]; intros w I; cbn; [exact I|]. apply IH. now apply step_other. Qed.

Lemma shared_data : forall l k f,
  hp (grun noise dflt l (world0 (U := U) data mine)) (AShared k f) = data k f.
Proof. intros. apply (w_shared data). apply grun_W. apply world0_W. Qed.

Lemma not_simulating : forall l i k, Forall (fun o => ~ simulates i k o) l ->
  seen (grun noise dflt l (world0 (U := U) data mine)) i k = (data k 0, data k 1, data k 2).
Proof.
  intros l i k F.
  assert (H : forall w, W w -> mine_only w i k -> seen (grun noise dflt l w) i k = seen w i k).
  { induction F as [|o l Ho F IH]; intros w I M; cbn; [reflexivity|].
    destruct (step_seen o w i k I M Ho) as [E M']. rewrite <- E. apply IH; [now apply step_other|exact M']. }
  rewrite H; [reflexivity|apply world0_W|]. intros h n E. discriminate.
Qed.
End Gen.

(** Proofs about grid stepping and do_grid, for every arithmetic. *)

From Coq Require Import ZArith List Bool Arith Lia Permutation.
From Verif Require Import Exn PieModel PieSpec PieLemmas PieLemmas2
  PieGridModel PieGridSpec.
Import ListNotations.
Open Scope exn_scope.

(** ** The zig-zag order *)

Lemma in_upto : forall n k, In k (upto n) <-> (0 <= k < Z.of_nat n)%Z.
Proof.
  intros n k. unfold upto. rewrite in_map_iff. split.
  - intros (i & <- & Hi). apply in_seq in Hi. lia.
  - intros H. exists (Z.to_nat k). split; [lia|]. apply in_seq. lia.
Qed.
Lemma NoDup_upto : forall n, NoDup (upto n).
Proof.
  intros n. unfold upto. apply FinFun.Injective_map_NoDup; [intros a b; lia|apply seq_NoDup].
Qed.
Lemma in_sweep : forall up n k, In k (sweep up n) <-> (0 <= k < Z.of_nat n)%Z.
Proof. intros [] n k; cbn; rewrite <- ?in_rev; apply in_upto. Qed.
Lemma NoDup_sweep : forall up n, NoDup (sweep up n).
Proof. intros [] n; cbn; [|apply NoDup_rev]; apply NoDup_upto. Qed.
Lemma length_sweep : forall up n, length (sweep up n) = n.
Proof. intros [] n; cbn; rewrite ?rev_length; unfold upto; now rewrite map_length, seq_length. Qed.

Lemma in_zigzag : forall n ws up x,
  In x (zigzag up n ws) <-> exists k w, x = k :: w /\ (0 <= k < Z.of_nat n)%Z /\ In w ws.
Proof.
  induction ws as [|w ws IH]; intros up x; cbn.
  - split; [intros []|]. intros (k & w & _ & _ & []).
  - rewrite in_app_iff, in_map_iff, IH. split.
    + intros [(k & <- & Hk)|(k & w' & -> & Hk & Hw)].
      * apply in_sweep in Hk. eauto 8.
      * eauto 8.
    + intros (k & w' & -> & Hk & [->|Hw]).
      * left. exists k. split; auto. now apply in_sweep.
      * right. eauto 8.
Qed.

Lemma NoDup_app_intro : forall A (l1 l2 : list A),
  NoDup l1 -> NoDup l2 -> (forall x, In x l1 -> In x l2 -> False) -> NoDup (l1 ++ l2).
Proof.
  induction l1 as [|a l1 IH]; intros l2 N1 N2 H; [exact N2|].
  inversion N1; subst. cbn. constructor.
  - rewrite in_app_iff. intros [|K]; [contradiction|]. apply (H a); [now left|exact K].
  - apply IH; auto. intros x Hx. apply H. now right.
Qed.

Lemma NoDup_zigzag : forall n ws up, NoDup ws -> NoDup (zigzag up n ws).
Proof.
  induction ws as [|w ws IH]; intros up ND; cbn; [constructor|].
  inversion ND as [|? ? Hn ND']; subst.
  apply NoDup_app_intro.
  - apply FinFun.Injective_map_NoDup; [intros a b E; congruence|apply NoDup_sweep].
  - now apply IH.
  - intros x Hx Hx'. apply in_map_iff in Hx as (k & <- & _).
    apply in_zigzag in Hx' as (k' & w' & E & _ & Hw). congruence.
Qed.

Lemma snake_complete : forall ns ind, In ind (snake ns) <-> in_grid ns ind.
Proof.
  induction ns as [|n ns IH]; intros ind; cbn.
  - split.
    + intros [<-|[]]. constructor.
    + intros H. inversion H. now left.
  - rewrite in_zigzag. split.
    + intros (k & w & -> & Hk & Hw). constructor; [exact Hk|]. now apply IH.
    + intros H. inversion H; subst. do 2 eexists. split; [reflexivity|].
      split; [assumption|]. now apply IH.
Qed.

Lemma snake_NoDup : forall ns, NoDup (snake ns).
Proof.
  induction ns as [|n ns IH]; cbn.
  - repeat constructor; auto.
  - now apply NoDup_zigzag.
Qed.

Lemma consecutive_app : forall A (R : A -> A -> Prop) d l1 l2,
  consecutive R l1 -> consecutive R l2 ->
  (l1 <> [] -> l2 <> [] -> R (last l1 d) (hd d l2)) -> consecutive R (l1 ++ l2).
Proof.
  induction l1 as [|a l1 IH]; intros l2 C1 C2 H; [exact C2|].
  destruct l1 as [|b l1].
  - destruct l2 as [|b l2]; cbn; [exact I|]. split; [|exact C2].
    apply H; discriminate.
  - cbn in C1. destruct C1 as [C0 C1]. split; [exact C0|].
    apply IH; auto. intros _ K. apply H; [discriminate|exact K].
Qed.

Lemma consecutive_map : forall A B (R : A -> A -> Prop) (R' : B -> B -> Prop) f l,
  (forall a b, R a b -> R' (f a) (f b)) -> consecutive R l -> consecutive R' (map f l).
Proof.
  induction l as [|a l IH]; intros H C; [exact I|].
  destruct l as [|b l]; [exact I|]. destruct C as [C0 C]. split; [now apply H|].
  now apply IH.
Qed.

Lemma consecutive_seq : forall n a,
  consecutive (fun x y : Z => (y = x + 1)%Z) (map Z.of_nat (seq a n)).
Proof.
  induction n as [|n IH]; intros a; [exact I|]. destruct n; [exact I|].
  change (seq a (S (S n))) with (a :: seq (S a) (S n)). cbn [map].
  specialize (IH (S a)). cbn in *. split; [lia|]. exact IH.
Qed.

Lemma consecutive_rev : forall A (R R' : A -> A -> Prop) l,
  (forall a b, R a b -> R' b a) -> consecutive R l -> consecutive R' (rev l).
Proof.
  induction l as [|a l IH]; intros H C; [exact I|]. cbn [rev].
  apply consecutive_app with (d := a).
  - apply IH; auto. destruct l; [exact I|]. apply C.
  - exact I.
  - intros K _. cbn. destruct l as [|b l]; [now elim K|]. cbn [rev].
    rewrite last_last. apply H. apply C.
Qed.

Lemma consecutive_sweep : forall up n,
  consecutive (fun x y => x = y + 1 \/ y = x + 1)%Z (sweep up n).
Proof.
  intros [] n; cbn.
  - rewrite <- (map_id (upto n)).
    apply consecutive_map with (R := fun x y : Z => (y = x + 1)%Z); [auto|].
    apply consecutive_seq.
  - apply consecutive_rev with (R := fun x y : Z => (y = x + 1)%Z); [auto|].
    apply consecutive_seq.
Qed.

(** first and last index of a sweep *)
Definition sweep_end (up : bool) (n : nat) : Z := if up then (Z.of_nat n - 1)%Z else 0%Z.

Lemma upto_S : forall n, upto (S n) = upto n ++ [Z.of_nat n].
Proof. intros n. unfold upto. rewrite seq_S, map_app. reflexivity. Qed.
Lemma upto_0 : forall n, upto (S n) = 0%Z :: map Z.of_nat (seq 1 n).
Proof. reflexivity. Qed.

Lemma sweep_hd : forall up n d, 1 <= n -> hd d (sweep up n) = sweep_end (negb up) n.
Proof.
  intros up [|n] d H; [lia|]. destruct up; cbn [sweep negb sweep_end].
  - reflexivity.
  - rewrite upto_S, rev_app_distr. cbn [rev app hd]. lia.
Qed.
Lemma sweep_last : forall up n d, 1 <= n -> last (sweep up n) d = sweep_end up n.
Proof.
  intros up [|n] d H; [lia|]. destruct up; cbn [sweep sweep_end].
  - rewrite upto_S, last_last. lia.
  - rewrite upto_0. cbn [rev]. apply last_last.
Qed.

Lemma sweep_nonempty : forall up n, 1 <= n -> sweep up n <> [].
Proof. intros up n H E. pose proof (length_sweep up n) as L. rewrite E in L. cbn in L. lia. Qed.

Lemma last_map : forall A B (f : A -> B) l d, last (map f l) (f d) = f (last l d).
Proof.
  induction l as [|a l IH]; intros d; [reflexivity|]. destruct l; [reflexivity|].
  cbn [map last] in *. apply IH.
Qed.

Lemma zigzag_adjacent : forall n ws up, 1 <= n -> consecutive neighbours ws ->
  consecutive neighbours (zigzag up n ws).
Proof.
  induction ws as [|w ws IH]; intros up Hn C; [exact I|]. cbn [zigzag].
  apply consecutive_app with (d := 0%Z :: w).
  - apply consecutive_map with (R := fun x y : Z => (x = y + 1 \/ y = x + 1)%Z);
      [intros a b H; now constructor|]. apply consecutive_sweep.
  - apply IH; auto. destruct ws; [exact I|apply C].
  - intros _ Hne. rewrite (last_map _ _ (fun k => k :: w) _ 0%Z), sweep_last by assumption.
    destruct ws as [|w' ws]; [now elim Hne|]. cbn [zigzag].
    pose proof (sweep_hd (negb up) n 0%Z Hn) as Hh. rewrite negb_involutive in Hh.
    pose proof (sweep_nonempty (negb up) n Hn) as Hs.
    destruct (sweep (negb up) n) as [|k l]; [now elim Hs|]. cbn in *. subst k.
    apply nb_there. apply C.
Qed.

Lemma snake_adjacent : forall ns, Forall (fun n => 1 <= n) ns ->
  consecutive neighbours (snake ns).
Proof.
  induction ns as [|n ns IH]; intros H; [exact I|].
  inversion H; subst. cbn [snake]. apply zigzag_adjacent; auto.
Qed.

Lemma length_zigzag : forall n ws up, length (zigzag up n ws) = n * length ws.
Proof.
  induction ws as [|w ws IH]; intros up; cbn; [lia|].
  rewrite app_length, map_length, length_sweep, IH. lia.
Qed.
Lemma length_snake : forall ns, length (snake ns) = fold_right Nat.mul 1 ns.
Proof. induction ns as [|n ns IH]; cbn; [reflexivity|]. now rewrite length_zigzag, IH. Qed.

(** ** The abstract stepping machine: sizes, indices, directions *)
Record ax : Type := Ax { a_n : nat; a_k : Z; a_d : bool }.   (* true: forward *)

Fixpoint astep (l : list ax) : option (list ax) :=
  match l with
  | [] => None
  | Ax n k d :: r =>
      if Z.eqb k (sweep_end d n)
      then match astep r with
           | Some r' => Some (Ax n k (negb d) :: r')
           | None => None
           end
      else Some (Ax n (if d then k + 1 else k - 1)%Z d :: r)
  end.

Definition aidx (l : list ax) : list Z := map a_k l.

Inductive path : list ax -> list (list Z) -> Prop :=
| path_stop : forall l, astep l = None -> path l [aidx l]
| path_step : forall l l' vs, astep l = Some l' -> path l' vs -> path l (aidx l :: vs).

(** the rest of a sweep from index k on *)
Definition rest (d : bool) (n : nat) (j : nat) : list Z := skipn j (sweep d n).

Lemma nth_sweep : forall d n j, j < n ->
  nth j (sweep d n) 0%Z = (if d then Z.of_nat j else Z.of_nat n - 1 - Z.of_nat j)%Z.
Proof.
  intros d n j Hj. destruct d; cbn [sweep].
  - unfold upto. rewrite map_nth with (d := 0) (f := Z.of_nat), seq_nth; lia.
  - rewrite rev_nth by (unfold upto; now rewrite map_length, seq_length).
    unfold upto. rewrite map_length, seq_length, map_nth with (d := 0) (f := Z.of_nat), seq_nth; lia.
Qed.

Lemma skipn_nth : forall A (d : A) j l, j < length l -> skipn j l = nth j l d :: skipn (S j) l.
Proof.
  induction j as [|j IH]; intros [|a l] H; cbn in *; try lia; [reflexivity|].
  apply IH. lia.
Qed.

(** position j of a sweep in direction d *)
Definition at_pos (d : bool) (n j : nat) : Z :=
  (if d then Z.of_nat j else Z.of_nat n - 1 - Z.of_nat j)%Z.

Lemma path_cons : forall r ws, path r ws -> forall n d, 1 <= n ->
  path (Ax n (at_pos d n 0) d :: r) (zigzag d n ws).
Proof.
  induction 1 as [r E|r r' vs E P IH]; intros n d Hn.
  - (* slow part finished: one sweep *)
    assert (K : forall i j, i = n - j -> j < n ->
       path (Ax n (at_pos d n j) d :: r) (map (fun k => k :: aidx r) (skipn j (sweep d n)))).
    { induction i as [|i IHi]; intros j Hi Hj; [lia|].
      rewrite (skipn_nth _ 0%Z) by (now rewrite length_sweep).
      rewrite nth_sweep by assumption. cbn [map].
      destruct (Nat.eq_dec (S j) n) as [<-|Hne].
      - rewrite skipn_all2 by (rewrite length_sweep; lia). cbn [map].
        apply path_stop. cbn [astep].
        replace (Z.eqb _ _) with true.
        + now rewrite E.
        + symmetry. apply Z.eqb_eq. unfold at_pos, sweep_end. destruct d; lia.
      - eapply (path_step (Ax n (at_pos d n j) d :: r)).
        2:{ apply (IHi (S j)); lia. }
        cbn [astep]. replace (Z.eqb _ _) with false.
        + do 3 f_equal. unfold at_pos. destruct d; lia.
        + symmetry. apply Z.eqb_neq. unfold at_pos, sweep_end. destruct d; lia. }
    cbn [zigzag]. rewrite app_nil_r. apply (K n 0); lia.
  - cbn [zigzag].
    assert (K : forall i j, i = n - j -> j < n ->
       path (Ax n (at_pos d n j) d :: r)
         (map (fun k => k :: aidx r) (skipn j (sweep d n)) ++ zigzag (negb d) n vs)).
    { induction i as [|i IHi]; intros j Hi Hj; [lia|].
      rewrite (skipn_nth _ 0%Z) by (now rewrite length_sweep).
      rewrite nth_sweep by assumption. cbn [map app].
      destruct (Nat.eq_dec (S j) n) as [<-|Hne].
      - rewrite skipn_all2 by (rewrite length_sweep; lia). cbn [map app].
        eapply (path_step (Ax (S j) (at_pos d (S j) j) d :: r)).
        2:{ apply (IH (S j) (negb d)); lia. }
        cbn [astep]. replace (Z.eqb _ _) with true.
        + rewrite E. do 3 f_equal. unfold at_pos. destruct d; cbn [negb]; lia.
        + symmetry. apply Z.eqb_eq. unfold at_pos, sweep_end. destruct d; lia.
      - eapply (path_step (Ax n (at_pos d n j) d :: r)).
        2:{ apply (IHi (S j)); lia. }
        cbn [astep]. replace (Z.eqb _ _) with false.
        + do 3 f_equal. unfold at_pos. destruct d; lia.
        + symmetry. apply Z.eqb_neq. unfold at_pos, sweep_end. destruct d; lia. }
    apply (K n 0); lia.
Qed.

Lemma path_snake : forall ns, Forall (fun n => 1 <= n) ns ->
  path (map (fun n => Ax n 0 true) ns) (snake ns).
Proof.
  induction ns as [|n ns IH]; intros H.
  - now apply (path_stop []).
  - inversion H; subst. cbn [map snake].
    apply (path_cons _ _ (IH H3) n true H2).
Qed.

Section Gen.
Context {N : num}.
Notation state := (st N).

(** ** One step of one parameter *)
Record moved (s : state) (p : nat) (k : Z) (v : N) (s' : state) : Prop := {
  mv_ps : forall q, ps s' q = upd (ps s) p (with_value v (with_num k (ps s p))) q;
  mv_f : fixedl s' = fixedl s;
  mv_v : varyl s' = varyl s;
  mv_s : stepl s' = stepl s;
  mv_i : info s' = info s;
  mv_t : trace s' = trace s ++ value_evs (ps s p) p v
}.

(** The value a step to index k leads to, from value v. *)
Definition next_value (h : pst N) (k n : Z) (v v' : N) : Prop :=
  if Z.eqb k (n - 1) then p_shi h = Some v'
  else match p_stype h with
       | Some LinSteps => exists d, p_delta h = Some d /\ v' = add N v d
       | Some LogSteps => exists f, p_fac h = Some f /\ v' = mul N v f
       | None => False
       end.
Definition prev_value (h : pst N) (k : Z) (v v' : N) : Prop :=
  if Z.eqb k 0 then p_slo h = Some v'
  else match p_stype h with
       | Some LinSteps => exists d, p_delta h = Some d /\ v' = sub N v d
       | Some LogSteps => exists f, p_fac h = Some f /\ v' = div N v f
       | None => False
       end.

Record axis_ok (s : state) (p : nat) (a : ax) : Prop := {
  ao_status : p_status (ps s p) = Stepping;
  ao_steps : p_steps (ps s p) = Some (Z.of_nat (a_n a));
  ao_num : p_num (ps s p) = Some (a_k a);
  ao_rng : (0 <= a_k a < Z.of_nat (a_n a))%Z;
  ao_dir : info s p = Some (if a_d a then Nextd else Prevd);
  ao_stp : steppable (ps s p);
  ao_slo : p_slo (ps s p) <> None;
  ao_shi : p_shi (ps s p) <> None;
  ao_val : p_value (ps s p) <> None
}.

Lemma moved_intro : forall p k v (s : state),
  moved s p k v (log_ev (value_evs (ps (upd_p p (with_num k) s) p) p v)
                   (upd_p p (with_value v) (upd_p p (with_num k) s))).
Proof.
  intros. constructor; try reflexivity.
  - intros q. cbn. unfold upd. destruct (Nat.eqb_spec q p); [|reflexivity].
    now rewrite Nat.eqb_refl.
  - cbn. rewrite upd_same. reflexivity.
Qed.

Lemma p_next_ok : forall p (s : state) n k v,
  p_status (ps s p) = Stepping -> p_steps (ps s p) = Some n ->
  p_num (ps s p) = Some k -> p_value (ps s p) = Some v -> k <> (n - 1)%Z ->
  steppable (ps s p) -> p_shi (ps s p) <> None ->
  exists s' v', p_next_step p s = (s', Ok tt) /\ moved s p (k + 1) v' s'
    /\ next_value (ps s p) (k + 1) n v v'.
Proof.
  intros p s n k v Hs Hn Hk Hv Hne [_ Hst] Hh.
  unfold p_next_step, bind at 1, hnd. rewrite Hs, Hk, Hn, Hv. cbn [status_eqb].
  unfold bind at 1, attr at 1. unfold bind at 1, attr at 1.
  destruct (Z.eqb_spec k (n - 1)); [contradiction|].
  unfold bind at 1, put, modify. unfold next_value.
  destruct (p_stype (ps s p)) as [t|]; [|contradiction].
  unfold bind at 1, attr at 1.
  destruct (Z.eqb (k + 1) (n - 1)).
  - destruct (p_shi (ps s p)) as [u|]; [|congruence]. unfold bind, attr.
    rewrite set_value__eq. do 2 eexists. split; [reflexivity|].
    split; [apply moved_intro|reflexivity].
  - unfold bind at 1, attr at 1. destruct t.
    + destruct (p_delta (ps s p)) as [d|]; [|congruence]. unfold bind, attr.
      rewrite set_value__eq. do 2 eexists. split; [reflexivity|].
      split; [apply moved_intro|eauto].
    + destruct (p_fac (ps s p)) as [d|]; [|congruence]. unfold bind, attr.
      rewrite set_value__eq. do 2 eexists. split; [reflexivity|].
      split; [apply moved_intro|eauto].
Qed.

Lemma p_prev_ok : forall p (s : state) k v,
  p_status (ps s p) = Stepping ->
  p_num (ps s p) = Some k -> p_value (ps s p) = Some v -> k <> 0%Z ->
  steppable (ps s p) -> p_slo (ps s p) <> None ->
  exists s' v', p_prev_step p s = (s', Ok tt) /\ moved s p (k - 1) v' s'
    /\ prev_value (ps s p) (k - 1) v v'.
Proof.
  intros p s k v Hs Hk Hv Hne [_ Hst] Hh.
  unfold p_prev_step, bind at 1, hnd. rewrite Hs, Hk, Hv. cbn [status_eqb].
  unfold bind at 1, attr at 1.
  destruct (Z.eqb_spec k 0); [contradiction|].
  unfold bind at 1, put, modify. unfold prev_value.
  destruct (p_stype (ps s p)) as [t|]; [|contradiction].
  unfold bind at 1, attr at 1.
  destruct (Z.eqb (k - 1) 0).
  - destruct (p_slo (ps s p)) as [u|]; [|congruence]. unfold bind, attr.
    rewrite set_value__eq. do 2 eexists. split; [reflexivity|].
    split; [apply moved_intro|reflexivity].
  - unfold bind at 1, attr at 1. destruct t.
    + destruct (p_delta (ps s p)) as [d|]; [|congruence]. unfold bind, attr.
      rewrite set_value__eq. do 2 eexists. split; [reflexivity|].
      split; [apply moved_intro|eauto].
    + destruct (p_fac (ps s p)) as [d|]; [|congruence]. unfold bind, attr.
      rewrite set_value__eq. do 2 eexists. split; [reflexivity|].
      split; [apply moved_intro|eauto].
Qed.

Lemma p_next_end : forall p (s : state) n k,
  p_status (ps s p) = Stepping -> p_steps (ps s p) = Some n ->
  p_num (ps s p) = Some k -> k = (n - 1)%Z ->
  p_next_step p s = (s, Err ParamRangeError).
Proof.
  intros p s n k Hs Hn Hk ->. unfold p_next_step, bind at 1, hnd.
  rewrite Hs, Hk, Hn. cbn [status_eqb].
  unfold bind at 1, attr at 1. unfold bind at 1, attr at 1. now rewrite Z.eqb_refl.
Qed.
Lemma p_prev_end : forall p (s : state),
  p_status (ps s p) = Stepping -> p_num (ps s p) = Some 0%Z ->
  p_prev_step p s = (s, Err ParamRangeError).
Proof.
  intros p s Hs Hk. unfold p_prev_step, bind at 1, hnd. rewrite Hs, Hk. reflexivity.
Qed.

(** One step of a parameter, up or down. *)
Definition stepped (h h' : pst N) : Prop :=
  exists k n v v', p_num h = Some k /\ p_steps h = Some n /\ p_value h = Some v /\
    ((k <> n - 1 /\ h' = with_value v' (with_num (k + 1) h) /\ next_value h (k + 1) n v v')
     \/ (k <> 0 /\ h' = with_value v' (with_num (k - 1) h) /\ prev_value h (k - 1) v v'))%Z.

Lemma moved_axis : forall (s : state) p a k v s' q b,
  moved s p k v s' -> axis_ok s p a -> axis_ok s q b ->
  axis_ok s' q (if Nat.eqb q p then Ax (a_n b) k (a_d b) else b)
  \/ ~ (0 <= k < Z.of_nat (a_n a))%Z.
Proof.
  intros s p a k v s' q b M A B.
  assert (D : (0 <= k < Z.of_nat (a_n a))%Z \/ ~ (0 <= k < Z.of_nat (a_n a))%Z) by lia.
  destruct D as [D|D]; [left|now right].
  assert (EI : info s' q = info s q) by now rewrite (mv_i _ _ _ _ _ M).
  pose proof (mv_ps _ _ _ _ _ M q) as E. unfold upd in E.
  destruct (Nat.eqb_spec q p) as [->|Hq].
  - destruct A as [A1 A2 A3 A4 A5 A6 A7 A8 A9]. destruct B as [B1 B2 B3 B4 B5 B6 B7 B8 B9].
    constructor; rewrite ?E, ?EI; cbn; auto; try congruence.
  - destruct B as [B1 B2 B3 B4 B5 B6 B7 B8 B9].
    constructor; rewrite ?E, ?EI; auto.
Qed.

Lemma set_info_axis : forall (s : state) p d q b, axis_ok s q b -> q <> p ->
  axis_ok (set_info p d s) q b.
Proof.
  intros s p d q b [B1 B2 B3 B4 B5 B6 B7 B8 B9] H. constructor; cbn; auto.
  now rewrite upd_other.
Qed.
Lemma set_info_axis_self : forall (s : state) p (d : bool) b, axis_ok s p b ->
  axis_ok (set_info p (Some (if d then Nextd else Prevd)) s) p (Ax (a_n b) (a_k b) d).
Proof.
  intros s p d b [B1 B2 B3 B4 B5 B6 B7 B8 B9]. constructor; cbn; auto.
  now rewrite upd_same.
Qed.

Lemma last_cons_ne : forall A (a d : A) l, l <> [] -> last (a :: l) d = last l d.
Proof. intros A a d [|b l] H; [now elim H|reflexivity]. Qed.

(** effect of a successful or final grid step on the parameters *)
Definition only_steps (l : list nat) (s s' : state) : Prop :=
  (forall q, ~ In q l -> ps s' q = ps s q /\ info s' q = info s q)
  /\ (forall q, In q l -> ps s' q = ps s q \/ stepped (ps s q) (ps s' q))
  /\ fixedl s' = fixedl s /\ varyl s' = varyl s /\ stepl s' = stepl s.

Lemma Inv_moved : forall (s : state) p k v s', Inv s -> p_status (ps s p) = Stepping ->
  moved s p k v s' -> Inv s'.
Proof.
  intros s p k v s' [L H] Hs M.
  assert (K : forall q, p_status (ps s' q) = p_status (ps s q)).
  { intros q. rewrite (mv_ps _ _ _ _ _ M). unfold upd. destruct (Nat.eqb_spec q p); [subst|]; auto. }
  constructor.
  - constructor; rewrite ?(mv_f _ _ _ _ _ M), ?(mv_v _ _ _ _ _ M), ?(mv_s _ _ _ _ _ M),
      ?(mv_i _ _ _ _ _ M); try (intros q; rewrite K); apply L.
  - intros q. rewrite (mv_ps _ _ _ _ _ M). unfold upd. destruct (Nat.eqb_spec q p); [|apply H].
    subst. hokd; apply H.
Qed.

Lemma grid_loop_sim : forall al l (s : state) last0,
  NoDup l -> l <> [] -> last l last0 = last0 ->
  (forall p, In p l -> In p (stepl s)) ->
  Forall2 (axis_ok s) l al -> Inv s ->
  match astep al with
  | Some al' => exists s', grid_step_loop last0 l s = (s', Ok tt)
       /\ Inv s' /\ Forall2 (axis_ok s') l al' /\ only_steps l s s'
  | None => exists s1 s', grid_step_loop last0 l s = (s', Err StopStepping)
       /\ Inv s' /\ reset_rel s1 s' /\ ps s1 = ps s
       /\ fixedl s1 = fixedl s /\ varyl s1 = varyl s /\ stepl s1 = stepl s
  end.
Proof.
  induction al as [|[n k d] al IH]; intros l s last0 ND Hne Hlast Hin F I.
  { inversion F; subst. now elim Hne. }
  destruct l as [|p l]; [inversion F|].
  assert (A : axis_ok s p (Ax n k d)) by now inversion F.
  assert (F0 : Forall2 (axis_ok s) l al) by now inversion F. clear F; rename F0 into F. inversion ND as [|? ? Hnp ND']; subst.
  cbn [astep grid_step_loop]. rewrite (ao_dir _ _ _ A). cbn [a_d].
  destruct (p_value (ps s p)) as [v|] eqn:Ev; [|exfalso; now apply (ao_val _ _ _ A)].
  pose proof (ao_rng _ _ _ A) as Rng. cbn [a_k a_n] in Rng.
  destruct (Z.eqb_spec k (sweep_end d n)) as [Ek|Ek].
  - (* at the end of the sweep *)
    assert (EE : (match (if d then Nextd else Prevd) with
                  | Nextd => p_next_step p | Prevd => p_prev_step p end) s
                 = (s, Err ParamRangeError)).
    { destruct d; cbn [sweep_end] in Ek.
      - eapply p_next_end; eauto; try apply A.
      - apply p_prev_end; [apply A|]. rewrite (ao_num _ _ _ A). cbn. congruence. }
    rewrite EE.
    destruct (Nat.eqb_spec p last0) as [->|Hp].
    + assert (l = []).
      { destruct l as [|b l]; [reflexivity|]. exfalso. apply Hnp.
        rewrite last_cons_ne in Hlast by discriminate. rewrite <- Hlast.
        clear. generalize dependent b. induction l as [|c l IH]; intros b; cbn; auto.
        right. apply IH. }
      subst l. inversion F; subst. cbn [astep].
      destruct (reset_good s I) as (s' & E & I' & R).
      exists s, s'. unfold bind. rewrite E. cbn. split; [reflexivity|].
      split; [exact I'|]. split; [exact R|]. repeat split; reflexivity.
    + assert (Hl : l <> []).
      { intros ->. cbn in Hlast. congruence. }
      unfold bind, modify.
      set (s1 := set_info p (Some (reverse_direction (if d then Nextd else Prevd))) s).
      assert (I1 : Inv s1) by (apply set_info_Inv; auto; apply Hin; now left).
      assert (F1 : Forall2 (axis_ok s1) l al).
      { clear IH. assert (G : forall q, In q l -> q <> p) by (intros q Hq ->; contradiction).
        clear -F G. induction F as [|q b l al Hqb F IHF]; constructor.
        - apply set_info_axis; auto. apply G. now left.
        - apply IHF. intros r Hr. apply G. now right. }
      rewrite last_cons_ne in Hlast by assumption.
      specialize (IH l s1 last0 ND' Hl Hlast
                    (fun q Hq => Hin q (or_intror Hq)) F1 I1).
      destruct (astep al) as [al'|].
      * destruct IH as (s' & E & I' & F' & (O1 & O2 & O3)).
        exists s'. split; [exact E|]. split; [exact I'|].
        assert (P1 : ps s' p = ps s p /\ info s' p = Some (if negb d then Nextd else Prevd)).
        { destruct (O1 p Hnp) as [Q1 Q2]. split; [exact Q1|].
          rewrite Q2. unfold s1; cbn. rewrite upd_same. now destruct d. }
        split.
        -- constructor; [|exact F']. destruct A as [A1 A2 A3 A4 A5 A6 A7 A8 A9].
           constructor; rewrite ?(proj1 P1); auto. apply P1.
        -- split; [|split]; auto.
           ++ intros q Hq. destruct (O1 q) as [Q1 Q2]; [intros K; apply Hq; now right|].
              split; [exact Q1|]. rewrite Q2. unfold s1; cbn. apply upd_other.
              intros ->. apply Hq. now left.
           ++ intros q [<-|Hq]; [left; apply P1|]. destruct (O2 q Hq); auto.
      * destruct IH as (s2 & s' & E & I' & R & P & L1 & L2 & L3).
        exists s2, s'. split; [exact E|]. split; [exact I'|]. split; [exact R|].
        split; [exact P|]. split; [exact L1|]. split; [exact L2|exact L3].
  - (* inside the sweep *)
    assert (EE : exists s' v', (match (if d then Nextd else Prevd) with
                  | Nextd => p_next_step p | Prevd => p_prev_step p end) s
                 = (s', Ok tt) /\ moved s p (if d then k + 1 else k - 1)%Z v' s'
                 /\ stepped (ps s p) (with_value v' (with_num (if d then k + 1 else k - 1)%Z (ps s p)))).
    { destruct d; cbn [sweep_end] in Ek.
      - destruct (p_next_ok p s (Z.of_nat n) k v) as (s' & v' & E & M & NV); try apply A; auto.
        exists s', v'. split; [exact E|]. split; [exact M|].
        exists k, (Z.of_nat n), v, v'. repeat split; try apply A; auto.
      - destruct (p_prev_ok p s k v) as (s' & v' & E & M & NV); try apply A; auto.
        exists s', v'. split; [exact E|]. split; [exact M|].
        exists k, (Z.of_nat n), v, v'. repeat split; try apply A; auto. }
    destruct EE as (s' & v' & E & M & Sd). rewrite E. exists s'. split; [reflexivity|].
    split; [eapply Inv_moved; eauto; apply A|].
    assert (Rk : (0 <= (if d then k + 1 else k - 1) < Z.of_nat n)%Z).
    { unfold sweep_end in Ek. destruct d; lia. }
    split.
    + constructor.
      * destruct (moved_axis _ _ _ _ _ _ p _ M A A) as [K|K]; [|contradiction].
        now rewrite Nat.eqb_refl in K.
      * assert (G : forall q, In q l -> q <> p) by (intros q Hq ->; contradiction).
        clear -F G M A Rk. induction F as [|q b l al Hqb F IHF]; constructor.
        -- destruct (moved_axis _ _ _ _ _ _ q _ M A Hqb) as [K|K]; [|contradiction].
           destruct (Nat.eqb_spec q p) as [->|]; [exfalso; eapply G; eauto; now left|exact K].
        -- apply IHF. intros r Hr. apply G. now right.
    + split; [|split].
      * intros q Hq. rewrite (mv_ps _ _ _ _ _ M), (mv_i _ _ _ _ _ M).
        rewrite upd_other by (intros ->; apply Hq; now left). auto.
      * intros q Hq. rewrite (mv_ps _ _ _ _ _ M). unfold upd.
        destruct (Nat.eqb_spec q p) as [->|]; [right; exact Sd|now left].
      * repeat split; apply M.
Qed.

End Gen.

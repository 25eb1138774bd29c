(** The search for steps. *)

From Coq Require Import List Bool Arith Reals Lra Lia.
From Verif Require Import Exn Instances CountSpec CountLemmas McModel McLemmas9 BaModel BaSpec BaLemmas ObsModel ObsSpec ObsLemmas ObsLemmas2 ObsLemmas3 ObsLemmas4.
Import ListNotations.
Open Scope R_scope.

Lemma rltb_no : forall a b, b <= a -> Rltb a b = false.
Proof. intros a b H. apply Rltb_false. lra. Qed.
Lemma rltb_yes : forall a b, a < b -> Rltb a b = true.
Proof. intros a b H. now apply Rltb_spec. Qed.

Section Search.
Variable lf : list R -> res R.
Variables (fmax df tol : R) (i : nat) (x dx : list R) (d : R).
Hypothesis Hi : (i < length x)%nat.
Hypothesis Hd : rd dx i = Ok d.

Lemma set_x_at : forall v t, set_x i v (Scales (upd i t x) dx) = (Scales (upd i v x) dx, Ok tt).
Proof. intros v t. unfold set_x. cbn [sc_x sc_dx]. rewrite wr_ok by (rewrite upd_len; exact Hi). now rewrite upd_upd by exact Hi. Qed.
Lemma get_x_at : forall t, get_x i (Scales (upd i t x) dx) = (Scales (upd i t x) dx, Ok t).
Proof. intros t. unfold get_x. cbn [sc_x]. now rewrite rd_upd, Nat.eqb_refl by exact Hi. Qed.
Lemma get_dx_at : forall t, get_dx i (Scales (upd i t x) dx) = (Scales (upd i t x) dx, Ok d).
Proof. intros t. unfold get_dx. cbn [sc_dx]. now rewrite Hd. Qed.

(** What stops the search: a value above the maximum *)
Definition above (st : nat) : Prop := st = 3%nat \/ (st = 2%nat /\ exists t v, lf (upd i t x) = Ok v /\ fmax < v).

Lemma guess_any : forall fuel x0 s t, exists t' r, guess lf fuel fmax i x0 s (Scales (upd i t x) dx) = (Scales (upd i t' x) dx, r) /\
  (forall st, r = Ok (Stop st) -> above st) /\ (forall s' del, r = Ok (Go (s', del)) -> 0 < del) /\ (forall e, r = Err e -> e = OutOfFuel \/ exists p, lf p = Err e).
Proof.
  intros fuel. induction fuel as [|fuel IH]; intros x0 s t; cbn [guess].
  - exists t, (Err OutOfFuel). split; [reflexivity|]. split; [discriminate|]. split; [discriminate|]. intros e E. injection E as <-. now left.
  - unfold bind at 1. rewrite get_dx_at. unfold bind at 1. rewrite set_x_at. unfold bind at 1, call_f. cbn [sc_x].
    destruct (lf (upd i (x0 + s * d) x)) as [fnew|e] eqn:E.
    2:{ exists (x0 + s * d), (Err e). split; [reflexivity|]. split; [discriminate|]. split; [discriminate|]. intros e' E'. injection E' as <-. right. now exists (upd i (x0 + s * d) x). }
    destruct (Rltb fmax fnew) eqn:C.
    { apply Rltb_spec in C. exists (x0 + s * d), (Ok (Stop 2)). split; [reflexivity|]. split; [|split; discriminate]. intros st S. injection S as <-. right. split; [reflexivity|]. now exists (x0 + s * d), fnew. }
    destruct (Rleb (fmax - fnew) 0) eqn:C2; [apply IH|].
    apply Rleb_false in C2. exists (x0 + s * d), (Ok (Go (s, fmax - fnew))). split; [reflexivity|]. split; [discriminate|]. split; [|discriminate]. intros s' del S. injection S as <- <-. lra.
Qed.
Lemma newton_any : forall left f_c s t, exists t' r, newton lf left fmax f_c tol i s (Scales (upd i t x) dx) = (Scales (upd i t' x) dx, r) /\
  (forall st, r = Ok (Stop st) -> above st) /\ (r = Ok (Go tt) -> exists v, lf (upd i t' x) = Ok v /\ v <= fmax /\ Rabs (v - f_c) <= tol) /\ (forall e, r = Err e -> e = NotFinite \/ exists p, lf p = Err e).
Proof.
  intros left. induction left as [|left IH]; intros f_c s t; cbn [newton]; unfold bind at 1, call_f; cbn [sc_x].
  - destruct (lf (upd i t x)) as [fnew|e] eqn:E.
    2:{ exists t, (Err e). split; [reflexivity|]. split; [discriminate|]. split; [discriminate|]. intros e' E'. injection E' as <-. right. now exists (upd i t x). }
    destruct (Rltb fmax fnew) eqn:C.
    { apply Rltb_spec in C. exists t, (Ok (Stop 2)). split; [reflexivity|]. split; [|split; discriminate]. intros st S. injection S as <-. right. split; [reflexivity|]. now exists t, fnew. }
    exists t, (Ok (Stop 3)). split; [reflexivity|]. split; [|split; discriminate]. intros st S. injection S as <-. now left.
  - destruct (lf (upd i t x)) as [fnew|e] eqn:E.
    2:{ exists t, (Err e). split; [reflexivity|]. split; [discriminate|]. split; [discriminate|]. intros e' E'. injection E' as <-. right. now exists (upd i t x). }
    destruct (Rltb fmax fnew) eqn:C.
    { apply Rltb_spec in C. exists t, (Ok (Stop 2)). split; [reflexivity|]. split; [|split; discriminate]. intros st S. injection S as <-. right. split; [reflexivity|]. now exists t, fnew. }
    apply Rltb_false in C. destruct (Rltb tol (Rabs (fnew - f_c))) eqn:C2.
    2:{ apply Rltb_false in C2. exists t, (Ok (Go tt)). split; [reflexivity|]. split; [discriminate|]. split; [|discriminate]. intros _. exists fnew. split; [exact E|]. split; lra. }
    unfold bind at 1. rewrite get_x_at. unfold bind at 1. rewrite get_dx_at. unfold bind at 1. rewrite set_x_at. unfold bind at 1. cbn [sc_x].
    destruct (lf (upd i (t + s * d) x)) as [fp|e] eqn:E2.
    2:{ exists (t + s * d), (Err e). split; [reflexivity|]. split; [discriminate|]. split; [discriminate|]. intros e' E'. injection E' as <-. right. now exists (upd i (t + s * d) x). }
    destruct (Rltb fmax fp) eqn:C3.
    { apply Rltb_spec in C3. exists (t + s * d), (Ok (Stop 2)). split; [reflexivity|]. split; [|split; discriminate]. intros st S. injection S as <-. right. split; [reflexivity|]. now exists (t + s * d), fp. }
    destruct (Reqb (s * d) 0).
    { exists (t + s * d), (Err NotFinite). split; [reflexivity|]. split; [discriminate|]. split; [discriminate|]. intros e' E'. injection E' as <-. now left. }
    destruct (Reqb ((fp - fnew) / (s * d)) 0).
    { exists (t + s * d), (Err NotFinite). split; [reflexivity|]. split; [discriminate|]. split; [discriminate|]. intros e' E'. injection E' as <-. now left. }
    unfold bind at 1. rewrite get_x_at. unfold bind at 1. rewrite set_x_at. apply IH.
Qed.
Lemma scale_one_any : forall fuel maxnr, exists t dx' r, scale_one lf fuel fmax df maxnr tol i (Scales x dx) = (Scales (upd i t x) dx', r) /\
  (forall st, r = Ok (Stop st) -> above st) /\ ((forall u, r <> Ok (Go u)) -> dx' = dx) /\
  (forall e, r = Err e -> e = OutOfFuel \/ e = NotFinite \/ exists p, lf p = Err e) /\
  (r = Ok (Go tt) -> upd i t x = x /\ exists u v, dx' = upd i u dx /\ lf (upd i (nth i x 0 + u) x) = Ok v /\ v <= fmax /\ Rabs (v - (fmax - df)) <= tol).
Proof.
  intros fuel maxnr. assert (X0 : rd x i = Ok (nth i x 0)) by now apply rd_nth. assert (B := upd_same _ i (nth i x 0) x X0 Hi).
  unfold scale_one. unfold bind at 1, get_x at 1. cbn [sc_x]. rewrite X0. unfold bind at 1.
  destruct (guess_any fuel (nth i x 0) 1 (nth i x 0)) as [t [r [E [A1 [A2 A3]]]]]. rewrite B in E. rewrite E.
  destruct r as [[[s del]|st]|e].
  - specialize (A2 s del eq_refl). destruct (Rltb df 0).
    { exists t, dx, (Err NotFinite). split; [reflexivity|]. split; [discriminate|]. split; [reflexivity|]. split; [|discriminate]. intros e E'. injection E' as <-. right. now left. }
    unfold bind at 1. rewrite get_dx_at. unfold bind at 1. rewrite set_x_at. unfold bind at 1.
    destruct (newton_any maxnr (fmax - df) s (nth i x 0 + s * d * sqrt (df / del))) as [t' [r [E2 [A4 [A5 A6]]]]]. rewrite E2.
    destruct r as [[[]|st]|e].
    + destruct (A5 eq_refl) as [v [V1 [V2 V3]]]. unfold bind at 1. rewrite get_x_at. unfold bind at 1, set_dx. cbn [sc_x sc_dx]. rewrite wr_ok by exact (rd_len _ _ _ _ Hd).
      unfold bind at 1, set_x. cbn [sc_x sc_dx]. rewrite wr_ok by (rewrite upd_len; exact Hi). rewrite upd_upd by exact Hi.
      exists (nth i x 0), (upd i (t' - nth i x 0) dx), (Ok (Go tt)). split; [reflexivity|]. split; [discriminate|]. split; [intros N; elim (N tt); reflexivity|]. split; [discriminate|]. intros _. split; [exact B|].
      exists (t' - nth i x 0), v. split; [reflexivity|]. replace (nth i x 0 + (t' - nth i x 0)) with t' by ring. split; [exact V1|split; assumption].
    + exists t', dx, (Ok (Stop st)). split; [reflexivity|]. split; [intros st' S; injection S as <-; now apply A4|]. split; [reflexivity|]. split; discriminate.
    + exists t', dx, (Err e). split; [reflexivity|]. split; [discriminate|]. split; [reflexivity|]. split; [|discriminate]. intros e' E'. injection E' as <-. right. now apply A6.
  - exists t, dx, (Ok (Stop st)). split; [reflexivity|]. split; [intros st' S; injection S as <-; now apply A1|]. split; [reflexivity|]. split; discriminate.
  - exists t, dx, (Err e). split; [reflexivity|]. split; [discriminate|]. split; [reflexivity|]. split; [|discriminate]. intros e' E'. injection E' as <-. destruct (A3 e eq_refl); [now left|right; now right].
Qed.
End Search.

Section All.
Variable lf : list R -> res R.
Variables (fmax df tol : R) (maxnr fuel : nat).

(** A step that meets the target *)
Definition meets (x : list R) (k : nat) (u : R) : Prop := exists v, lf (upd k (nth k x 0 + u) x) = Ok v /\ v <= fmax /\ Rabs (v - (fmax - df)) <= tol.
Lemma scale_all_any : forall x m lo dx, (lo + m = length x)%nat -> length dx = length x -> (forall k, (k < lo)%nat -> meets x k (nth k dx 0)) ->
  exists x' dx' r, scale_all lf fuel fmax df maxnr tol (seq lo m) (Scales x dx) = (Scales x' dx', r) /\
    (exists k t, (k < length x)%nat /\ x' = upd k t x \/ x' = x) /\ length dx' = length dx /\
    (forall st, r = Ok st -> st <> 1%nat -> exists k, (k < length x)%nat /\ above lf fmax k x st) /\
    (forall e, r = Err e -> e = OutOfFuel \/ e = NotFinite \/ exists p, lf p = Err e) /\
    (r = Ok 1%nat -> x' = x /\ forall k, (k < length x)%nat -> meets x k (nth k dx' 0)).
Proof.
  intros x m. induction m as [|m IH]; intros lo dx Hm HL HP; cbn [seq scale_all].
  - exists x, dx, (Ok 1%nat). split; [reflexivity|]. split; [exists 0%nat, 0; now right|]. split; [reflexivity|]. split; [intros st S N; injection S as <-; lia|]. split; [discriminate|].
    intros _. split; [reflexivity|]. intros k Hk. apply HP. lia.
  - assert (Hlo : (lo < length x)%nat) by lia. unfold bind at 1.
    destruct (scale_one_any lf fmax df tol lo x dx (nth lo dx 0) Hlo ltac:(apply rd_nth; lia) fuel maxnr) as [t [dx' [r [E [A1 [A2 [A3 A4]]]]]]]. rewrite E.
    destruct r as [[[]|st]|e].
    + destruct (A4 eq_refl) as [B [u [v [U [V1 [V2 V3]]]]]]. rewrite B.
      assert (L' : length dx' = length x) by (rewrite U, upd_len; lia).
      destruct (IH (S lo) dx' ltac:(lia) L') as [x2 [dx2 [r2 [E2 [C1 [C2 [C3 [C4 C5]]]]]]]].
      { intros k Hk. rewrite U. destruct (Nat.eq_dec k lo) as [->|N].
        - rewrite (nth_rd _ lo u) by (rewrite rd_upd, Nat.eqb_refl by lia; reflexivity). exists v. split; [exact V1|split; assumption].
        - rewrite (nth_rd _ k (nth k dx 0)) by (rewrite rd_upd, eqb_no by lia; apply rd_nth; lia). apply HP. lia. }
      exists x2, dx2, r2. split; [exact E2|]. split; [exact C1|]. split; [lia|]. split; [exact C3|]. split; [exact C4|exact C5].
    + specialize (A1 st eq_refl). exists (upd lo t x), dx', (Ok st). split; [reflexivity|]. split; [exists lo, t; left; split; [exact Hlo|reflexivity]|].
      split; [now rewrite A2 by discriminate|]. split; [intros st' S _; injection S as <-; exists lo; now split|]. split; [discriminate|].
      intros S. injection S as ->. destruct A1 as [A1|[A1 _]]; discriminate.
    + exists (upd lo t x), dx', (Err e). split; [reflexivity|]. split; [exists lo, t; left; split; [exact Hlo|reflexivity]|]. split; [now rewrite A2 by discriminate|]. split; [discriminate|]. split; [intros e0 E0; injection E0 as <-; now apply A3|discriminate].
Qed.
End All.

(** ** dllsteps *)
Section Dll.
Variable lf : list R -> res R.
Variables (fuel maxiter : nat) (dll tol : R).

Definition top_of (maxll : option R) (x : list R) : res R := match maxll with Some v => Ok v | None => lf x end.
Lemma dll_unfold : forall maxll x dx top, top_of maxll x = Ok top -> length dx = length x ->
  dllsteps lf fuel dll maxll maxiter tol (Scales x dx) =
  (let '(s, r) := scale_all lf fuel top dll maxiter tol (seq 0 (length x)) (Scales x dx) in
   match r with Err e => (s, Err e) | Ok st => if Nat.eqb st 3 then (s, Err RuntimeError) else if Nat.eqb st 2 then (s, Err ValueError) else (s, Ok (sc_dx s)) end).
Proof.
  intros maxll x dx top HT HL. unfold dllsteps. unfold bind at 1, get. unfold bind at 1.
  assert (X : match maxll with Some v => ret v | None => call_f lf end (Scales x dx) = (Scales x dx, Ok top)).
  { destruct maxll; unfold top_of in HT; [injection HT as ->; reflexivity|]. unfold call_f. cbn [sc_x]. now rewrite HT. }
  rewrite X. cbn [sc_x sc_dx]. rewrite HL, Nat.eqb_refl. cbn [negb]. unfold bind at 1.
  destruct (scale_all _ _ _ _ _ _ _ _) as [s [st|e]]; [|reflexivity]. destruct (Nat.eqb st 3); [reflexivity|]. destruct (Nat.eqb st 2); [reflexivity|]. reflexivity.
Qed.
Lemma dll_start : forall maxll x dx s' r, dllsteps lf fuel dll maxll maxiter tol (Scales x dx) = (s', r) ->
  (exists top, top_of maxll x = Ok top /\ length dx = length x) \/ (s' = Scales x dx /\ ((exists e, r = Err e /\ lf x = Err e) \/ (r = Err ValueError /\ length dx <> length x))).
Proof.
  intros maxll x dx s' r H. destruct (Nat.eq_dec (length dx) (length x)) as [HL|HL].
  - destruct (top_of maxll x) as [top|e] eqn:HT; [left; now exists top|]. right. destruct maxll; [discriminate|]. cbn in HT. unfold dllsteps, bind, get, call_f in H. cbn [sc_x] in H. rewrite HT in H. injection H as <- <-.
    split; [reflexivity|]. left. now exists e.
  - right. unfold dllsteps in H. unfold bind at 1, get in H. unfold bind at 1 in H. cbn [sc_x sc_dx] in H. rewrite eqb_no in H by exact HL. cbn [negb] in H.
    destruct maxll as [v|].
    + unfold ret, raise in H. injection H as <- <-. split; [reflexivity|]. right. now split.
    + unfold call_f in H. cbn [sc_x] in H. destruct (lf x) as [v|e] eqn:E; unfold raise in H; injection H as <- <-; (split; [reflexivity|]).
      * right. now split.
      * left. now exists e.
Qed.

Lemma dll_success : forall maxll x dx s' deltas, dllsteps lf fuel dll maxll maxiter tol (Scales x dx) = (s', Ok deltas) ->
  sc_x s' = x /\ sc_dx s' = deltas /\ length deltas = length x /\
  exists top, top_of maxll x = Ok top /\ forall i, (i < length x)%nat -> exists v, lf (moved x (axis i (nth i deltas 0))) = Ok v /\ v <= top /\ Rabs ((top - v) - dll) <= tol.
Proof.
  intros maxll x dx s' deltas H. destruct (dll_start _ _ _ _ _ H) as [[top [HT HL]]|[_ [[e [E _]]|[E _]]]]; [|discriminate|discriminate].
  rewrite (dll_unfold _ _ _ _ HT HL) in H.
  destruct (scale_all_any lf top dll tol maxiter fuel x (length x) 0 dx eq_refl HL ltac:(intros; lia)) as [x' [dx' [r [E [C1 [C2 [C3 [C4 C5]]]]]]]].
  rewrite E in H. destruct r as [st|e]; [|discriminate].
  destruct (Nat.eqb_spec st 3) as [S3|N3]; [discriminate|]. destruct (Nat.eqb_spec st 2) as [S2|N2]; [discriminate|].
  assert (st = 1%nat) as S1. { destruct (Nat.eq_dec st 1) as [|N1]; [assumption|]. destruct (C3 st eq_refl N1) as [k [_ [A|[A _]]]]; contradiction. } subst st.
  destruct (C5 eq_refl) as [-> M]. injection H as <- <-. cbn [sc_x sc_dx]. split; [reflexivity|]. split; [reflexivity|]. split; [lia|]. exists top. split; [exact HT|].
  intros i Hi. destruct (M i Hi) as [v [V1 [V2 V3]]]. exists v. rewrite <- (moved_axis x i (nth i dx' 0) (axis i (nth i dx' 0)) Hi) by reflexivity. split; [exact V1|]. split; [exact V2|].
  rewrite <- Rabs_Ropp. replace (- (top - v - dll)) with (v - (top - dll)) by ring. exact V3.
Qed.
(** However the call ends, at most one component of the mode is changed. *)
Lemma dll_one_changed : forall maxll x dx s' r, dllsteps lf fuel dll maxll maxiter tol (Scales x dx) = (s', r) ->
  length (sc_x s') = length x /\ exists i, forall k, (k < length x)%nat -> k <> i -> nth k (sc_x s') 0 = nth k x 0.
Proof.
  intros maxll x dx s' r H. destruct (dll_start _ _ _ _ _ H) as [[top [HT HL]]|[-> _]].
  2:{ split; [reflexivity|]. exists 0%nat. reflexivity. }
  rewrite (dll_unfold _ _ _ _ HT HL) in H.
  destruct (scale_all_any lf top dll tol maxiter fuel x (length x) 0 dx eq_refl HL ltac:(intros; lia)) as [x' [dx' [r' [E [[k [t C1]] _]]]]].
  rewrite E in H. assert (S : sc_x s' = x').
  { destruct r' as [st|e]; [|now injection H as <- _]. destruct (Nat.eqb st 3); [now injection H as <- _|]. destruct (Nat.eqb st 2); now injection H as <- _. }
  rewrite S. destruct C1 as [[K ->]| ->].
  - split; [now apply upd_len|]. exists k. intros l Hl N. apply nth_rd. rewrite rd_upd, eqb_no by assumption. now apply rd_nth.
  - split; [reflexivity|]. exists 0%nat. reflexivity.
Qed.
(** Which exceptions, when the function raises none *)
Lemma dll_errors : forall maxll x dx s' e, (forall p, exists v, lf p = Ok v) -> length dx = length x -> dllsteps lf fuel dll maxll maxiter tol (Scales x dx) = (s', Err e) ->
  e = RuntimeError \/ e = OutOfFuel \/ e = NotFinite \/
  (e = ValueError /\ exists top i t v, top_of maxll x = Ok top /\ (i < length x)%nat /\ lf (moved x (axis i t)) = Ok v /\ top < v).
Proof.
  intros maxll x dx s' e Tot HL H. destruct (dll_start _ _ _ _ _ H) as [[top [HT _]]|[_ [[e' [_ E']]|[_ N]]]]; [|destruct (Tot x) as [v V]; rewrite V in E'; discriminate|contradiction].
  rewrite (dll_unfold _ _ _ _ HT HL) in H.
  destruct (scale_all_any lf top dll tol maxiter fuel x (length x) 0 dx eq_refl HL ltac:(intros; lia)) as [x' [dx' [r' [E [_ [_ [C3 [C4 _]]]]]]]].
  rewrite E in H. destruct r' as [st|e'].
  - destruct (Nat.eqb_spec st 3) as [S3|N3]; [injection H as _ <-; now left|]. destruct (Nat.eqb_spec st 2) as [S2|N2]; [|discriminate]. subst st. injection H as _ <-.
    destruct (C3 2%nat eq_refl ltac:(lia)) as [k [Hk [A|[_ [t [v [V1 V2]]]]]]]; [discriminate|]. right; right; right. split; [reflexivity|].
    exists top, k, (t - nth k x 0), v. split; [exact HT|]. split; [exact Hk|]. split; [|exact V2].
    rewrite <- (moved_axis x k (t - nth k x 0) (axis k (t - nth k x 0)) Hk) by reflexivity. replace (nth k x 0 + (t - nth k x 0)) with t by ring. exact V1.
  - injection H as _ <-. destruct (C4 e' eq_refl) as [->|[->|[p P]]]; [now right; left|now right; right; left|]. destruct (Tot p) as [v V]. rewrite V in P. discriminate.
Qed.
End Dll.

(** ** Functions that are quadratic along each axis: found at once *)
Lemma scale_one_quadratic : forall lf fmax df tol fuel maxnr i x dx d c, (i < length x)%nat -> rd dx i = Ok d -> d <> 0 -> 0 < c -> 0 <= df -> 0 <= tol ->
  (forall t, lf (upd i (nth i x 0 + t) x) = Ok (fmax - c * t ^ 2 / 2)) ->
  scale_one lf (S fuel) fmax df (S maxnr) tol i (Scales x dx) = (Scales x (upd i (d * sqrt (df / (c * d ^ 2 / 2))) dx), Ok (Go tt)).
Proof.
  intros lf fmax df tol fuel maxnr i x dx d c Hi Hd D C DF T H. assert (X0 : rd x i = Ok (nth i x 0)) by now apply rd_nth. assert (B := upd_same _ i (nth i x 0) x X0 Hi).
  assert (D2 : 0 < c * d ^ 2 / 2) by (assert (0 < d ^ 2) by nra; nra).
  unfold scale_one. unfold bind at 1, get_x at 1. cbn [sc_x]. rewrite X0. unfold bind at 1. cbn [guess]. rewrite <- B at 1.
  unfold bind at 1. rewrite (get_dx_at i x dx d Hd). unfold bind at 1. rewrite (set_x_at i x dx Hi). unfold bind at 1, call_f at 1. cbn [sc_x]. rewrite H.
  rewrite rltb_no by (replace (1 * d) with d by ring; lra). replace (fmax - (fmax - c * (1 * d) ^ 2 / 2)) with (c * d ^ 2 / 2) by field. rewrite rleb_no by exact D2.
  unfold ret at 1. rewrite rltb_no by exact DF. unfold bind at 1. rewrite (get_dx_at i x dx d Hd). unfold bind at 1. rewrite (set_x_at i x dx Hi). unfold bind at 1. cbn [newton]. unfold bind at 1, call_f at 1. cbn [sc_x]. rewrite H.
  set (q := sqrt (df / (c * d ^ 2 / 2))).
  assert (Q : c * (1 * d * q) ^ 2 / 2 = df).
  { assert (QQ : q * q = df / (c * d ^ 2 / 2)) by (apply sqrt_sqrt; apply Rmult_le_pos; [exact DF|apply Rlt_le, Rinv_0_lt_compat; exact D2]).
    replace (c * (1 * d * q) ^ 2 / 2) with (c * d ^ 2 / 2 * (q * q)) by field. rewrite QQ. field. split; lra. }
  rewrite Q. rewrite rltb_no by lra. replace (fmax - df - (fmax - df)) with 0 by ring. rewrite Rabs_R0, rltb_no by exact T.
  unfold ret at 1. unfold bind at 1. rewrite (get_x_at i x dx Hi). unfold bind at 1, set_dx. cbn [sc_x sc_dx]. rewrite wr_ok by exact (rd_len _ _ _ _ Hd).
  unfold bind at 1, set_x. cbn [sc_x sc_dx]. rewrite wr_ok by (rewrite upd_len; exact Hi). rewrite upd_upd, B by exact Hi. unfold ret. do 3 f_equal. ring.
Qed.
Lemma dll_quadratic : forall lf fuel dll maxll maxiter tol x dx top (c : nat -> R), length dx = length x -> top_of lf maxll x = Ok top -> 0 <= dll -> 0 <= tol ->
  (forall i, (i < length x)%nat -> nth i dx 0 <> 0 /\ 0 < c i /\ forall t, lf (moved x (axis i t)) = Ok (top - c i * t ^ 2 / 2)) ->
  exists deltas, dllsteps lf (S fuel) dll maxll (S maxiter) tol (Scales x dx) = (Scales x deltas, Ok deltas) /\ length deltas = length x /\
    forall i, (i < length x)%nat -> nth i deltas 0 = nth i dx 0 / Rabs (nth i dx 0) * sqrt (2 * dll / c i).
Proof.
  intros lf fuel dll maxll maxiter tol x dx top c HL HT DF T H. rewrite (dll_unfold _ _ _ _ _ _ _ _ _ HT HL).
  assert (G : forall m lo dy, (lo + m = length x)%nat -> length dy = length x -> (forall k, (lo <= k < length x)%nat -> nth k dy 0 = nth k dx 0) ->
     (forall k, (k < lo)%nat -> nth k dy 0 = nth k dx 0 * sqrt (dll / (c k * nth k dx 0 ^ 2 / 2))) ->
     exists dz, scale_all lf (S fuel) top dll (S maxiter) tol (seq lo m) (Scales x dy) = (Scales x dz, Ok 1%nat) /\ length dz = length x /\ forall k, (k < length x)%nat -> nth k dz 0 = nth k dx 0 * sqrt (dll / (c k * nth k dx 0 ^ 2 / 2))).
  { intros m. induction m as [|m IH]; intros lo dy Hm L1 H1 H2; cbn [seq scale_all].
    - exists dy. split; [reflexivity|]. split; [exact L1|]. intros k Hk. apply H2. lia.
    - assert (Hlo : (lo < length x)%nat) by lia. destruct (H lo Hlo) as [D [C F]]. unfold bind at 1.
      rewrite (scale_one_quadratic lf top dll tol fuel maxiter lo x dy (nth lo dx 0) (c lo) Hlo); auto.
      + apply IH; [lia|rewrite upd_len; lia| |].
        * intros k Hk. rewrite <- (H1 k) by lia. apply nth_rd. rewrite rd_upd, eqb_no by lia. apply rd_nth. lia.
        * intros k Hk. apply nth_rd. rewrite rd_upd by lia. destruct (Nat.eqb_spec k lo) as [->|]; [reflexivity|]. rewrite <- (H2 k) by lia. apply rd_nth. lia.
      + rewrite <- (H1 lo) by lia. apply rd_nth. lia.
      + intros t. rewrite (moved_axis x lo t (axis lo t) Hlo) by reflexivity. apply F. }
  destruct (G (length x) 0%nat dx eq_refl HL ltac:(reflexivity) ltac:(intros; lia)) as [dz [E [LZ V]]]. rewrite E. cbn [Nat.eqb sc_dx]. exists dz. split; [reflexivity|]. split; [exact LZ|].
  intros i Hi. rewrite V by exact Hi. destruct (H i Hi) as [D [C _]]. set (d := nth i dx 0) in *.
  assert (AD : 0 < Rabs d) by now apply Rabs_pos_lt.
  replace (dll / (c i * d ^ 2 / 2)) with ((2 * dll / c i) / (Rabs d * Rabs d)) by (replace (Rabs d * Rabs d) with (d ^ 2) by (rewrite <- Rabs_mult, Rabs_pos_eq by nra; ring); field; split; lra).
  rewrite sqrt_div_alt by nra. rewrite sqrt_square by lra. field. lra.
Qed.

(** ** No end *)
Lemma guess_flat : forall lf fmax i x dx d, (i < length x)%nat -> rd dx i = Ok d -> forall x0, (forall s, lf (upd i (x0 + s * d) x) = Ok fmax) ->
  forall fuel s t, exists t', guess lf fuel fmax i x0 s (Scales (upd i t x) dx) = (Scales (upd i t' x) dx, Err OutOfFuel).
Proof.
  intros lf fmax i x dx d Hi Hd x0 H fuel. induction fuel as [|fuel IH]; intros s t; cbn [guess]; [now exists t|].
  unfold bind at 1. rewrite (get_dx_at i x dx d Hd). unfold bind at 1. rewrite (set_x_at i x dx Hi). unfold bind at 1, call_f. cbn [sc_x]. rewrite H.
  rewrite rltb_no by lra. rewrite rleb_yes by lra. apply IH.
Qed.
Lemma dll_flat : forall lf fuel dll maxll maxiter tol x dx top, length dx = length x -> (0 < length x)%nat -> top_of lf maxll x = Ok top ->
  (forall s, lf (moved x (axis 0 (s * nth 0 dx 0))) = Ok top) -> snd (dllsteps lf fuel dll maxll maxiter tol (Scales x dx)) = Err OutOfFuel.
Proof.
  intros lf fuel dll maxll maxiter tol x dx top HL H0 HT H. rewrite (dll_unfold _ _ _ _ _ _ _ _ _ HT HL).
  replace (seq 0 (length x)) with (0 :: seq 1 (length x - 1))%nat by (destruct (length x); [lia|cbn; do 2 f_equal; lia]).
  cbn [scale_all]. unfold bind at 1, scale_one. unfold bind at 1, get_x at 1. cbn [sc_x].
  assert (X0 : rd x 0 = Ok (nth 0 x 0)) by now apply rd_nth. assert (B := upd_same _ 0%nat (nth 0 x 0) x X0 H0). rewrite X0. unfold bind at 1.
  destruct (guess_flat lf top 0 x dx (nth 0 dx 0) H0 ltac:(apply rd_nth; lia) (nth 0 x 0)) with (fuel := fuel) (s := 1) (t := nth 0 x 0) as [t E].
  { intros s. rewrite (moved_axis x 0 (s * nth 0 dx 0) (axis 0 (s * nth 0 dx 0)) H0) by reflexivity. apply H. }
  rewrite B in E. rewrite E. reflexivity.
Qed.

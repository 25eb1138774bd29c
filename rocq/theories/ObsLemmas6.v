(** When the step search ends. *)

From Coq Require Import List Bool Arith Reals Lra Lia.
From Verif Require Import Exn Instances CountSpec CountLemmas McModel McLemmas9 BaModel BaSpec BaLemmas ObsModel ObsSpec ObsLemmas ObsLemmas2 ObsLemmas3 ObsLemmas4 ObsLemmas5.
Import ListNotations.
Open Scope R_scope.

Section Ends.
Variable lf : list R -> res R.
Hypothesis Tot : forall p, exists v, lf p = Ok v.
Variables (fmax df tol : R) (maxnr : nat).

Lemma guess_ends : forall i x dx d x0, (i < length x)%nat -> rd dx i = Ok d -> forall k s v, lf (upd i (x0 + grow ^ k * s * d) x) = Ok v -> v <> fmax ->
  forall fuel t, (k < fuel)%nat -> exists t' r, guess lf fuel fmax i x0 s (Scales (upd i t x) dx) = (Scales (upd i t' x) dx, Ok r).
Proof.
  intros i x dx d x0 Hi Hd k. induction k as [|k IH]; intros s v Hv Nv fuel t Hf; (destruct fuel as [|fuel]; [lia|]); cbn [guess];
    unfold bind at 1; rewrite (get_dx_at i x dx d Hd); unfold bind at 1; rewrite (set_x_at i x dx Hi); unfold bind at 1, call_f; cbn [sc_x].
  - replace (x0 + grow ^ 0 * s * d) with (x0 + s * d) in Hv by (cbn; ring). rewrite Hv. destruct (Rltb fmax v) eqn:C; [do 2 eexists; reflexivity|]. apply Rltb_false in C.
    rewrite rleb_no by lra. do 2 eexists. reflexivity.
  - destruct (Tot (upd i (x0 + s * d) x)) as [w W]. rewrite W. destruct (Rltb fmax w) eqn:C; [do 2 eexists; reflexivity|].
    destruct (Rleb (fmax - w) 0) eqn:C2; [|do 2 eexists; reflexivity]. apply (IH (grow * s) v); [|exact Nv|lia].
    replace (grow ^ k * (grow * s)) with (grow ^ S k * s) by (cbn; ring). exact Hv.
Qed.
Lemma scale_one_ends : forall i x dx d k v fuel, (i < length x)%nat -> rd dx i = Ok d -> lf (upd i (nth i x 0 + grow ^ k * d) x) = Ok v -> v <> fmax -> (k < fuel)%nat ->
  snd (scale_one lf fuel fmax df maxnr tol i (Scales x dx)) <> Err OutOfFuel.
Proof.
  intros i x dx d k v fuel Hi Hd Hv Nv Hf. assert (X0 : rd x i = Ok (nth i x 0)) by now apply rd_nth. assert (B := upd_same _ i (nth i x 0) x X0 Hi).
  unfold scale_one. unfold bind at 1, get_x at 1. cbn [sc_x]. rewrite X0. unfold bind at 1.
  destruct (guess_ends i x dx d (nth i x 0) Hi Hd k 1 v) with (fuel := fuel) (t := nth i x 0) as [t' [r E]]; [now rewrite Rmult_1_r|exact Nv|exact Hf|].
  rewrite B in E. rewrite E. destruct r as [[s del]|st]; [|discriminate].
  destruct (Rltb df 0); [discriminate|]. unfold bind at 1. rewrite (get_dx_at i x dx d Hd). unfold bind at 1. rewrite (set_x_at i x dx Hi). unfold bind at 1.
  destruct (newton_any lf fmax tol i x dx d Hi Hd maxnr (fmax - df) s (nth i x 0 + s * d * sqrt (df / del))) as [t2 [r [E2 [_ [_ A6]]]]]. rewrite E2.
  destruct r as [[[]|st]|e]; [|discriminate|].
  - unfold bind at 1. rewrite (get_x_at i x dx Hi). unfold bind at 1, set_dx. cbn [sc_x sc_dx]. rewrite wr_ok by exact (rd_len _ _ _ _ Hd).
    unfold bind at 1, set_x. cbn [sc_x sc_dx]. rewrite wr_ok by (rewrite upd_len; exact Hi). discriminate.
  - cbn [snd]. intros N. injection N as ->. destruct (A6 OutOfFuel eq_refl) as [N|[p P]]; [discriminate|]. destruct (Tot p) as [w W]. rewrite W in P. discriminate.
Qed.
Lemma scale_all_ends : forall x dx0 (k : nat -> nat) fuel, length dx0 = length x ->
  (forall i, (i < length x)%nat -> (k i < fuel)%nat /\ exists v, lf (upd i (nth i x 0 + grow ^ k i * nth i dx0 0) x) = Ok v /\ v <> fmax) ->
  forall m lo dx, (lo + m = length x)%nat -> length dx = length x -> (forall j, (lo <= j < length x)%nat -> nth j dx 0 = nth j dx0 0) ->
  snd (scale_all lf fuel fmax df maxnr tol (seq lo m) (Scales x dx)) <> Err OutOfFuel.
Proof.
  intros x dx0 k fuel L0 H m. induction m as [|m IH]; intros lo dx Hm HL HE; cbn [seq scale_all]; [discriminate|].
  assert (Hlo : (lo < length x)%nat) by lia. destruct (H lo Hlo) as [Hf [v [Hv Nv]]].
  assert (Hd : rd dx lo = Ok (nth lo dx0 0)) by (rewrite <- HE by lia; apply rd_nth; lia).
  assert (E1 := scale_one_ends lo x dx _ (k lo) v fuel Hlo Hd Hv Nv Hf).
  destruct (scale_one_any lf fmax df tol lo x dx _ Hlo Hd fuel maxnr) as [t [dx' [r [E [_ [_ [_ A4]]]]]]].
  unfold bind at 1. rewrite E in *. cbn [snd] in E1. destruct r as [[[]|st]|e]; [|discriminate|intros N; apply E1; cbn in N; now injection N as ->].
  destruct (A4 eq_refl) as [B [u [w [U _]]]]. rewrite B. apply IH; [lia|rewrite U, upd_len; lia|].
  intros j Hj. rewrite <- HE by lia. rewrite U. apply nth_rd. rewrite rd_upd, eqb_no by lia. apply rd_nth. lia.
Qed.
End Ends.

Lemma bounded : forall n (P : nat -> nat -> Prop), (forall i, (i < n)%nat -> exists k, P i k) -> exists (k : nat -> nat) b, forall i, (i < n)%nat -> P i (k i) /\ (k i < b)%nat.
Proof.
  intros n P. induction n as [|n IH]; intros H.
  - exists (fun _ => 0%nat), 0%nat. intros i Hi. lia.
  - destruct IH as [k [b K]]; [intros i Hi; apply H; lia|]. destruct (H n ltac:(lia)) as [kn Kn].
    exists (fun i => if Nat.eqb i n then kn else k i), (Nat.max b (S kn)). intros i Hi. destruct (Nat.eqb_spec i n) as [->|N]; [split; [exact Kn|lia]|].
    destruct (K i ltac:(lia)) as [K1 K2]. split; [exact K1|lia].
Qed.
Lemma dll_ends : forall lf dll maxll maxiter tol x dx top, (forall p, exists v, lf p = Ok v) -> top_of lf maxll x = Ok top -> length dx = length x ->
  (forall i, (i < length x)%nat -> exists k v, lf (moved x (axis i (grow ^ k * nth i dx 0))) = Ok v /\ v <> top) ->
  exists b, forall fuel, (b <= fuel)%nat -> snd (dllsteps lf fuel dll maxll maxiter tol (Scales x dx)) <> Err OutOfFuel.
Proof.
  intros lf dll maxll maxiter tol x dx top Tot HT HL H. destruct (bounded _ _ H) as [k [b K]]. exists b. intros fuel Hf.
  rewrite (dll_unfold _ _ _ _ _ _ _ _ _ HT HL).
  assert (E := scale_all_ends lf Tot top dll tol maxiter x dx k fuel HL).
  assert (N : snd (scale_all lf fuel top dll maxiter tol (seq 0 (length x)) (Scales x dx)) <> Err OutOfFuel).
  { apply E; [|reflexivity|exact HL|reflexivity]. intros i Hi. destruct (K i Hi) as [[v [V1 V2]] K2]. split; [lia|]. exists v. split; [|exact V2].
    rewrite (moved_axis x i (grow ^ k i * nth i dx 0) (axis i (grow ^ k i * nth i dx 0)) Hi) by reflexivity. exact V1. }
  destruct (scale_all _ _ _ _ _ _ _ _) as [s [st|e]]; cbn [snd] in *; [|intros X; apply N; injection X as ->; reflexivity].
  destruct (Nat.eqb st 3); [discriminate|]. destruct (Nat.eqb st 2); discriminate.
Qed.

(** dcuhre in other units, continued *)

From Coq Require Import List Bool Arith ZArith Reals Lra Lia FunctionalExtensionality.
From Verif Require Import Exn Instances McModel BaModel BaLemmas ObsModel AdModel AdSpec CubModel DcModel DcSpec DcLemmas10 DcLemmas11 DcLemmas12 DcScale DcScale2.
Import ListNotations.
Open Scope R_scope.

Lemma moved_nth : forall s o x i, nth_error (moved s o x) i = match nth_error x i with Some y => Some (comp (S i) o + s * y) | None => None end.
Proof.
  intros s o x i. unfold moved. rewrite nth_error_map. destruct (nth_error x i) as [y|] eqn:E.
  - assert (L : (i < length x)%nat) by (apply nth_error_Some; congruence). rewrite (nth_error_nth' (seq 1 (length x)) O) by (now rewrite seq_length). rewrite seq_nth by exact L. cbn [option_map plus]. f_equal. f_equal. f_equal. unfold comp at 1. cbn [Nat.sub]. rewrite Nat.sub_0_r. now apply nth_error_nth.
  - apply nth_error_None in E. rewrite (proj2 (nth_error_None _ _)); [reflexivity|]. now rewrite seq_length.
Qed.
Lemma moved_len : forall s o x, length (moved s o x) = length x.
Proof. intros s o x. unfold moved. now rewrite map_length, seq_length. Qed.
Lemma moved_prel : forall s o x, prel (length x) s (fun i => comp i o) x (moved s o x).
Proof. intros s o x. split; [reflexivity|]. split; [apply moved_len|]. intros i y y' E E'. rewrite moved_nth, E in E'. now injection E' as <-. Qed.
Lemma prel_moved : forall n s o x x', prel n s (fun i => comp i o) x x' -> x' = moved s o x.
Proof.
  intros n s o x x' (_ & L & H). assert (E : forall i, nth_error x' i = nth_error (moved s o x) i).
  { intros i. rewrite moved_nth. destruct (nth_error x i) as [y|] eqn:Q.
    - destruct (nth_error x' i) as [y'|] eqn:Q'; [now rewrite (H _ _ _ Q Q')|]. exfalso. apply nth_error_None in Q'. assert (i < length x)%nat by (apply nth_error_Some; congruence). lia.
    - apply nth_error_None in Q. apply nth_error_None. lia. }
  clear -E. revert E. generalize (moved s o x). intros l. revert l. induction x' as [|y x' IH]; intros [|z l] E; [reflexivity|now specialize (E O)|now specialize (E O)|]. assert (E0 := E O). injection E0 as ->. f_equal. apply IH. intros i. exact (E (S i)).
Qed.
Lemma units : forall f f' numfun a b minpts maxpts epsabs epsrel key nw junk junk' result result' s k o, 0 < s -> k <> 0 -> acceptable numfun a b minpts maxpts epsabs epsrel key nw ->
  (forall x j, length x = length a -> f' (moved s o x) j = k * f x j) ->
  exists v e neval ifail v' e', dcuhre f numfun a b minpts maxpts epsabs epsrel key nw 0 junk result = Ok (v, e, neval, ifail) /\
    dcuhre f' numfun (moved s o a) (moved s o b) minpts maxpts (s ^ length a * Rabs k * epsabs) epsrel key nw 0 junk' result' = Ok (v', e', neval, ifail) /\
    (forall j, v' j = s ^ length a * k * v j) /\ forall j, e' j = s ^ length a * Rabs k * e j.
Proof.
  intros f f' numfun a b minpts maxpts epsabs epsrel key nw junk junk' result result' s k o Ps Nk A F. destruct (accepted _ _ _ _ _ _ _ _ _ A) as (CH & _ & Lb & _).
  assert (AP : 0 < s ^ length a * Rabs k) by (apply Rmult_lt_0_compat; [now apply pow_lt|now apply Rabs_pos_lt]).
  assert (A' : acceptable numfun (moved s o a) (moved s o b) minpts maxpts (s ^ length a * Rabs k * epsabs) epsrel key nw).
  { unfold acceptable in *. rewrite moved_len. destruct A as (A1 & A2 & A3 & A4 & A5 & A6 & A7 & A8). repeat split; try assumption; try lia.
    - assert (G : forall i x y, nth_error (moved s o a) i = Some x -> nth_error (moved s o b) i = Some y -> x <> y).
      { assert (G : forall i x y, nth_error a i = Some x -> nth_error b i = Some y -> x <> y) by (clear -A3; induction A3 as [|x y a b N _ IH]; intros [|i] u w E E'; try discriminate; cbn in *; [congruence|eapply IH; eassumption]).
        intros i x y. rewrite !moved_nth. destruct (nth_error a i) as [u|] eqn:Q; [|discriminate]. destruct (nth_error b i) as [w|] eqn:Q'; [|discriminate]. intros E E'. injection E as <-. injection E' as <-. specialize (G _ _ _ Q Q'). intros E. apply G. apply (Rmult_eq_reg_l s); lra. }
      assert (L : length (moved s o b) = length (moved s o a)) by (now rewrite !moved_len). clear -G L. revert G L. generalize (moved s o a) (moved s o b). induction l as [|x l IH]; intros [|y l'] G L; try discriminate; constructor; [exact (G O x y eq_refl eq_refl)|]. apply IH; [|cbn in L; lia]. intros i. exact (G (S i)).
    - destruct A7 as [A7|A7]; [left|right; exact A7]. apply Rmult_le_pos; lra. }
  destruct (run_ok f f numfun a b minpts maxpts epsabs epsrel key nw junk result A (fun x _ => eq_refl)) as (v & e & neval & ifail & rs & H1 & _). exists v, e, neval, ifail.
  destruct (accepted _ _ _ _ _ _ _ _ _ A') as (CH' & _). unfold dcuhre in *. rewrite CH in H1. rewrite CH, CH'. rewrite moved_len in *. cbn [Z.eqb negb] in *. destruct (dinhre (length a) _) as [tb|]; [|discriminate].
  assert (SM : forall x x', prel (length a) s (fun i => comp i o) x x' -> forall j, f' x' j = k * f x j) by (intros x x' P j; rewrite (prel_moved _ _ _ _ _ P); apply F; apply P).
  assert (PA := moved_prel s o a). assert (PB := moved_prel s o b). rewrite Lb in PB.
  assert (X := dad_rel (length a) s k (fun i => comp i o) Ps Nk f f' SM numfun tb (rule_cost (length a) key) a b _ _ (minsub_of (rule_cost (length a) key) minpts) (maxsub_of (rule_cost (length a) key) maxpts) epsabs epsrel junk junk' PA PB).
  destruct (dadhre f _ _ _ _ _ _ _ _ _ _ _) as [out|]; [|discriminate]. destruct (dadhre f' _ _ _ _ _ _ _ _ _ _ _) as [out'|]; [|contradiction]. cbn [rrel] in X. destruct X as (X1 & X2 & X3 & X4).
  exists (o_result out'), (o_abserr out'). injection H1 as <- <- <- <-. split; [reflexivity|]. rewrite X3, X4. split; [reflexivity|]. split; [exact X1|exact X2].
Qed.
Lemma moved_1 : forall x, moved 1 [] x = x.
Proof. intros x. symmetry. apply (prel_moved (length x) 1 []). split; [reflexivity|]. split; [reflexivity|]. intros i y y' E E'. rewrite E in E'. injection E' as <-. unfold comp. cbn. destruct i; cbn; ring. Qed.
Lemma memory : forall f numfun a b minpts maxpts epsabs epsrel key nw junk junk' result result', acceptable numfun a b minpts maxpts epsabs epsrel key nw ->
  dcuhre f numfun a b minpts maxpts epsabs epsrel key nw 0 junk' result' = dcuhre f numfun a b minpts maxpts epsabs epsrel key nw 0 junk result.
Proof.
  intros f numfun a b minpts maxpts epsabs epsrel key nw junk junk' result result' A.
  destruct (units f f numfun a b minpts maxpts epsabs epsrel key nw junk junk' result result' 1 1 [] ltac:(lra) ltac:(lra) A) as (v & e & neval & ifail & v' & e' & E & E' & V & W).
  { intros x j _. rewrite moved_1. ring. }
  rewrite !moved_1, pow1, Rabs_R1, Rmult_1_l, Rmult_1_l in E'. rewrite E, E'. f_equal. f_equal. f_equal. f_equal; apply functional_extensionality; intros j; [rewrite V|rewrite W]; rewrite pow1; try rewrite Rabs_R1; ring.
Qed.

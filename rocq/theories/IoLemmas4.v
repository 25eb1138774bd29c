From Coq Require Import ZArith String List Bool Arith Lia Reals.
From Verif Require Import Exn McModel IoModel IoSpec IoLemmas IoLemmas2.
Import ListNotations.
Open Scope string_scope.

Section More.
Variable V : Type.

(** ** Columns *)
Lemma add_words_ok : forall types ws s (c : nat -> list V) v, good_line types ws (fun j => v (s + j)) ->
  add_words V types ws (map c (seq s (length types))) = Ok (map (fun j => (c j ++ [v j])%list) (seq s (length types))).
Proof.
  induction types as [|t types IH]; intros ws s c v H; [reflexivity|]. cbn [length seq map add_words].
  destruct (H 0) as [t0 [w [T [W E]]]]; [cbn; lia|]. cbn in T. injection T as <-. destruct ws as [|w0 ws]; [discriminate|]. cbn in W. injection W as ->. rewrite E.
  rewrite (IH ws (S s) c v); [now rewrite Nat.add_0_r|]. intros j J. destruct (H (S j)) as [t1 [w1 [T1 [W1 E1]]]]; [cbn; lia|]. exists t1, w1. cbn in T1, W1. rewrite Nat.add_succ_r in E1. now repeat split.
Qed.
Lemma add_words_short : forall types ws (cols : list (list V)), length cols = length types -> length ws < length types ->
  (forall j, j < length ws -> exists t w v, nth_error types j = Some t /\ nth_error ws j = Some w /\ t w = Ok v) -> add_words V types ws cols = Err IndexError.
Proof.
  induction types as [|t types IH]; intros ws cols LC LW H; [cbn in LW; lia|]. destruct cols as [|c cols]; [discriminate|]. cbn [add_words]. destruct ws as [|w ws]; [reflexivity|].
  destruct (H 0) as [t0 [w0 [v [T [W E]]]]]; [cbn; lia|]. cbn in T, W. injection T as <-. injection W as <-. rewrite E. rewrite IH; [reflexivity|now injection LC|cbn in LW; lia|].
  intros j J. destruct (H (S j)) as [t1 [w1 [v1 Q]]]; [cbn; lia|]. exists t1, w1, v1. exact Q.
Qed.
Lemma add_lines_ok : forall types lines i (val : nat -> nat -> V), (forall k, k < length lines -> good_line types (nth k lines []) (val (i + k))) ->
  add_lines V types lines (map (fun j => map (fun k => val k j) (seq 0 i)) (seq 0 (length types))) = Ok (map (fun j => map (fun k => val k j) (seq 0 (i + length lines))) (seq 0 (length types))).
Proof.
  intros types lines. induction lines as [|ws lines IH]; intros i val H; [cbn; now rewrite Nat.add_0_r|]. cbn [add_lines].
  rewrite (add_words_ok types ws 0 _ (val i)).
  2:{ specialize (H 0 ltac:(cbn; lia)). rewrite Nat.add_0_r in H. exact H. }
  rewrite <- (map_ext (fun j => map (fun k => val k j) (seq 0 (S i)))); [|intro j; rewrite seq_S, map_app; reflexivity].
  cbn [length]. rewrite Nat.add_succ_r. rewrite <- Nat.add_succ_l. apply IH. intros k K. specialize (H (S k) ltac:(cbn; lia)). rewrite Nat.add_succ_r in H. exact H.
Qed.
Lemma empty_cols : forall A B (types : list A) s, map (fun _ => @nil B) types = map (fun _ => @nil B) (seq s (length types)).
Proof. intros A B types. induction types as [|t types IH]; intro s; [reflexivity|]. cbn. f_equal. apply IH. Qed.
Lemma columns_read : forall lines types (val : nat -> nat -> V), (forall i, i < length lines -> good_line types (nth i lines []) (val i)) ->
  add_lines V types lines (map (fun _ => []) types) = Ok (map (fun j => map (fun i => val i j) (seq 0 (length lines))) (seq 0 (length types))).
Proof. intros lines types val H. etransitivity; [|exact (add_lines_ok types lines 0 val H)]. f_equal. apply empty_cols. Qed.
Lemma columns_short : forall lines ws rest types (val : nat -> nat -> V), (forall i, i < length lines -> good_line types (nth i lines []) (val i)) ->
  length ws < length types -> (forall j, j < length ws -> exists t w v, nth_error types j = Some t /\ nth_error ws j = Some w /\ t w = Ok v) ->
  add_lines V types (lines ++ ws :: rest) (map (fun _ => []) types) = Err IndexError.
Proof.
  intros lines ws rest types val H L B.
  assert (A : forall a b c, add_lines V types (a ++ b) c = match add_lines V types a c with Ok c' => add_lines V types b c' | Err e => Err e end).
  { intro a. induction a as [|x a IH]; intros b c; [reflexivity|]. cbn. destruct (add_words V types x c); [apply IH|reflexivity]. }
  rewrite A, (columns_read lines types val H). cbn [add_lines]. rewrite add_words_short; [reflexivity| |exact L|exact B]. now rewrite map_length, seq_length.
Qed.

(** ** Generator states *)
Lemma m1 : forall f, f <> f ++ ".1". Proof. intro f. now apply self_neq. Qed.
Lemma m2 : forall f, f <> f ++ ".2". Proof. intro f. now apply self_neq. Qed.
Lemma m3 : forall f, f ++ ".1" <> f ++ ".2". Proof. intro f. now apply suffix_neq. Qed.

Lemma rotate_fine : forall f (fs : string -> option (data V)), exists fs',
  bind (exists_ f) (fun e : bool => if e then bind (exists_ (f ++ ".1")) (fun e1 : bool => bind (if e1 then rename (f ++ ".1") (f ++ ".2") else ret tt) (fun _ => rename f (f ++ ".1"))) else ret tt) (Disk fs []) = (Disk fs' [], Ok tt) /\
  rotated f fs fs' /\ fs' f = None.
Proof.
  intros f fs. unfold bind at 1, exists_ at 1. cbn [files]. unfold rotated. destruct (fs f) as [c|] eqn:F.
  2:{ exists fs. split; [reflexivity|]. split; [|exact F]. split; [reflexivity|now split]. }
  unfold bind at 1, exists_. cbn [files]. destruct (fs (f ++ ".1")) as [b|] eqn:B.
  - unfold bind, rename. erewrite act_fine; [|reflexivity|cbn [files]; now rewrite B]. erewrite act_fine; [|reflexivity|cbn [files]; rewrite !put_other by (try apply m1; apply m2); now rewrite F]. eexists. split; [reflexivity|]. split; [split; [|split]|].
    + intros n A1 A2 A3. now rewrite !put_other.
    + apply put_same.
    + rewrite put_other by (intro Q; symmetry in Q; now apply m3 in Q). rewrite put_other by (intro Q; symmetry in Q; now apply m2 in Q). apply put_same.
    + rewrite put_other by apply m1. apply put_same.
  - unfold bind, ret, rename. erewrite act_fine; [|reflexivity|cbn [files]; now rewrite F]. eexists. split; [reflexivity|]. split; [split; [|split]|].
    + intros n A1 A2 A3. now rewrite !put_other.
    + apply put_same.
    + rewrite put_other by (intro Q; symmetry in Q; now apply m3 in Q). now rewrite put_other by (intro Q; symmetry in Q; now apply m2 in Q).
    + rewrite put_other by apply m1. apply put_same.
Qed.
Lemma rotated_put : forall f (fs fs' : string -> option (data V)) x, rotated f fs fs' -> rotated f fs (put f x fs').
Proof.
  intros f fs fs' x [R1 R2]. split.
  - intros n A1 A2 A3. rewrite put_other by exact A1. now apply R1.
  - rewrite !(put_other V f) by (intro Q; symmetry in Q; first [now apply m1 in Q|now apply m2 in Q]). exact R2.
Qed.
Lemma save_rng_fine : forall py2 f (w : rng_world V), rw_id w = MT_id -> fates (rw_disk w) = [] -> f <> "" -> exists fs,
  save_rng py2 f w = (RngWorld (rw_id w) (rw_np w) (Disk fs []), if py2 then Ok tt else Err TypeError) /\
  rotated f (files (rw_disk w)) fs /\ fs f = Some (if py2 then RngPkl MT_id (np_rk (rw_np w)) else Bytes []).
Proof.
  intros py2 f [id np [fs0 l]] ID FT NE. cbn in ID, FT. subst id l. unfold save_rng. cbn [rw_id rw_np rw_disk files]. rewrite String.eqb_refl. unfold on_disk. cbn [rw_id rw_np rw_disk].
  destruct (rotate_fine f fs0) as [fs1 [E [R F]]].
  assert (G : forall A (k : unit -> disk V -> disk V * res A), bind (exists_ f) (fun e : bool => bind (if e then bind (exists_ (f ++ ".1")) (fun e1 : bool => bind (if e1 then rename (f ++ ".1") (f ++ ".2") else ret tt) (fun _ => rename f (f ++ ".1"))) else ret tt) k) (Disk fs0 []) = k tt (Disk fs1 [])).
  { intros A k. revert E. unfold bind at 1, exists_ at 1. intro E. unfold bind at 1, exists_ at 1. unfold bind at 1. now rewrite E. }
  cbv zeta. rewrite G. unfold bind. rewrite create_fine by exact NE. destruct py2.
  - rewrite write_fine. eexists. split; [reflexivity|]. split; [now apply rotated_put, rotated_put|apply put_same].
  - eexists. split; [reflexivity|]. split; [now apply rotated_put|apply put_same].
Qed.
Lemma save_rng_np : forall py2 f (w : rng_world V), rw_np (fst (save_rng py2 f w)) = rw_np w /\ rw_id (fst (save_rng py2 f w)) = rw_id w.
Proof.
  intros py2 f w. unfold save_rng. destruct (String.eqb (rw_id w) MT_id); [|now split]. unfold on_disk.
  match goal with |- context [let (d, r) := ?x in _] => destruct x as [d r] end. now split.
Qed.
(** In Python 3 nothing is ever saved or restored. *)
Lemma save_rng_never : forall f (w : rng_world V), exists e, snd (save_rng false f w) = Err e.
Proof.
  intros f w. unfold save_rng. destruct (String.eqb (rw_id w) MT_id); [|eexists; reflexivity]. unfold on_disk, bind, exists_.
  destruct (files (rw_disk w) f).
  - destruct (files (rw_disk w) (f ++ ".1")).
    + destruct (rename (f ++ ".1") (f ++ ".2") (rw_disk w)) as [d1 [u1|e1]]; [|eexists; reflexivity]. destruct (rename f (f ++ ".1") d1) as [d2 [u2|e2]]; [|eexists; reflexivity]. destruct (create f d2) as [d3 [u3|e3]]; eexists; reflexivity.
    + unfold ret. destruct (rename f (f ++ ".1") (rw_disk w)) as [d2 [u2|e2]]; [|eexists; reflexivity]. destruct (create f d2) as [d3 [u3|e3]]; eexists; reflexivity.
  - unfold ret. destruct (create f (rw_disk w)) as [d3 [u3|e3]]; eexists; reflexivity.
Qed.
Lemma restore_rng_never : forall f (w : rng_world V), (exists e, snd (restore_rng false f w) = Err e) /\ rw_np (fst (restore_rng false f w)) = rw_np w.
Proof.
  intros f w. unfold restore_rng. destruct (files (rw_disk w) f); [split; [eexists; reflexivity|reflexivity]|]. split; [apply save_rng_never|apply save_rng_np].
Qed.
Lemma three_saves : forall f (w w1 w2 w3 : rng_world V) r1 r2 r3, rw_id w = MT_id -> fates (rw_disk w) = [] -> f <> "" ->
  save_rng false f w = (w1, r1) -> save_rng false f w1 = (w2, r2) -> save_rng false f w2 = (w3, r3) ->
  forall n, n = f \/ n = f ++ ".1" \/ n = f ++ ".2" -> files (rw_disk w3) n = Some (Bytes []).
Proof.
  intros f w w1 w2 w3 r1 r2 r3 ID FT NE E1 E2 E3.
  destruct (save_rng_fine false f w ID FT NE) as [fs1 [F1 [R1 C1]]]. rewrite E1 in F1. injection F1 as -> ->. cbn [rw_id rw_np rw_disk] in *.
  destruct (save_rng_fine false f (RngWorld (rw_id w) (rw_np w) (Disk fs1 [])) ID eq_refl NE) as [fs2 [F2 [R2 C2]]]. rewrite E2 in F2. injection F2 as -> ->. cbn [rw_id rw_np rw_disk files] in *.
  destruct (save_rng_fine false f (RngWorld (rw_id w) (rw_np w) (Disk fs2 [])) ID eq_refl NE) as [fs3 [F3 [R3 C3]]]. rewrite E3 in F3. injection F3 as -> ->. cbn [rw_id rw_np rw_disk files] in *.
  destruct R2 as [_ R2]. rewrite C1 in R2. destruct R2 as [R21 R22]. destruct R3 as [_ R3]. rewrite C2 in R3. destruct R3 as [R31 R32]. rewrite R21 in R32.
  intros n [-> | [-> | ->]]; assumption.
Qed.
Lemma kept_twice : forall f (fs fs1 fs2 : string -> option (data V)) c, kept f fs fs1 -> kept f fs1 fs2 -> fs f = Some c -> fs2 f = Some c \/ fs2 (f ++ "%") = Some c \/ fs2 (f ++ "%%") = Some c.
Proof.
  intros f fs fs1 fs2 c [_ [K2 _]] [_ [L2 [L3 L4]]] F. destruct (K2 c F) as [H|H].
  - destruct (L2 c H) as [Q|Q]; [now left|right; now left].
  - destruct (fs1 f) as [x|] eqn:X.
    + destruct (L3 x c eq_refl H) as [Q|Q]; [right; now left|right; now right].
    + right. left. rewrite (proj1 (L4 eq_refl)). exact H.
Qed.
End More.

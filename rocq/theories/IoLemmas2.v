From Coq Require Import ZArith String List Bool Arith Lia.
From Verif Require Import Exn McModel IoModel IoSpec IoLemmas.
Import ListNotations.
Open Scope string_scope.

Section Disk.
Variable V : Type.

Lemma put_same : forall n (c : option (data V)) fs, put n c fs n = c.
Proof. intros n c fs. unfold put. now rewrite String.eqb_refl. Qed.
Lemma put_other : forall n m (c : option (data V)) fs, m <> n -> put n c fs m = fs m.
Proof. intros n m c fs H. unfold put. now rewrite (proj2 (String.eqb_neq m n) H). Qed.

Lemma act_cases : forall f (d : disk V), exists r l,
  (act V f d = (Disk (files d) l, Err r) /\ (r = OutOfFuel \/ r = IOError \/ f (files d) = Err r)) \/
  (exists fs, f (files d) = Ok fs /\ act V f d = (Disk fs l, Ok tt) /\ l = tl (fates d)).
Proof.
  intros f [fs l]. unfold act. cbn [files fates]. destruct l as [|[| |] l].
  - destruct (f fs) as [fs'|e] eqn:E; [exists OutOfFuel, []; right; exists fs'; now repeat split|exists e, []; left; split; [reflexivity|right; now right]].
  - destruct (f fs) as [fs'|e] eqn:E; [exists OutOfFuel, l; right; exists fs'; now repeat split|exists e, l; left; split; [reflexivity|right; now right]].
  - exists IOError, l. left. split; [reflexivity|right; now left].
  - exists OutOfFuel, (Stopped :: l). left. split; [reflexivity|now left].
Qed.
Lemma act_fine : forall f (d : disk V) fs, fates d = [] -> f (files d) = Ok fs -> act V f d = (Disk fs [], Ok tt).
Proof. intros f [fs l] fs' E F. cbn in E. subst l. unfold act. cbn [files fates] in *. now rewrite F. Qed.

(** The names f, f%, f%% are different. *)
Lemma n1 : forall f, f <> f ++ "%". Proof. intro f. now apply self_neq. Qed.
Lemma n2 : forall f, f <> f ++ "%%". Proof. intro f. now apply self_neq. Qed.
Lemma n3 : forall f, f ++ "%" <> f ++ "%%". Proof. intro f. now apply suffix_neq. Qed.

Lemma kept_refl : forall f (fs : string -> option (data V)), kept f fs fs.
Proof. intros f fs. split; [reflexivity|]. split; [intros c H; now left|]. split; [intros c b _ H; now left|]. now split. Qed.

(** Rename f% to f%%, where both f and f% exist. *)
Lemma kept_first : forall f (fs : string -> option (data V)) c b, fs f = Some c -> fs (f ++ "%") = Some b ->
  kept f fs (put (f ++ "%%") (Some b) (put (f ++ "%") None fs)).
Proof.
  intros f fs c b F B. split; [|split; [|split]].
  - intros n A1 A2 A3. now rewrite !put_other.
  - intros c' H. left. rewrite !put_other; [exact H|apply n1|apply n2].
  - intros c' b' _ H. right. rewrite put_same. congruence.
  - intro H. congruence.
Qed.
Lemma kept_second : forall f (fs : string -> option (data V)) c b, fs f = Some c -> fs (f ++ "%") = Some b ->
  kept f fs (put (f ++ "%") (Some c) (put f None (put (f ++ "%%") (Some b) (put (f ++ "%") None fs)))).
Proof.
  intros f fs c b F B. split; [|split; [|split]].
  - intros n A1 A2 A3. now rewrite !put_other.
  - intros c' H. right. rewrite put_same. congruence.
  - intros c' b' _ H. right. rewrite put_other by (intro Q; symmetry in Q; now apply n3 in Q). rewrite put_other by (intro Q; symmetry in Q; now apply n2 in Q). rewrite put_same. congruence.
  - intro H. congruence.
Qed.
Lemma kept_only : forall f (fs : string -> option (data V)) c, fs f = Some c -> fs (f ++ "%") = None ->
  kept f fs (put (f ++ "%") (Some c) (put f None fs)).
Proof.
  intros f fs c F B. split; [|split; [|split]].
  - intros n A1 A2 A3. now rewrite !put_other.
  - intros c' H. right. rewrite put_same. congruence.
  - intros c' b' _ H. congruence.
  - intro H. congruence.
Qed.

(** backup, whatever happens *)
Lemma backup_cases : forall f (d d' : disk V) r, backup f d = (d', r) ->
  kept f (files d) (files d') /\ (forall u, r = Ok u -> shifted f (files d) (files d') /\ files d' f = None) /\ (r = Ok tt \/ r = Err IOError \/ r = Err OutOfFuel) /\
  (files d f = None -> files d' f = None).
Proof.
  intros f d d' r. unfold backup, bind at 1, exists_. destruct (files d f) as [c|] eqn:F.
  2:{ intro H. injection H as <- <-. split; [apply kept_refl|]. split; [|split; [now left|intro; exact F]]. intros u _. split; [|exact F]. intros c H. congruence. }
  unfold bind at 1. destruct (files d (f ++ "%")) as [b|] eqn:B.
  - unfold bind, rename. rewrite two_percent.
    destruct (act_cases (fun fs => match fs (f ++ "%") with Some c0 => Ok (put (f ++ "%%") (Some c0) (put (f ++ "%") None fs)) | None => Err IOError end) d) as [r1 [l1 [[E1 C1]|[fs1 [G1 [E1 _]]]]]]; rewrite E1.
    + intro H. injection H as <- <-. split; [apply kept_refl|]. split; [intros u Q; discriminate|]. split; [|cbn; congruence]. destruct C1 as [->|[->|C1]]; [right; now right|right; now left|]. rewrite B in C1. discriminate.
    + rewrite B in G1. injection G1 as <-.
      destruct (act_cases (fun fs => match fs f with Some c0 => Ok (put (f ++ "%") (Some c0) (put f None fs)) | None => Err IOError end) (Disk (put (f ++ "%%") (Some b) (put (f ++ "%") None (files d))) l1)) as [r2 [l2 [[E2 C2]|[fs2 [G2 [E2 _]]]]]]; rewrite E2; intro H; injection H as <- <-; cbn [files] in *.
      * split; [now apply kept_first with c|]. split; [intros u Q; discriminate|]. split; [|congruence]. destruct C2 as [->|[->|C2]]; [right; now right|right; now left|].
        rewrite !put_other in C2 by (try apply n1; apply n2). rewrite F in C2. discriminate.
      * rewrite !put_other in G2 by (try apply n1; apply n2). rewrite F in G2. injection G2 as <-. split; [now apply kept_second|]. split; [|split; [now left|congruence]]. intros u _. split.
        -- intros c' H. rewrite put_same. split; [congruence|]. rewrite put_other by (intro Q; symmetry in Q; now apply n3 in Q). rewrite put_other by (intro Q; symmetry in Q; now apply n2 in Q). rewrite put_same. now rewrite B.
        -- rewrite put_other by apply n1. apply put_same.
  - unfold bind, ret, rename.
    destruct (act_cases (fun fs => match fs f with Some c0 => Ok (put (f ++ "%") (Some c0) (put f None fs)) | None => Err IOError end) d) as [r1 [l1 [[E1 C1]|[fs1 [G1 [E1 _]]]]]]; rewrite E1; intro H; injection H as <- <-; cbn [files].
    + split; [apply kept_refl|]. split; [intros u Q; discriminate|]. split; [|congruence]. destruct C1 as [->|[->|C1]]; [right; now right|right; now left|]. rewrite F in C1. discriminate.
    + rewrite F in G1. injection G1 as <-. split; [now apply kept_only|]. split; [|split; [now left|congruence]]. intros u _. split.
      * intros c' H. rewrite put_same. split; [congruence|]. rewrite B. rewrite put_other by (intro Q; symmetry in Q; now apply n3 in Q). rewrite put_other by (intro Q; symmetry in Q; now apply n2 in Q). reflexivity.
      * rewrite put_other by apply n1. apply put_same.
Qed.
Lemma backup_fine : forall f (d : disk V), fates d = [] -> exists fs, backup f d = (Disk fs [], Ok tt).
Proof.
  intros f [fs l] E. cbn in E. subst l. unfold backup, bind at 1, exists_. cbn [files]. destruct (fs f) as [c|] eqn:F; [|eexists; reflexivity].
  unfold bind at 1. destruct (fs (f ++ "%")) as [b|] eqn:B.
  - cbn [files]. rewrite B. unfold bind, rename. rewrite two_percent. erewrite act_fine; [|reflexivity|cbn [files]; now rewrite B]. erewrite act_fine; [|reflexivity|cbn [files]; rewrite !put_other by (try apply n1; apply n2); now rewrite F]. eexists. reflexivity.
  - cbn [files]. rewrite B. unfold bind, ret, rename. erewrite act_fine; [|reflexivity|cbn [files]; now rewrite F]. eexists. reflexivity.
Qed.

(** Putting something into f after backup has succeeded. *)
Lemma kept_put : forall f (fs fs' : string -> option (data V)) x, kept f fs fs' -> shifted f fs fs' -> kept f fs (put f x fs') /\ shifted f fs (put f x fs').
Proof.
  intros f fs fs' x [K1 [K2 [K3 K4]]] H.
  assert (P1 : put f x fs' (f ++ "%") = fs' (f ++ "%")) by (apply put_other; intro Q; symmetry in Q; now apply n1 in Q).
  assert (P2 : put f x fs' (f ++ "%%") = fs' (f ++ "%%")) by (apply put_other; intro Q; symmetry in Q; now apply n2 in Q).
  split; [|unfold shifted; rewrite P1, P2; exact H]. split; [|split; [|split]].
  - intros n A1 A2 A3. rewrite put_other by exact A1. now apply K1.
  - intros c F. right. rewrite P1. exact (proj1 (H c F)).
  - intros c b F B. rewrite P1, P2. exact (K3 c b F B).
  - intro F. rewrite P1, P2. exact (K4 F).
Qed.

Lemma create_cases : forall f (d d' : disk V) r, f <> "" -> create f d = (d', r) ->
  (r = Ok tt /\ files d' = put f (Some (Bytes [])) (files d)) \/ ((r = Err IOError \/ r = Err OutOfFuel) /\ files d' = files d).
Proof.
  intros f d d' r N. unfold create.
  destruct (act_cases (fun fs => if String.eqb f "" then Err IOError else Ok (put f (Some (Bytes [])) fs)) d) as [r1 [l1 [[E1 C1]|[fs1 [G1 [E1 _]]]]]]; rewrite E1; intro H; injection H as <- <-; cbn [files].
  - right. split; [|reflexivity]. rewrite (proj2 (String.eqb_neq f "") N) in C1. destruct C1 as [->|[->|C1]]; [now right|now left|discriminate].
  - left. rewrite (proj2 (String.eqb_neq f "") N) in G1. injection G1 as <-. now split.
Qed.
Lemma write_cases : forall f x (d d' : disk V) r, write f x d = (d', r) ->
  (r = Ok tt /\ files d' = put f (Some x) (files d)) \/ ((r = Err IOError \/ r = Err OutOfFuel) /\ files d' = files d).
Proof.
  intros f x d d' r. unfold write.
  destruct (act_cases (fun fs => Ok (put f (Some x) fs)) d) as [r1 [l1 [[E1 C1]|[fs1 [G1 [E1 _]]]]]]; rewrite E1; intro H; injection H as <- <-; cbn [files].
  - right. split; [|reflexivity]. destruct C1 as [->|[->|C1]]; [now right|now left|discriminate].
  - left. injection G1 as <-. now split.
Qed.
Lemma create_fine : forall f (fs : string -> option (data V)), f <> "" -> create f (Disk fs []) = (Disk (put f (Some (Bytes [])) fs) [], Ok tt).
Proof. intros f fs N. unfold create. apply act_fine; [reflexivity|]. cbn [files]. now rewrite (proj2 (String.eqb_neq f "") N). Qed.
Lemma write_fine : forall f x (fs : string -> option (data V)), write f x (Disk fs []) = (Disk (put f (Some x) fs) [], Ok tt).
Proof. intros f x fs. unfold write. now apply act_fine. Qed.

Lemma safe_open_cases : forall f b (d d' : disk V) r, f <> "" -> safe_open f b None [] [] d = (d', r) ->
  kept f (files d) (files d') /\ (r = Ok (File f b) \/ r = Err IOError \/ r = Err OutOfFuel) /\
  (forall o, r = Ok o -> o = File f b /\ shifted f (files d) (files d') /\ files d' f = Some (Bytes [])).
Proof.
  intros f b d d' r N. unfold safe_open, bind at 1. destruct (backup f d) as [d1 r1] eqn:E1. destruct (backup_cases f d d1 r1 E1) as [K [H [R _]]].
  destruct r1 as [[]|e].
  2:{ intro Q. injection Q as <- <-. split; [exact K|]. split; [destruct R as [R|[R|R]]; [discriminate|injection R as ->; right; now left|injection R as ->; right; now right]|]. intros o Q. discriminate. }
  destruct (H tt eq_refl) as [S0 F0].
  assert (G : (if b then bind (create f) (fun _ => ret (File f true)) else bind (create f) (fun _ => ret (File f false))) d1 = (d', r) -> (bind (create f) (fun _ => ret (File f b))) d1 = (d', r)) by (destruct b; exact (fun x => x)).
  intro Q. specialize (G Q). clear Q. revert G. unfold bind. destruct (create f d1) as [d2 r2] eqn:E2.
  destruct (create_cases f d1 d2 r2 N E2) as [[-> W]|[R2 W]].
  - intro Q. injection Q as <- <-. destruct (kept_put f (files d) (files d1) (Some (Bytes [])) K S0) as [K2 S2]. rewrite W. split; [exact K2|]. split; [now left|]. intros o Q. injection Q as <-. split; [reflexivity|]. split; [exact S2|apply put_same].
  - destruct r2 as [[]|e]; [destruct R2; discriminate|]. intro Q. injection Q as <- <-. rewrite W. split; [exact K|]. split; [right; destruct R2 as [R2|R2]; injection R2 as ->; [now left|now right]|]. intros o Q. discriminate.
Qed.
Lemma safe_open_fine : forall f b (d : disk V), f <> "" -> fates d = [] -> exists fs, safe_open f b None [] [] d = (Disk fs [], Ok (File f b)).
Proof.
  intros f b d N E. unfold safe_open, bind at 1. destruct (backup_fine f d E) as [fs B]. rewrite B. destruct b; unfold bind; rewrite create_fine by exact N; eexists; reflexivity.
Qed.
End Disk.

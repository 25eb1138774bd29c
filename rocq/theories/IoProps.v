(** Files, stores and saved generator states: the property theorems. *)

From Coq Require Import ZArith String List Bool Arith Lia Reals.
From Verif Require Import Exn McModel IoModel IoSpec IoLemmas IoLemmas2 IoLemmas3 IoLemmas4 IoCases.
Import ListNotations.
Open Scope string_scope.

(** ** C43: backups *)

(** Whatever becomes of each operation on the disk. *)
Theorem C43_backup : forall V f (d d' : disk V) r, backup f d = (d', r) ->
  kept f (files d) (files d') /\ (r = Ok tt \/ r = Err IOError \/ r = Err OutOfFuel) /\
  (r = Ok tt -> shifted f (files d) (files d') /\ files d' f = None).
Proof. intros V f d d' r H. destruct (IoLemmas2.backup_cases V f d d' r H) as [A [B [C _]]]. split; [exact A|]. split; [exact C|]. intro Q. exact (B tt Q). Qed.
Print Assumptions C43_backup.
Theorem C43_backup_succeeds : forall V f (d : disk V), fates d = [] -> exists d', backup f d = (d', Ok tt).
Proof. intros V f d H. destruct (IoLemmas2.backup_fine V f d H) as [fs E]. exists (Disk fs []). exact E. Qed.
Print Assumptions C43_backup_succeeds.
Example C43_between_renames : exists d', backup "a.pkl" (Disk fs0 [Fine; Stopped]) = (d', Err OutOfFuel) /\
  files d' "a.pkl" = fs0 "a.pkl" /\ files d' "a.pkl%" = None /\ files d' "a.pkl%%" = fs0 "a.pkl%" /\ files d' "b" = fs0 "b".
Proof. exact IoCases.between_renames. Qed.

Theorem C43_safe_open : forall V f b (d d' : disk V) r, f <> "" -> safe_open f b None [] [] d = (d', r) ->
  kept f (files d) (files d') /\ (r = Ok (File f b) \/ r = Err IOError \/ r = Err OutOfFuel) /\
  (r = Ok (File f b) -> shifted f (files d) (files d') /\ files d' f = Some (Bytes [])).
Proof. intros V f b d d' r N H. destruct (IoLemmas2.safe_open_cases V f b d d' r N H) as [A [B C]]. split; [exact A|]. split; [exact B|]. intro Q. exact (proj2 (C _ Q)). Qed.
Print Assumptions C43_safe_open.
Theorem C43_safe_open_succeeds : forall V f b (d : disk V), f <> "" -> fates d = [] -> exists d', safe_open f b None [] [] d = (d', Ok (File f b)).
Proof. intros V f b d N H. destruct (IoLemmas2.safe_open_fine V f b d N H) as [fs E]. exists (Disk fs []). exact E. Qed.
Print Assumptions C43_safe_open_succeeds.

(** The same for a store that is saved, g being the name with extension. *)
Theorem C43_saving : forall V picklable k (st : store V) f g d d' r, (if ends_with f (ext k) then g = f else g = f ++ ext k) ->
  save V picklable k st (Some f) d = (d', r) ->
  kept g (files d) (files d') /\
  (r = Ok tt -> shifted g (files d) (files d') /\ exists m, files d' g = Some (archive k m) /\ gather st = Ok m).
Proof. exact IoLemmas3.save_cases. Qed.
Print Assumptions C43_saving.
(** Two interruptions one after another, of any of these, are survived. *)
Theorem C43_two_interruptions : forall V f (fs fs1 fs2 : string -> option (data V)) c, kept f fs fs1 -> kept f fs1 fs2 -> fs f = Some c ->
  fs2 f = Some c \/ fs2 (f ++ "%") = Some c \/ fs2 (f ++ "%%") = Some c.
Proof. exact IoLemmas4.kept_twice. Qed.
Print Assumptions C43_two_interruptions.
(** A third one is not: each leaves an incomplete file that takes the place of
    a backup. *)
Theorem C43_three_interruptions_refuted : exists (st : store Z) f l fs c,
  let go fs := files (fst (save Z pick Attrs st (Some f) (Disk fs l))) in
  fs (f ++ ".pkl") = Some c /\
  go (go (go fs)) (f ++ ".pkl") <> Some c /\ go (go (go fs)) (f ++ ".pkl%") <> Some c /\ go (go (go fs)) (f ++ ".pkl%%") <> Some c.
Proof.
  exists IoCases.st1, "a", [Fine; Fine; Fine; Stopped], fs0, (Pkl [("x", 1%Z); ("y", 2%Z)]). cbv zeta. split; [reflexivity|].
  destruct IoCases.three_interrupted as [A [B C]]. unfold IoCases.after in A, B, C. cbv zeta in A, B, C. cbn [append]. rewrite A, B, C. repeat split; discriminate.
Qed.
Print Assumptions C43_three_interruptions_refuted.

(** ** C44: attribute stores *)

(** A store is made, with or without an archive and keyword arguments, then
    used, then saved under a name without extension; the disk does as it is
    told.  The archive then has what is expected, and a store made from it
    gives every attribute its expected value, however it is used further.
    What was known before: the archive is a dictionary, the values can be
    pickled, and no array is called file. *)
Theorem C44_round_trip : forall V is_array picklable k fname0 kwds m d0 acts f d,
  source k fname0 d0 m -> NoDup (map fst m) -> (k = Arrays -> kwds = []) -> f <> "" -> ends_with f (ext k) = false -> fates d = [] ->
  let hist := (map (fun nv => Assign (fst nv) (snd nv)) kwds ++ acts)%list in
  (forall n v, expected is_array k m hist n = Some v -> picklable v = true) -> (k = Arrays -> expected is_array k m hist "file" = None) ->
  exists st0 st1 d1 m1, new_store V is_array k fname0 kwds d0 = (d0, Ok st0) /\
  save V picklable k (use is_array k acts st0) (Some f) d = (d1, Ok tt) /\ files d1 (f ++ ext k) = Some (archive k m1) /\ NoDup (map fst m1) /\
  (forall n, lookup n m1 = expected is_array k m hist n) /\
  new_store V is_array k (Some f) [] d1 = (d1, Ok st1) /\
  forall acts1 n, private n = false -> ~ reserved n ->
    snd (get_attr n (use is_array k acts1 st1)) = match expected is_array k m (hist ++ acts1)%list n with Some v => Ok (Val v) | None => Err AttributeError end.
Proof. exact IoLemmas3.round_trip. Qed.
Print Assumptions C44_round_trip.
(** A store made from an archive and saved without a name goes to the file it
    came from. *)
Theorem C44_own_name : forall V is_array picklable k f kwds m d0 st acts d, source k (Some f) d0 m -> (k = Arrays -> kwds = []) ->
  new_store V is_array k (Some f) kwds d0 = (d0, Ok st) ->
  save V picklable k (use is_array k acts st) None d = save V picklable k (use is_array k acts st) (Some f) d.
Proof.
  intros V is_array picklable k f kwds m d0 st acts d S KW N. destruct (IoLemmas3.new_store_holds V is_array k (Some f) kwds d0 m S KW) as [st' [e [N' [_ [_ F]]]]].
  rewrite N in N'. injection N' as <-. apply IoLemmas3.save_own; [now rewrite IoLemmas3.use_fname|exact (proj1 (proj2 S))].
Qed.
Print Assumptions C44_own_name.
Theorem C44_no_name_raises : forall V is_array picklable k kwds st acts d0 d, (k = Arrays -> kwds = []) -> new_store V is_array k None kwds d0 = (d0, Ok st) ->
  save V picklable k (use is_array k acts st) None d = (d, Err ValueError).
Proof.
  intros V is_array picklable k kwds st acts d0 d KW N. destruct (IoLemmas3.new_store_holds V is_array k None kwds d0 [] eq_refl KW) as [st' [e [N' [_ [_ F]]]]].
  rewrite N in N'. injection N' as <-. unfold save. rewrite IoLemmas3.use_fname, F. reflexivity.
Qed.
Print Assumptions C44_no_name_raises.
Example C44_a_history : source Attrs (Some "a") (Disk fs0 []) [("x", 1%Z); ("y", 2%Z)] /\ NoDup (map fst [("x", 1%Z); ("y", 2%Z)]) /\ ends_with "a" (ext Attrs) = false /\
  (expected arr Attrs [("x", 1%Z); ("y", 2%Z)] acts1 "x" = Some 5%Z /\ expected arr Attrs [("x", 1%Z); ("y", 2%Z)] acts1 "y" = Some 2%Z /\
   expected arr Attrs [("x", 1%Z); ("y", 2%Z)] acts1 "z" = Some 8%Z /\ expected arr Attrs [("x", 1%Z); ("y", 2%Z)] acts1 "_p" = None).
Proof. split; [repeat split; discriminate|]. split; [repeat constructor; cbn; intuition discriminate|]. split; [reflexivity|exact IoCases.expected1]. Qed.

(** Made from a name that has the extension, a store is never given an
    archive: nothing but what was assigned can be read, and it can neither be
    saved nor list its contents. *)
Theorem C44_extension_raises : forall V is_array picklable k f d acts d', f <> "" -> ends_with f (ext k) = true ->
  exists st, new_store V is_array k (Some f) [] d = (d, Ok st) /\
  (forall n, ~ reserved n -> (forall v, ~ In (Assign n v) acts) -> snd (get_attr n (use is_array k acts st)) = Err RecursionError) /\
  (forall g, save V picklable k (use is_array k acts st) (Some g) d' = (d', Err RecursionError)) /\ contents (use is_array k acts st) = Err RecursionError.
Proof.
  intros V is_array picklable k f d acts d' NE X. destruct (IoLemmas3.with_extension V is_array k f [] d NE X (fun _ => eq_refl)) as [st [N AR]]. exists st. split; [exact N|].
  pose proof (IoLemmas3.no_archive_use V is_array k acts st AR) as AU.
  assert (D : st_dict st = []).
  { revert N. unfold new_store. destruct f as [|c f]; [congruence|]. rewrite X. intro N. injection N as <-. reflexivity. }
  assert (NF : forall g : string, Some g <> None \/ st_fname (use is_array k acts st) <> None) by (intro g; left; discriminate).
  split; [|split].
  - intros n R NA. rewrite (proj1 (IoLemmas3.no_archive_fails V picklable k (use is_array k acts st) d (Some "") AU (NF "")) n); [reflexivity| |exact R].
    apply IoLemmas3.no_archive_dict; [now rewrite D|exact NA|exact AR].
  - intro g. exact (proj1 (proj2 (IoLemmas3.no_archive_fails V picklable k (use is_array k acts st) d' (Some g) AU (NF g)))).
  - exact (proj2 (proj2 (IoLemmas3.no_archive_fails V picklable k (use is_array k acts st) d' (Some "") AU (NF "")))).
Qed.
Print Assumptions C44_extension_raises.
Theorem C44_extension_refuted : exists (f n : string) (v : Z) (d : disk Z) st m, files d f = Some (Pkl m) /\ lookup n m = Some v /\
  new_store Z arr Attrs (Some f) [] d = (d, Ok st) /\ snd (get_attr n st) <> Ok (Val v).
Proof.
  destruct IoCases.by_extension as [st [N G]]. exists "a.pkl", "x", 1%Z, (Disk fs0 []), st, [("x", 1%Z); ("y", 2%Z)].
  split; [reflexivity|]. split; [reflexivity|]. split; [exact N|]. rewrite G. discriminate.
Qed.
Print Assumptions C44_extension_refuted.
(** An array called file cannot be saved; the archive has then been moved
    aside. *)
Theorem C44_array_called_file_refuted : exists (st : store Z) (d d' : disk Z) m, files d "c.npz" = Some (Npz m) /\
  set_attr Z arr Arrays "file" 4%Z (Store (Some None) None [] [] []) = (st, Ok tt) /\
  save Z pick Arrays st (Some "c") d = (d', Err TypeError) /\ files d' "c.npz" = None /\ files d' "c.npz%" = Some (Npz m).
Proof.
  destruct IoCases.called_file as [st [d' [A [B [C D]]]]]. exists st, (Disk fs0 []), d', [("u", 3%Z); ("w", (-1)%Z)].
  split; [reflexivity|]. split; [exact A|]. split; [exact B|]. split; [exact C|exact D].
Qed.
Print Assumptions C44_array_called_file_refuted.
(** An attribute called save hides the method, and once archived is hidden by
    it. *)
Theorem C44_attribute_called_save_refuted : exists (st st' : store Z) (d d' : disk Z),
  set_attr Z arr Attrs "save" 4%Z (Store (Some None) None [] [] []) = (st, Ok tt) /\ snd (call_save Z pick Attrs st (Some "c") d) = Err TypeError /\
  save Z pick Attrs st (Some "c") d = (d', Ok tt) /\ new_store Z arr Attrs (Some "c") [] d' = (d', Ok st') /\ snd (get_attr "save" st') <> Ok (Val 4%Z).
Proof.
  destruct IoCases.loaded_save as [d' [st' [A [B C]]]]. exists (Store (Some None) None [] [("save", 4%Z)] [("save", 4%Z)]), st', (Disk fs0 []), d'.
  split; [reflexivity|]. split; [reflexivity|]. split; [exact A|]. split; [exact B|]. rewrite C. discriminate.
Qed.
Print Assumptions C44_attribute_called_save_refuted.

(** ** C45: generator states *)

(** In Python 3 saving always fails, after the earlier states have been moved
    and with an empty file in place. *)
Theorem C45_saving_raises : forall V f (w : rng_world V), rw_id w = MT_id -> fates (rw_disk w) = [] -> f <> "" -> exists w',
  save_rng false f w = (w', Err TypeError) /\ rw_np w' = rw_np w /\
  rotated f (files (rw_disk w)) (files (rw_disk w')) /\ files (rw_disk w') f = Some (Bytes []).
Proof. intros V f w A B C. destruct (IoLemmas4.save_rng_fine V false f w A B C) as [fs [E [R F]]]. eexists. split; [exact E|]. split; [reflexivity|]. split; [exact R|exact F]. Qed.
Print Assumptions C45_saving_raises.
(** Nor can a state be restored, whatever is on disk. *)
Theorem C45_restoring_raises : forall V f (w : rng_world V), (exists e, snd (restore_rng false f w) = Err e) /\ rw_np (fst (restore_rng false f w)) = rw_np w.
Proof. exact IoLemmas4.restore_rng_never. Qed.
Print Assumptions C45_restoring_raises.
(** After three attempts nothing is left of the saved states. *)
Theorem C45_three_attempts : forall V f (w w1 w2 w3 : rng_world V) r1 r2 r3, rw_id w = MT_id -> fates (rw_disk w) = [] -> f <> "" ->
  save_rng false f w = (w1, r1) -> save_rng false f w1 = (w2, r2) -> save_rng false f w2 = (w3, r3) ->
  forall n, n = f \/ n = f ++ ".1" \/ n = f ++ ".2" -> files (rw_disk w3) n = Some (Bytes []).
Proof. exact IoLemmas4.three_saves. Qed.
Print Assumptions C45_three_attempts.
Theorem C45_refuted : exists f (w : rng_world Z), rw_id w = MT_id /\ fates (rw_disk w) = [] /\ f <> "" /\
  forall np, snd (restore_rng false f (RngWorld MT_id np (rw_disk (fst (save_rng false f w))))) <> Ok tt.
Proof.
  exists "s", IoCases.w1. split; [reflexivity|]. split; [reflexivity|]. split; [discriminate|]. intros np H.
  destruct (proj1 (IoLemmas4.restore_rng_never Z "s" (RngWorld MT_id np (rw_disk (fst (save_rng false "s" IoCases.w1)))))) as [e E]. rewrite E in H. discriminate.
Qed.
Print Assumptions C45_refuted.
(** In Python 2 the generator is restored, from whatever state it is in ... *)
Theorem C45_python2 : forall V f (w : rng_world V) np, rw_id w = MT_id -> fates (rw_disk w) = [] -> f <> "" -> exists w',
  save_rng true f w = (w', Ok tt) /\ rw_np w' = rw_np w /\ rotated f (files (rw_disk w)) (files (rw_disk w')) /\
  restore_rng true f (RngWorld MT_id np (rw_disk w')) = (RngWorld MT_id (NpState (np_rk (rw_np w)) (0%Z, 0%R)) (rw_disk w'), Ok tt).
Proof.
  intros V f w np A B C. destruct (IoLemmas4.save_rng_fine V true f w A B C) as [fs [E [R F]]]. eexists. split; [exact E|]. split; [reflexivity|]. split; [exact R|].
  unfold restore_rng. cbn [rw_disk rw_id rw_np files]. rewrite F. rewrite String.eqb_refl. reflexivity.
Qed.
Print Assumptions C45_python2.
(** ... but not the normal deviate kept for the next call. *)
Theorem C45_python2_deviate_refuted : exists f (w w' : rng_world Z), save_rng true f w = (w', Ok tt) /\ rw_np (fst (restore_rng true f w')) <> rw_np w.
Proof.
  exists "s", IoCases.w1. eexists. split; [reflexivity|]. cbn. intro H. apply (f_equal (fun s => fst (np_extra s))) in H. discriminate.
Qed.
Print Assumptions C45_python2_deviate_refuted.
Example C45_a_world : rw_id IoCases.w1 = MT_id /\ fates (rw_disk IoCases.w1) = [] /\ files (rw_disk IoCases.w1) "s" = Some (RngPkl MT_id (Rk [4%Z] 0%Z)).
Proof. repeat split. Qed.

(** ** C62: the opener's arguments *)

(** After a backup the opener gets the file name and the arguments, if some
    are positional. *)
Theorem C62_opener_gets_arguments : forall V f b op a args kwds (d d1 : disk V), backup f d = (d1, Ok tt) ->
  safe_open f b (Some op) (a :: args) kwds d =
  match op f (a :: args) kwds d1 with (d2, Ok v) => (d2, Ok (Other v)) | (d2, Err e) => (d2, Err e) end.
Proof. intros V f b op a args kwds d d1 H. unfold safe_open, bind. rewrite H. reflexivity. Qed.
Print Assumptions C62_opener_gets_arguments.
(** Keywords alone are dropped. *)
Theorem C62_keywords_dropped : forall V f b op kwds (d : disk V), safe_open f b (Some op) [] kwds d = safe_open f b (Some op) [] [] d.
Proof. reflexivity. Qed.
Print Assumptions C62_keywords_dropped.
Theorem C62_keywords_refuted : exists (op : string -> list Z -> dict Z -> disk Z -> disk Z * res Z) f kwds (d d1 : disk Z), backup f d = (d1, Ok tt) /\
  safe_open f false (Some op) [] kwds d <> match op f [] kwds d1 with (d2, Ok v) => (d2, Ok (Other v)) | (d2, Err e) => (d2, Err e) end.
Proof.
  exists (fun f args kwds d => (d, Ok (match lookup "mode" kwds with Some v => v | None => 0%Z end))), "q", [("mode", 3%Z)], (Disk fs0 []), (Disk fs0 []). split; [reflexivity|]. intro H. apply (f_equal snd) in H. discriminate H.
Qed.
Print Assumptions C62_keywords_refuted.

(** ** C63: the contents of a store *)

(** As long as nothing was assigned the names in the archive are listed. *)
Theorem C63_nothing_new : forall V is_array k fname d m st reads, source k fname d m -> new_store V is_array k fname [] d = (d, Ok st) ->
  contents (use is_array k (map (fun n => Read n) reads) st) = Ok (map (fun nv => EName (fst nv)) m).
Proof.
  intros V is_array k fname d m st reads S N.
  assert (G : forall st, st_new st = [] -> (st_archive st = Some (Some m) \/ (st_archive st = Some None /\ m = [])) -> contents (use is_array k (map (fun n => Read n) reads) st) = Ok (map (fun nv => EName (fst nv)) m)).
  { clear. induction reads as [|n reads IH]; intros st A B.
    - cbn. unfold contents. destruct B as [->|[-> ->]]; rewrite A; [now rewrite app_nil_r|reflexivity].
    - unfold use in *. cbn [map fold_left]. apply IH.
      + unfold get_attr. destruct (lookup n (st_dict st)); [exact A|]. destruct (String.eqb n "save" || String.eqb n "contents")%bool; [exact A|]. destruct (st_archive st) as [[m'|]|]; try exact A. destruct (lookup n m'); exact A.
      + unfold get_attr. destruct (lookup n (st_dict st)); [exact B|]. destruct (String.eqb n "save" || String.eqb n "contents")%bool; [exact B|]. destruct (st_archive st) as [[m'|]|] eqn:AR; cbn [fst]; try (rewrite AR; exact B). destruct (lookup n m'); cbn [fst st_archive]; try rewrite AR; exact B. }
  apply G.
  - revert N. unfold new_store. destruct fname as [f|]; cbn in S.
    + destruct S as [NE [NX F]]. destruct f as [|c f]; [congruence|]. rewrite NX. cbn [negb]. unfold bind, load. rewrite F. destruct k; cbn; intro N; injection N as <-; reflexivity.
    + cbn. intro N. injection N as <-. reflexivity.
  - destruct (IoLemmas3.new_store_holds V is_array k fname [] d m S (fun _ => eq_refl)) as [st' [e [N' [H _]]]]. rewrite N in N'. injection N' as <-. exact (IoLemmas3.h_arch V m e st H).
Qed.
Print Assumptions C63_nothing_new.
(** An assigned attribute is listed by its value, and one that replaces an
    archived one is there twice. *)
Theorem C63_new_names_refuted : exists (st : store Z) (acts : list (action Z)) l d, new_store Z arr Attrs (Some "a") [] d = (d, Ok st) /\
  contents (use arr Attrs acts st) = Ok l /\ snd (get_attr "z" (use arr Attrs acts st)) = Ok (Val 5%Z) /\ ~ In (EName "z") l /\ In (EValue 5%Z) l.
Proof.
  eexists. exists [Assign "z" 5%Z]. eexists. exists (Disk fs0 []). split; [cbv; reflexivity|]. split; [cbv; reflexivity|]. split; [reflexivity|]. split; cbn; [intuition discriminate|]. right. right. now left.
Qed.
Print Assumptions C63_new_names_refuted.

(** ** C64: columns of a text file *)

(** Value i of column j is what word j of line i converts to. *)
Theorem C64_columns : forall V lines (types : list (string -> res V)) (val : nat -> nat -> V), (forall i, i < length lines -> good_line types (nth i lines []) (val i)) ->
  read_column_vectors lines types false = Ok (map (fun j => map (fun i => val i j) (seq 0 (length lines))) (seq 0 (length types))).
Proof. intros V lines types val H. unfold read_column_vectors. now rewrite (IoLemmas4.columns_read V lines types val H). Qed.
Print Assumptions C64_columns.
Theorem C64_short_line_raises : forall V lines ws rest (types : list (string -> res V)) (val : nat -> nat -> V) b, (forall i, i < length lines -> good_line types (nth i lines []) (val i)) ->
  length ws < length types -> (forall j, j < length ws -> exists t w v, nth_error types j = Some t /\ nth_error ws j = Some w /\ t w = Ok v) ->
  read_column_vectors (lines ++ ws :: rest) types b = Err IndexError.
Proof. intros V lines ws rest types val b H L B. unfold read_column_vectors. now rewrite (IoLemmas4.columns_short V lines ws rest types val H L B). Qed.
Print Assumptions C64_short_line_raises.
(** With arrays, as is the default, nothing is ever returned. *)
Theorem C64_arrays_raise : forall V lines (types : list (string -> res V)), types <> [] -> exists e, read_column_vectors lines types true = Err e.
Proof. intros V lines types H. unfold read_column_vectors. destruct (add_lines V types lines (map (fun _ => []) types)); [|eexists; reflexivity]. destruct types; [congruence|]. eexists. reflexivity. Qed.
Print Assumptions C64_arrays_raise.
Theorem C64_arrays_refuted : exists lines (types : list (string -> res Z)) (val : nat -> nat -> Z), (forall i, i < length lines -> good_line types (nth i lines []) (val i)) /\ read_column_vectors lines types true = Err NameError.
Proof.
  exists [["p"; "qq"]; ["rrr"; "s"; "t"]], [fun w => Ok (Z.of_nat (String.length w)); fun w => Ok (Z.of_nat (String.length w))], (fun i j => match i, j with 0, 0 => 1%Z | 0, _ => 2%Z | _, 0 => 3%Z | _, _ => 1%Z end).
  split; [|reflexivity]. intros i I j J. cbn in I, J. destruct i as [|[|i]]; [| |lia]; (destruct j as [|[|j]]; [| |lia]); eexists; eexists; (split; [reflexivity|]); (split; [reflexivity|]); reflexivity.
Qed.
Print Assumptions C64_arrays_refuted.

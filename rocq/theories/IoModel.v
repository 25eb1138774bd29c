(** Model of package/inference/utils/ioutils.py and rng.py.

    A disk maps names to the contents of files; directories, links and
    permissions are left out.  Each operation that changes the disk is one
    step, and a list of fates says for each step whether it is carried out, is
    refused by the operating system, or finds the process stopped.  When the
    list is used up everything is carried out.  A stopped process gives
    [OutOfFuel], which no modelled code catches. *)

From Coq Require Import ZArith String List Bool Arith Reals.
From Verif Require Import Exn McModel.
Import ListNotations.
Open Scope string_scope.
Open Scope exn_scope.

(** ** Dictionaries, in order of insertion *)

Definition dict (V : Type) : Type := list (string * V).
(** d[name], or nothing for a missing key *)
Fixpoint lookup {V} (name : string) (d : dict V) : option V :=
  match d with
  | [] => None
  | (n, v) :: d' => if String.eqb n name then Some v else lookup name d'
  end.
(** d[name] = v *)
Fixpoint store_at {V} (name : string) (v : V) (d : dict V) : dict V :=
  match d with
  | [] => [(name, v)]
  | (n, w) :: d' => if String.eqb n name then (n, v) :: d' else (n, w) :: store_at name v d'
  end.
(** name in d *)
Definition has {V} (name : string) (d : dict V) : bool := match lookup name d with Some _ => true | None => false end.

(** str.endswith *)
Definition ends_with (s suffix : string) : bool :=
  String.eqb (substring (String.length s - String.length suffix) (String.length suffix) s) suffix.
(** str.startswith('_') *)
Definition private (s : string) : bool := String.prefix "_" s.

(** ** The disk *)

Inductive fate := Fine | Refused | Stopped.

Section Io.
(** Values of attributes; which of them are instances of ndarray; which can be
    pickled (or put into an archive by savez). *)
Variable V : Type.
Variable is_array : V -> bool.
Variable picklable : V -> bool.

(** Contents of files: an archive made by savez, a pickled dictionary, a
    pickled generator state, or anything else.  A file that is being written
    counts as empty until it is complete. *)
Inductive data :=
| Npz (m : dict V) | Pkl (m : dict V) | RngPkl (id : string) (g : rk) | Bytes (l : list Z).

Record disk := Disk { files : string -> option data; fates : list fate }.

Definition put (name : string) (c : option data) (fs : string -> option data) : string -> option data :=
  fun n => if String.eqb n name then c else fs n.

(** One operation on the disk. *)
Definition act (f : (string -> option data) -> res (string -> option data)) : disk -> disk * res unit :=
  fun d =>
    match fates d with
    | Stopped :: _ => (d, Err OutOfFuel)
    | Refused :: r => (Disk (files d) r, Err IOError)
    | l => match f (files d) with
           | Ok fs => (Disk fs (tl l), Ok tt)
           | Err e => (Disk (files d) (tl l), Err e)
           end
    end.

(** os.path.exists; also os.access, as permissions are left out *)
Definition exists_ (name : string) : disk -> disk * res bool :=
  fun d => (d, Ok (match files d name with Some _ => true | None => false end)).
(** os.rename on POSIX: an existing target is replaced, in one step. *)
Definition rename (a b : string) : disk -> disk * res unit :=
  act (fun fs => match fs a with
                 | Some c => Ok (put b (Some c) (put a None fs))
                 | None => Err IOError
                 end).
(** open(name, 'w') or 'wb': the file is made, or cut to length 0. *)
Definition create (name : string) : disk -> disk * res unit :=
  act (fun fs => if String.eqb name "" then Err IOError else Ok (put name (Some (Bytes [])) fs)).
(** Writing to an open file until it is complete. *)
Definition write (name : string) (c : data) : disk -> disk * res unit :=
  act (fun fs => Ok (put name (Some c) fs)).

(** ** backup and safe_open *)

(** ioutils.py:8-20 *)
Definition backup (fname : string) : disk -> disk * res unit :=
  (e <- exists_ fname ;;
   if e : bool then
     let bname := fname ++ "%" in
     (e2 <- exists_ bname ;;
      (if e2 : bool then
         let bbname := bname ++ "%" in rename bname bbname
       else ret tt) ;;;
      rename fname bname)
   else ret tt).

(** What safe_open returns: a file opened by [open], in text or binary mode,
    or what the opener returns. *)
Inductive fobj := File (name : string) (binary : bool) | Other (v : V).

(** ioutils.py:22-45; [binary] is whether the argument is True or 'b'. *)
Definition safe_open (fname : string) (binary : bool)
    (opener : option (string -> list V -> dict V -> disk -> disk * res V))
    (args : list V) (kwds : dict V) : disk -> disk * res fobj :=
  (backup fname ;;;
   match opener with
   | Some op =>
       match args with
       | _ :: _ => v <- op fname args kwds ;; ret (Other v)
       | [] => v <- op fname [] [] ;; ret (Other v)
       end
   | None =>
       if binary then create fname ;;; ret (File fname true)
       else create fname ;;; ret (File fname false)
   end).

(** ** read_column_vectors *)

(** ioutils.py:74-75: one line.  [words] is line.strip().split(), [cols] the
    columns so far, with the types. *)
Fixpoint add_words (types : list (string -> res V)) (words : list string) (cols : list (list V)) : res (list (list V)) :=
  match types, cols with
  | t :: types', c :: cols' =>
      match words with
      | [] => Err IndexError
      | w :: words' =>
          match t w with
          | Err e => Err e
          | Ok v => match add_words types' words' cols' with
                    | Err e => Err e
                    | Ok r => Ok ((c ++ [v])%list :: r)
                    end
          end
      end
  | _, _ => Ok cols
  end.
Fixpoint add_lines (types : list (string -> res V)) (lines : list (list string)) (cols : list (list V)) : res (list (list V)) :=
  match lines with
  | [] => Ok cols
  | ws :: lines' => match add_words types ws cols with
                    | Err e => Err e
                    | Ok cols => add_lines types lines' cols
                    end
  end.
(** ioutils.py:47-79.  The name [array] is not imported (line 4). *)
Definition read_column_vectors (lines : list (list string)) (types : list (string -> res V)) (as_arrays : bool)
  : res (list (list V)) :=
  match add_lines types lines (map (fun _ => []) types) with
  | Err e => Err e
  | Ok cols =>
      if as_arrays then match types with [] => Ok cols | _ :: _ => Err NameError end
      else Ok cols
  end.

(** ** The stores *)

(** ArrayStore (82-205) and AttrStore (208-339) have the same structure. *)
Inductive kind := Arrays | Attrs.
Definition ext (k : kind) : string := match k with Arrays => ".npz" | Attrs => ".pkl" end.

(** A store: the attribute _npz or _archive, which is missing, None or the
    archive's contents; _fname; _archived or _pulled; _new; and the instance
    dictionary of other attributes.  An open archive keeps its contents
    when its file is renamed.  The values are not changed in place. *)
Record store := Store {
  st_archive : option (option (dict V)); st_fname : option string;
  st_pulled : dict V; st_new : dict V; st_dict : dict V }.

(** numpy.load or open and pickle.load.  What is not an archive of the right
    kind is refused. *)
Definition load (k : kind) (fname : string) : disk -> disk * res (dict V) :=
  fun d => (d, match files d fname with
               | None => Err IOError
               | Some (Npz m) => match k with Arrays => Ok m | Attrs => Err ValueError end
               | Some (Pkl m) => match k with Attrs => Ok m | Arrays => Err ValueError end
               | Some _ => Err ValueError
               end).

(** __setattr__, 138-157 and 273-290.  The internal names are not used. *)
Definition set_attr (k : kind) (name : string) (v : V) : store -> store * res unit :=
  fun st =>
    let direct := store_at name v (st_dict st) in
    let marked := Store (st_archive st) (st_fname st) (st_pulled st) (store_at name v (st_new st)) direct in
    if private name then (Store (st_archive st) (st_fname st) (st_pulled st) (st_new st) direct, Ok tt)
    else match k with
         | Arrays => if is_array v then (marked, Ok tt) else (st, Err ValueError)
         | Attrs => (marked, Ok tt)
         end.

(** __init__, 102-117 and 232-252; keyword arguments only for AttrStore. *)
Definition new_store (k : kind) (fname : option string) (kwds : dict V) : disk -> disk * res store :=
  (p <- match fname with
        | Some (String _ _ as f) =>
            if negb (ends_with f (ext k)) then
              let f := f ++ ext k in
              m <- load k f ;; ret (Some (Some m), Some f)
            else ret (None, Some f)
        | f => ret (Some None, f)
        end ;;
   let st := Store (fst p) (snd p) [] [] [] in
   match for_each kwds (fun nv => set_attr k (fst nv) (snd nv)) st with
   | (st, Ok _) => ret st
   | (_, Err e) => raise e
   end).

(** What reading an attribute gives: a value, or one of the methods. *)
Inductive found := Val (v : V) | Method.

(** Reading an attribute: the instance dictionary, the class, then
    __getattr__, 119-136 and 254-271.  Where _npz (_archive) is missing, looking
    for it calls __getattr__ again without end.  The internal names are not
    used. *)
Definition get_attr (name : string) : store -> store * res found :=
  fun st =>
    match lookup name (st_dict st) with
    | Some v => (st, Ok (Val v))
    | None =>
        if (String.eqb name "save" || String.eqb name "contents")%bool then (st, Ok Method)
        else match st_archive st with
             | None => (st, Err RecursionError)
             | Some None => (st, Err AttributeError)
             | Some (Some m) =>
                 match lookup name m with
                 | Some v => (Store (st_archive st) (st_fname st) (store_at name v (st_pulled st)) (st_new st) (store_at name v (st_dict st)), Ok (Val v))
                 | None => (st, Err AttributeError)
                 end
             end
    end.

(** 181-191 and 314-324: the attributes to save. *)
Definition gather (st : store) : res (dict V) :=
  let attrs := fold_left (fun a nv => store_at (fst nv) (snd nv) a) (st_pulled st) [] in
  match st_archive st with
  | None => Err RecursionError
  | Some arch =>
      let attrs := match arch with
                   | Some m => fold_left (fun a nv => if has (fst nv) (st_pulled st) then a else store_at (fst nv) (snd nv) a) m attrs
                   | None => attrs
                   end in
      Ok (fold_left (fun a nv => store_at (fst nv) (snd nv) a) (st_new st) attrs)
  end.

Definition all_picklable (m : dict V) : bool := forallb (fun nv => picklable (snd nv)) m.

(** numpy.savez(fname, **arrays): its first parameter is called file; the
    extension is added where missing.  What cannot be pickled raises TypeError
    (or PicklingError) with the file begun. *)
Definition savez (fname : string) (arrays : dict V) : disk -> disk * res unit :=
  if has "file" arrays then raise TypeError
  else let fname := if ends_with fname ".npz" then fname else fname ++ ".npz" in
       (create fname ;;;
        if all_picklable arrays then write fname (Npz arrays) else raise TypeError).

(** save, 159-194 and 292-328 *)
Definition save (k : kind) (st : store) (fname : option string) : disk -> disk * res unit :=
  (f <- match fname with
        | None => match st_fname st with None => raise ValueError | Some f => ret f end
        | Some f => if negb (ends_with f (ext k)) then ret (f ++ ext k) else ret f
        end ;;
   match gather st with
   | Err e => raise e
   | Ok attrs =>
       match k with
       | Arrays => backup f ;;; savez f attrs
       | Attrs =>
           _ <- safe_open f true None [] [] ;;
           if all_picklable attrs then write f (Pkl attrs) else raise TypeError
       end
   end).

(** contents, 196-205 and 330-339: entries are names or values *)
Inductive entry := EName (s : string) | EValue (v : V).
Definition contents (st : store) : res (list entry) :=
  match st_archive st with
  | None => Err RecursionError
  | Some arch =>
      Ok ((match arch with Some m => map (fun nv => EName (fst nv)) m | None => [] end)
          ++ map (fun nv => EValue (snd nv)) (st_new st))%list
  end.

(** The calls store.save(fname) and store.contents(): an attribute of that
    name hides the method.  Values are taken not to be callable. *)
Definition call_save (k : kind) (st : store) (fname : option string) : disk -> disk * res unit :=
  match lookup "save" (st_dict st) with Some _ => raise TypeError | None => save k st fname end.
Definition call_contents (st : store) : res (list entry) :=
  match lookup "contents" (st_dict st) with Some _ => Err TypeError | None => contents st end.

(** ** rng.py *)

(** The name of numpy.random's bit generator, its state, and the disk. *)
Record rng_world := RngWorld { rw_id : string; rw_np : np_state; rw_disk : disk }.
Definition on_disk {A} (m : disk -> disk * res A) : rng_world -> rng_world * res A :=
  fun w => let (d, r) := m (rw_disk w) in (RngWorld (rw_id w) (rw_np w) d, r).

(** rng.py:7 *)
Definition MT_id : string := "MT19937".

(** rng.py:9-29.  [py2]: whether the interpreter is Python 2.  In Python 3 a
    file opened with 'w' takes no bytes, so pickle.dump raises TypeError. *)
Definition save_rng (py2 : bool) (fname : string) : rng_world -> rng_world * res unit :=
  fun w =>
    if String.eqb (rw_id w) MT_id then
      on_disk
        (e <- exists_ fname ;;
         (if e : bool then
            let fname1 := fname ++ ".1" in
            (e1 <- exists_ fname1 ;;
             (if e1 : bool then
                let fname2 := fname ++ ".2" in rename fname1 fname2
              else ret tt) ;;;
             rename fname fname1)
          else ret tt) ;;;
         create fname ;;;
         if py2 then write fname (RngPkl (rw_id w) (np_rk (rw_np w))) else raise TypeError) w
    else (w, Err RuntimeError).

(** rng.py:31-51.  pickle.load of a file opened with 'r' raises TypeError in
    Python 3.  random.set_state with three elements clears the cached normal
    deviate.  Unpickling something else than a generator state raises an error
    of one kind or another. *)
Definition restore_rng (py2 : bool) (fname : string) : rng_world -> rng_world * res unit :=
  fun w =>
    match files (rw_disk w) fname with
    | Some c =>
        if py2 then
          match c with
          | RngPkl id g =>
              if String.eqb id MT_id then (RngWorld id (NpState g (0%Z, 0%R)) (rw_disk w), Ok tt)
              else (w, Err ValueError)
          | _ => (w, Err ValueError)
          end
        else (w, Err TypeError)
    | None => save_rng py2 fname w
    end.

End Io.

Arguments Npz {V} m.
Arguments Pkl {V} m.
Arguments RngPkl {V} id g.
Arguments Bytes {V} l.
Arguments Disk {V} files fates.
Arguments files {V} d.
Arguments fates {V} d.
Arguments put {V} name c fs.
Arguments exists_ {V} name.
Arguments rename {V} a b.
Arguments create {V} name.
Arguments write {V} name c.
Arguments backup {V} fname.
Arguments File {V} name binary.
Arguments Other {V} v.
Arguments safe_open {V} fname binary opener args kwds.
Arguments read_column_vectors {V} lines types as_arrays.
Arguments Store {V} st_archive st_fname st_pulled st_new st_dict.
Arguments st_archive {V} s.
Arguments st_fname {V} s.
Arguments st_pulled {V} s.
Arguments st_new {V} s.
Arguments st_dict {V} s.
Arguments Val {V} v.
Arguments Method {V}.
Arguments get_attr {V} name.
Arguments gather {V} st.
Arguments EName {V} s.
Arguments EValue {V} v.
Arguments contents {V} st.
Arguments call_contents {V} st.
Arguments RngWorld {V} rw_id rw_np rw_disk.
Arguments rw_id {V} r.
Arguments rw_np {V} r.
Arguments rw_disk {V} r.
Arguments save_rng {V} py2 fname.
Arguments restore_rng {V} py2 fname.

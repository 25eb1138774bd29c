(** Vocabulary for the statements about files, stores and saved generator
    states. *)

From Coq Require Import ZArith String List Bool.
From Verif Require Import Exn IoModel.
Import ListNotations.
Open Scope string_scope.

(** What is on disk after something that may have replaced the file f, and
    that may have been cut short: only f and its two backups may differ; what f
    held is under f or f%; what f% held then is under f% or f%%; and if
    there was no f, no backup has changed. *)
Definition kept {V} (f : string) (fs fs' : string -> option (data V)) : Prop :=
  (forall n, n <> f -> n <> f ++ "%" -> n <> f ++ "%%" -> fs' n = fs n) /\
  (forall c, fs f = Some c -> fs' f = Some c \/ fs' (f ++ "%") = Some c) /\
  (forall c b, fs f = Some c -> fs (f ++ "%") = Some b -> fs' (f ++ "%") = Some b \/ fs' (f ++ "%%") = Some b) /\
  (fs f = None -> fs' (f ++ "%") = fs (f ++ "%") /\ fs' (f ++ "%%") = fs (f ++ "%%")).

(** After success: the old contents are in f%, the older ones in f%%. *)
Definition shifted {V} (f : string) (fs fs' : string -> option (data V)) : Prop :=
  forall c, fs f = Some c ->
    fs' (f ++ "%") = Some c /\
    fs' (f ++ "%%") = match fs (f ++ "%") with Some b => Some b | None => fs (f ++ "%%") end.

(** What a user does with a store. *)
Inductive action (V : Type) := Read (n : string) | Assign (n : string) (v : V).
Arguments Read {V} n.
Arguments Assign {V} n v.

Section Use.
Variable V : Type.
Variable is_array : V -> bool.

(** The store after a series of actions, whether or not they raise. *)
Definition use (k : kind) (acts : list (action V)) (st : store V) : store V :=
  fold_left (fun st a => match a with
                         | Read n => fst (get_attr n st)
                         | Assign n v => fst (set_attr V is_array k n v st)
                         end) acts st.

(** Which assignments a store keeps. *)
Definition accepts (k : kind) (n : string) (v : V) : bool :=
  (negb (private n) && match k with Arrays => is_array v | Attrs => true end)%bool.

(** The value that n should have: the last one assigned, or else the one in
    the archive. *)
Fixpoint expected (k : kind) (m : dict V) (acts : list (action V)) (n : string) : option V :=
  match acts with
  | [] => lookup n m
  | a :: acts' =>
      match a with
      | Read _ => expected k m acts' n
      | Assign n' v => expected k (if accepts k n' v then (n', v) :: m else m) acts' n
      end
  end.
End Use.
Arguments use {V} is_array k acts st.
Arguments accepts {V} is_array k n v.
Arguments expected {V} is_array k m acts n.

(** The archive of the right kind. *)
Definition archive {V} (k : kind) (m : dict V) : data V := match k with Arrays => Npz m | Attrs => Pkl m end.

(** Names that are given to methods. *)
Definition reserved (n : string) : Prop := n = "save" \/ n = "contents".

(** The archive m that a store is made from: none where there is no name, and
    otherwise the one in the named file, the name being without extension. *)
Definition source {V} (k : kind) (fname : option string) (d : disk V) (m : dict V) : Prop :=
  match fname with
  | None => m = []
  | Some f => f <> "" /\ ends_with f (ext k) = false /\ files d (f ++ ext k) = Some (archive k m)
  end.

(** The contents of three files after the first has been moved aside, with
    suffixes .1 and .2. *)
Definition rotated {V} (f : string) (fs fs' : string -> option (data V)) : Prop :=
  (forall n, n <> f -> n <> f ++ ".1" -> n <> f ++ ".2" -> fs' n = fs n) /\
  match fs f with
  | None => fs' (f ++ ".1") = fs (f ++ ".1") /\ fs' (f ++ ".2") = fs (f ++ ".2")
  | Some c => fs' (f ++ ".1") = Some c /\
              fs' (f ++ ".2") = match fs (f ++ ".1") with Some b => Some b | None => fs (f ++ ".2") end
  end.

(** The words of a line convert to the values v, one for each type. *)
Definition good_line {V} (types : list (string -> res V)) (ws : list string) (v : nat -> V) : Prop :=
  forall j, j < length types -> exists t w, nth_error types j = Some t /\ nth_error ws j = Some w /\ t w = Ok (v j).

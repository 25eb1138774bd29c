(** Vocabulary for statements about names. *)

From Coq Require Import List Bool Arith Ascii Sorting.Sorted Permutation.
From Verif Require Import Exn NamesModel.
Import ListNotations.

(** A line of source assigns to a name: blanks, the name, and = with at most
    one space before. *)
Definition declares (name line : text) : Prop :=
  exists blank tail, Forall (fun c => is_space c = true) blank /\
    (line = blank ++ name ++ equals :: tail \/ line = blank ++ name ++ space :: equals :: tail).

(** Names as Python identifiers: not empty, no blank and no = inside. *)
Definition identifier (name : text) : Prop :=
  name <> [] /\ Forall (fun c => is_space c = false /\ c <> equals) name.

Definition declared (name : text) (src : list text) : Prop := Exists (declares name) src.

(** The first line that assigns to a name. *)
Definition first_line (src : list text) (name : text) (i : nat) : Prop :=
  (exists line, nth_error src i = Some line /\ declares name line)
  /\ forall j line, j < i -> nth_error src j = Some line -> ~ declares name line.

(** [o] lists exactly the names, in the order of their first assignment. *)
Definition source_order (src : list text) (names o : list text) : Prop :=
  Permutation names o /\
  StronglySorted (fun a b => exists i j, first_line src a i /\ first_line src b j /\ i < j) o.

(** The parameters declared in a class as an inference would find them. *)
Definition names_of (f : field) (w : world) (c : nat) : list text :=
  match lookup f w c with Some a => lists w a | None => [] end.

(** A class whose names can all be found in its source. *)
Definition sourced (source : nat -> option (list text)) (w : world) (f : field) (c : nat)
  (src : list text) : Prop :=
  source c = Some src /\ NoDup (names_of f w c) /\ Forall identifier (names_of f w c)
  /\ Forall (fun n => declared n src) (names_of f w c).

(** Programs: class statements in any order and number. *)
Inductive reachable : world -> Prop :=
| r_start : reachable world0
| r_class : forall w mro dict, reachable w -> Forall (fun c => c < nextc w) mro ->
    reachable (fst (define_class mro dict w)).

(** Names of one kind in a class statement. *)
Definition listed (f : field) (dict : list (field * text)) : list text :=
  map snd (filter (fun d => match f, fst d with Params, Params | Preds, Preds => true | _, _ => false end) dict).

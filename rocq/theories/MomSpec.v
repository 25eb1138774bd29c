(** Vocabulary of the statements about moments and flatten. *)

From Coq Require Import List Bool Arith Reals.
From Verif Require Import MomModel.
Import ListNotations.
Open Scope R_scope.

(** The numbers in nested sequences, in order. *)
Fixpoint leaves (i : item) : list item :=
  match i with
  | Seq l => flat_map leaves l
  | _ => [i]
  end.
(** Nested sequences of numbers, none of them empty. *)
Inductive nested : item -> Prop :=
| nested_num : forall x, nested (Num x)
| nested_seq : forall l, l <> [] -> Forall nested l -> nested (Seq l).
(** Number of nested calls needed: an element in place k (from 0) of a
    sequence is reached after k + 1 more calls. *)
Fixpoint calls (i : item) : nat :=
  match i with
  | Seq l => (fix from l := match l with [] => 0%nat | x :: l' => S (Nat.max (calls x) (from l')) end) l
  | _ => 1%nat
  end.

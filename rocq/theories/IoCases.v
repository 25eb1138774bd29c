(** Worked cases for the theorems on files and stores. *)

From Coq Require Import ZArith String List Bool Arith Lia Reals.
From Verif Require Import Exn McModel IoModel IoSpec IoLemmas IoLemmas2 IoLemmas3 IoLemmas4.
Import ListNotations.
Open Scope string_scope.

(** Values are integers; those that are not negative count as arrays, and 13
    cannot be pickled. *)
Definition arr (v : Z) : bool := (0 <=? v)%Z.
Definition pick (v : Z) : bool := negb (v =? 13)%Z.

(** A disk with a file and its backup, and an unrelated file. *)
Definition fs0 : string -> option (data Z) :=
  fun n => if String.eqb n "a.pkl" then Some (Pkl [("x", 1%Z); ("y", 2%Z)])
           else if String.eqb n "a.pkl%" then Some (Bytes [7%Z])
           else if String.eqb n "b" then Some (Bytes [8%Z; 9%Z])
           else if String.eqb n "c.npz" then Some (Npz [("u", 3%Z); ("w", (-1)%Z)]) else None.

(** The process stops between the two renames: the contents are in place, the
    older ones have been moved. *)
Lemma between_renames : exists d', backup "a.pkl" (Disk fs0 [Fine; Stopped]) = (d', Err OutOfFuel) /\
  files d' "a.pkl" = fs0 "a.pkl" /\ files d' "a.pkl%" = None /\ files d' "a.pkl%%" = fs0 "a.pkl%" /\ files d' "b" = fs0 "b".
Proof. eexists. split; [cbv; reflexivity|]. repeat split. Qed.

(** A store with one new attribute. *)
Definition st1 : store Z := Store (Some None) None [] [("x", 5%Z)] [("x", 5%Z)].

(** Three interrupted saves one after another lose what the file held. *)
Definition after (l : list fate) (fs : string -> option (data Z)) : string -> option (data Z) :=
  files (fst (save Z pick Attrs st1 (Some "a") (Disk fs l))).
Lemma three_interrupted : let fs1 := after [Fine; Fine; Fine; Stopped] fs0 in let fs2 := after [Fine; Fine; Fine; Stopped] fs1 in let fs3 := after [Fine; Fine; Fine; Stopped] fs2 in
  fs3 "a.pkl" = Some (Bytes []) /\ fs3 "a.pkl%" = Some (Bytes []) /\ fs3 "a.pkl%%" = Some (Bytes []).
Proof. repeat split. Qed.

(** Reading and assigning, with a name of each sort. *)
Definition acts1 : list (action Z) := [Read "x"; Assign "x" 5%Z; Assign "_p" 6%Z; Assign "z" 7%Z; Read "y"; Assign "z" 8%Z].
Lemma expected1 : expected arr Attrs [("x", 1%Z); ("y", 2%Z)] acts1 "x" = Some 5%Z /\ expected arr Attrs [("x", 1%Z); ("y", 2%Z)] acts1 "y" = Some 2%Z /\
  expected arr Attrs [("x", 1%Z); ("y", 2%Z)] acts1 "z" = Some 8%Z /\ expected arr Attrs [("x", 1%Z); ("y", 2%Z)] acts1 "_p" = None.
Proof. repeat split. Qed.

(** Loading by a name with the extension: "a.pkl" is there, but nothing can be
    read. *)
Lemma by_extension : exists st, new_store Z arr Attrs (Some "a.pkl") [] (Disk fs0 []) = (Disk fs0 [], Ok st) /\ snd (get_attr "x" st) = Err RecursionError.
Proof. eexists. split; [cbv; reflexivity|reflexivity]. Qed.

(** An array called file. *)
Lemma called_file : exists st d', set_attr Z arr Arrays "file" 4%Z (Store (Some None) None [] [] []) = (st, Ok tt) /\
  save Z pick Arrays st (Some "c") (Disk fs0 []) = (d', Err TypeError) /\ files d' "c.npz" = None /\ files d' "c.npz%" = fs0 "c.npz".
Proof. eexists. eexists. split; [cbv; reflexivity|]. split; [cbv; reflexivity|]. split; reflexivity. Qed.

(** An attribute called save. *)
Lemma called_save : exists st, set_attr Z arr Attrs "save" 4%Z (Store (Some None) None [] [] []) = (st, Ok tt) /\
  forall d, call_save Z pick Attrs st (Some "c") d = (d, Err TypeError).
Proof. eexists. split; [cbv; reflexivity|]. intro d. reflexivity. Qed.
(** ... saved (by the function of the class), and loaded: the method is found. *)
Lemma loaded_save : exists d' st, save Z pick Attrs (Store (Some None) None [] [("save", 4%Z)] [("save", 4%Z)]) (Some "c") (Disk fs0 []) = (d', Ok tt) /\
  new_store Z arr Attrs (Some "c") [] d' = (d', Ok st) /\ snd (get_attr "save" st) = Ok Method.
Proof. eexists. eexists. split; [cbv; reflexivity|]. split; [cbv; reflexivity|reflexivity]. Qed.

(** Generator states *)
Definition np1 : np_state := NpState (Rk [1%Z; 2%Z; 3%Z] 1%Z) (1%Z, 2%R).
Definition w1 : rng_world Z := RngWorld MT_id np1 (Disk (fun n => if String.eqb n "s" then Some (RngPkl MT_id (Rk [4%Z] 0%Z)) else None) []).

(** Model of how classes collect the names of parameters and predictors, and
    of how an inference orders them: package/inference/pie/autoname.py:35-41,
    param.py:76-91, predictor.py:57-65, inference_base.py:88-182.

    Text is a list of characters of the first 256 code points; what a class
    statement contributes is the list of its AutoNamed descriptors in the order
    of the class dictionary. *)

From Coq Require Import List Bool Arith Ascii.
From Verif Require Import Exn.
Import ListNotations.
Open Scope exn_scope.

Definition text := list ascii.

Definition text_eqb (a b : text) : bool := if list_eq_dec ascii_dec a b then true else false.

(** Characters removed by str.strip(). *)
Definition is_space (c : ascii) : bool :=
  let n := nat_of_ascii c in
  (Nat.leb 9 n && Nat.leb n 13) || (Nat.leb 28 n && Nat.leb n 32)
  || Nat.eqb n 133 || Nat.eqb n 160.

Fixpoint lstrip (s : text) : text :=
  match s with
  | c :: s' => if is_space c then lstrip s' else s
  | [] => []
  end.
Definition rstrip (s : text) : text := rev (lstrip (rev s)).
Definition strip (s : text) : text := rstrip (lstrip s).

Fixpoint startswith (p s : text) : bool :=
  match p, s with
  | [], _ => true
  | c :: p', d :: s' => if ascii_dec c d then startswith p' s' else false
  | _ :: _, [] => false
  end.

Definition space : ascii := Ascii.ascii_of_nat 32.
Definition equals : ascii := Ascii.ascii_of_nat 61.

(** inference_base.py:131, 158, 169: the test on a stripped line. *)
Definition assigns (name line : text) : bool :=
  startswith (name ++ [space; equals]) line || startswith (name ++ [equals]) line.

(** list.remove *)
Fixpoint remove_first (x : text) (l : list text) : list text :=
  match l with
  | [] => []
  | y :: l' => if text_eqb x y then l' else y :: remove_first x l'
  end.

(** inference_base.py:129-133 (also 157-160, 168-171): the inner loop runs over
    the list while elements are being removed from it, so it advances by
    position.  [fuel] positions are visited; None if that was not enough. *)
Fixpoint scan (fuel pos : nat) (line : text) (names found : list text)
  : option (list text * list text) :=
  match nth_error names pos with
  | None => Some (names, found)
  | Some p =>
      match fuel with
      | O => None
      | S fuel' =>
          if assigns p line
          then scan fuel' (S pos) line (remove_first p names) (found ++ [p])
          else scan fuel' (S pos) line names found
      end
  end.

(** inference_base.py:127-133: all lines; what is left and what was found. *)
Fixpoint collect (src : list text) (names found : list text)
  : option (list text * list text) :=
  match src with
  | [] => Some (names, found)
  | line :: src' =>
      match scan (length names) 0 (strip line) names found with
      | Some (names', found') => collect src' names' found'
      | None => None
      end
  end.

(** Classes: the others in the method resolution order, and the class's own
    param_names and predictor_names (identities of list objects). *)
Record cls := Cls { c_mro : list nat; c_params : option nat; c_preds : option nat }.

Record world := World {
  lists : nat -> list text;
  nextl : nat;
  classes : nat -> cls;
  nextc : nat
}.

Definition world0 : world := World (fun _ => []) 0 (fun _ => Cls [] None None) 0.

Definition M (A : Type) : Type := world -> world * res A.

Definition upd {A} (f : nat -> A) (k : nat) (v : A) : nat -> A :=
  fun n => if Nat.eqb n k then v else f n.

Inductive field := Params | Preds.
Definition own (f : field) (c : cls) : option nat :=
  match f with Params => c_params c | Preds => c_preds c end.
Definition set_own (f : field) (a : nat) (c : cls) : cls :=
  match f with
  | Params => Cls (c_mro c) (Some a) (c_preds c)
  | Preds => Cls (c_mro c) (c_params c) (Some a)
  end.

(** Attribute lookup on a class: its own, else the next in the order. *)
Fixpoint find_attr (f : field) (w : world) (cs : list nat) : option nat :=
  match cs with
  | [] => None
  | c :: cs' => match own f (classes w c) with
                | Some a => Some a
                | None => find_attr f w cs'
                end
  end.
Definition lookup (f : field) (w : world) (c : nat) : option nat :=
  find_attr f w (c :: c_mro (classes w c)).

Definition set_list (a : nat) (l : list text) (w : world) : world :=
  World (upd (lists w) a l) (nextl w) (classes w) (nextc w).
(** A new list object. *)
Definition new_list (l : list text) (w : world) : world * nat :=
  (World (upd (lists w) (nextl w) l) (S (nextl w)) (classes w) (nextc w), nextl w).

(** param.py:88-91 and predictor.py:62-65, _report_name. *)
Definition report_name (f : field) (c : nat) (name : text) (w : world) : world :=
  match lookup f w c with
  | Some a => set_list a (lists w a ++ [name]) w
  | None =>
      let (w', a) := new_list [name] w in
      World (lists w') (nextl w') (upd (classes w') c (set_own f a (classes w' c))) (nextc w')
  end.

(** autoname.py:35-41: a class statement. *)
Definition define_class (mro : list nat) (dict : list (field * text)) (w : world) : world * nat :=
  let c := nextc w in
  let w1 := World (lists w) (nextl w) (upd (classes w) c (Cls mro None None)) (S c) in
  (fold_left (fun w d => report_name (fst d) c (snd d) w) dict w1, c).

Section Init.
(** inspect.getsourcelines of a class; None: IOError or TypeError. *)
Variable source : nat -> option (list text).

(** inference_base.py:118-143 with its argument from line 103; the result is
    a list object.  Printing is left out. *)
Definition get_signal_names (sig : option nat) : M nat :=
  fun w =>
    match sig with
    | None => (w, Err AttributeError)
    | Some c =>
        match lookup Params w c with
        | None => (w, Err AttributeError)
        | Some a =>
            match source c with
            | None => (w, Ok a)
            | Some src =>
                match collect src (lists w a) [] with
                | None => (w, Err OutOfFuel)
                | Some ([], found) => let (w', b) := new_list found w in (w', Ok b)
                | Some (_ :: _, _) => (w, Err InferenceError)
                end
            end
        end
    end.

(** inference_base.py:102-106: any exception gives no parameters. *)
Definition signal_params (sig : option nat) : M nat :=
  fun w => match get_signal_names sig w with
           | (w', Ok a) => (w', Ok a)
           | (w', Err OutOfFuel) => (w', Err OutOfFuel)
           | (w', Err _) => let (w2, a) := new_list [] w' in (w2, Ok a)
           end.

(** inference_base.py:174-181: the handlers, which run with what has been
    found so far. *)
Definition unordered_pred_names (p : nat) (found : list text) (w : world)
  : res (list text * list text) :=
  match lookup Params w p, lookup Preds w p with
  | Some a, Some b => Ok (found ++ lists w a, lists w b)
  | _, _ => Err AttributeError
  end.

(** inference_base.py:145-182 with its argument from lines 107-110; the lists
    returned are read only, so only their contents matter. *)
Definition get_pred_names (pred : option nat) (w : world) : res (list text * list text) :=
  match pred with
  | None => Err AttributeError
  | Some p =>
      let unordered := match lookup Params w p with Some a => lists w a | None => [] end in
      match source p with
      | None => unordered_pred_names p [] w
      | Some src =>
          match (match unordered with [] => Some ([], []) | _ => collect src unordered [] end) with
          | None => Err OutOfFuel
          | Some (_ :: _, found) => unordered_pred_names p found w
          | Some ([], found) =>
              match lookup Preds w p with
              | None => unordered_pred_names p found w
              | Some b =>
                  match collect src (lists w b) [] with
                  | None => Err OutOfFuel
                  | Some (_ :: _, _) => unordered_pred_names p found w
                  | Some ([], preds) => Ok (found, preds)
                  end
              end
          end
      end
  end.

(** len(set(l)) != len(l) *)
Definition duplicated (l : list text) : bool :=
  negb (Nat.eqb (length (nodup (list_eq_dec ascii_dec) l)) (length l)).

(** inference_base.py:92-116: names of a new inference whose class has
    signal_class [sig] and pred_class [pred]; self.params and self.predictors. *)
Definition init (sig pred : option nat) : M (nat * list text) :=
  a <- signal_params sig;;
  w <- get;;
  op <- (fun w => (w, get_pred_names pred w));;
  modify (fun w => set_list a (lists w a ++ fst op) w);;;
  w <- get;;
  if duplicated (lists w a) then raise InferenceError else ret (a, snd op).
End Init.

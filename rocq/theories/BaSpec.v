(** Vocabulary for the statements about linear models. *)

From Coq Require Import List Bool Arith Reals.
From Verif Require Import Exn CountSpec BaModel.
Import ListNotations.
Open Scope R_scope.

(** A two-dimensional array has as many elements as its shape says. *)
Definition shaped (A : mat) : Prop := length (cells A) = (rows A * cols A)%nat.
Definition entry (A : mat) (i j : nat) : R := nth (i * cols A + j) (cells A) 0.
(** A square one, given by its elements. *)
Definition square (A : mat) (n : nat) : Prop := rows A = n /\ cols A = n /\ shaped A.

(** Element i, j of the product of two n by n matrices. *)
Definition product (n : nat) (A B : nat -> nat -> R) (i j : nat) : R := sum_over 0 n (fun k => A i k * B k j).
Definition transpose (A : nat -> nat -> R) (i j : nat) : R := A j i.
Definition identity (i j : nat) : R := if Nat.eqb i j then 1 else 0.

(** Only the zero combination of the rows of G vanishes. *)
Definition independent (G : mat) : Prop :=
  forall x : nat -> R, (forall i, (i < cols G)%nat -> sum_over 0 (rows G) (fun a => x a * entry G a i) = 0) -> forall a, (a < rows G)%nat -> x a = 0.
(** The sum of squared differences between samples and model with amplitudes
    x. *)
Definition misfit (G : mat) (s : list R) (x : nat -> R) : R :=
  sum_over 0 (cols G) (fun i => (nth i s 0 - sum_over 0 (rows G) (fun a => x a * entry G a i)) ^ 2).
Definition prod_over (n : nat) (f : nat -> R) : R := fold_right Rmult 1 (map f (seq 0 n)).

(** What a user may do with a BA object. *)
Inductive call := Marg (p : list R) | Ampl (p : list R) | Resid (p : list R) | Covar.
Section Calls.
Variable U : Type.
(** The object after a call, and whether the call succeeded. *)
Definition outcome {S A} (x : S * res A) : S * bool := (fst x, match snd x with Ok _ => true | Err _ => false end).
Definition call_with (vba : bool) (c : call) (o : ba U) : ba U * bool :=
  match c with
  | Marg p => outcome (marg_stats vba U p o)
  | Ampl p => outcome (amplitudes vba U p o)
  | Resid p => outcome (residuals vba U p o)
  | Covar => outcome (ba_covar vba U o)
  end.
(** With the compiled kernel *)
Definition call_ba (c : call) (o : ba U) : ba U * bool := call_with true c o.
Definition after_calls (cs : list call) (o : ba U) : ba U := fold_left (fun o c => fst (call_ba c o)) cs o.
Fixpoint all_succeed (cs : list call) (o : ba U) : bool :=
  match cs with [] => true | c :: cs' => (snd (call_ba c o) && all_succeed cs' (fst (call_ba c o)))%bool end.
End Calls.
Arguments call_with {U} vba c o.
Arguments call_ba {U} c o.
Arguments after_calls {U} cs o.
Arguments all_succeed {U} cs o.

(** The same for a BAObj; its object may also be set directly. *)
Inductive ocall := OCall (c : call) | Touch (p : list R).
Section Ocalls.
Variable O : Type.
Variable set_nonlin : list R -> O -> O * res unit.
Variable std_basis : list (O -> res bval).
Variable std_smpls : list R.
Definition call_bo (c : ocall) (o : bo O) : bo O * bool :=
  match c with
  | OCall (Marg p) => outcome (marg_stats_o true O set_nonlin std_basis std_smpls p o)
  | OCall (Ampl p) => outcome (amplitudes_o true O set_nonlin std_basis std_smpls p o)
  | OCall (Resid p) => outcome (residuals_o true O set_nonlin std_basis std_smpls p o)
  | OCall Covar => outcome (bo_covar true O o)
  | Touch p => let (obj, r) := set_nonlin p (bo_obj O o) in outcome (Bo O obj (bo_dsqr O o) (bo_memo O o), r)
  end.
Definition after_ocalls (cs : list ocall) (o : bo O) : bo O := fold_left (fun o c => fst (call_bo c o)) cs o.
Fixpoint all_succeed_o (cs : list ocall) (o : bo O) : bool :=
  match cs with [] => true | c :: cs' => (snd (call_bo c o) && all_succeed_o cs' (fst (call_bo c o)))%bool end.
(** After set_nonlin the basis depends on the parameters only. *)
Definition settles : Prop := forall p o1 o2,
  snd (set_nonlin p o1) = snd (set_nonlin p o2) /\
  (snd (set_nonlin p o1) = Ok tt -> forall g, In g std_basis -> g (fst (set_nonlin p o1)) = g (fst (set_nonlin p o2))).
End Ocalls.

(** ** The linear model that a BA object stands for *)
Definition sig_of (sigma : option R) (row : list R) : R := match sigma with Some s => s | None => nth 2 row 0 end.
(** The data over their standard deviations *)
Definition std_of (sigma : option R) (data : list (list R)) : list R := map (fun row => nth 1 row 0 / sig_of sigma row) data.
Definition value_at (v : bval) (i : nat) : R := match v with BScalar r => r | BVec l => nth i l 0 end.
Definition covers (v : bval) (n : nat) : Prop := match v with BScalar _ => True | BVec l => length l = n end.
(** Row a of G: basis function a at the abscissas, over the standard
    deviations. *)
Definition design {U} (basis : list (list R -> list R -> option U -> res bval)) (setup : option (list R -> list R -> res U))
    (data : list (list R)) (sigma : option R) (p : list R) (G : mat) : Prop :=
  rows G = length basis /\ cols G = length data /\ shaped G /\
  exists aux, match setup with None => aux = None | Some f => exists u, f p (map (fun row => nth 0 row 0) data) = Ok u /\ aux = Some u end /\
  forall a g, nth_error basis a = Some g -> exists v, g p (map (fun row => nth 0 row 0) data) aux = Ok v /\ covers v (length data) /\
    forall i, (i < length data)%nat -> entry G a i = value_at v i / sig_of sigma (nth i data []).

(** Model of sandbox/integrate/rombergs_method.c.

    Doubles are real numbers, and so are the literals of the table.  The loop over x is
    given fuel; the proofs show that it does not run out.  The value of delta before the
    first extrapolation is not used. *)

From Coq Require Import List Bool Arith ZArith Reals.
From Verif Require Import Instances.
Import ListNotations.
Open Scope R_scope.

(** rombergs_method.c:8-18 *)
Definition richardson : list R :=
  [3333333333333333333 / 10000000000000000000;
   6666666666666666667 / 100000000000000000000;
   1587301587301587302 / 100000000000000000000;
   3921568627450980392 / 1000000000000000000000;
   9775171065493646139 / 10000000000000000000000;
   2442002442002442002 / 10000000000000000000000;
   6103888176768601599 / 100000000000000000000000;
   1525902189669642176 / 100000000000000000000000;
   3814711817595739730 / 1000000000000000000000000;
   9536752259018191355 / 10000000000000000000000000;
   2384186359449949133 / 10000000000000000000000000;
   5960464832810451556 / 100000000000000000000000000;
   1490116141589226448 / 100000000000000000000000000;
   3725290312339701922 / 1000000000000000000000000000;
   9313225754828402544 / 10000000000000000000000000000;
   2328306437080797376 / 10000000000000000000000000000;
   5820766091685553902 / 100000000000000000000000000000;
   1455191522857861004 / 100000000000000000000000000000;
   3637978807104947841 / 1000000000000000000000000000000;
   9094947017737554185 / 10000000000000000000000000000000;
   2273736754432837583 / 10000000000000000000000000000000;
   5684341886081124604 / 100000000000000000000000000000000;
   1421085471520220567 / 100000000000000000000000000000000;
   3552713678800513551 / 1000000000000000000000000000000000;
   8881784197001260212 / 10000000000000000000000000000000000;
   2220446049250313574 / 10000000000000000000000000000000000].
(** rombergs_method.c:20 *)
Definition MAX_COLUMNS : Z := (1 + Z.of_nat (length richardson))%Z.
(** rombergs_method.c:89: the loop over x *)
Fixpoint sum_below (fuel : nat) (f : R -> R) (x step upper integral : R) : option R :=
  match fuel with
  | O => None
  | S fuel => if Rltb x upper then sum_below fuel f (x + step) step upper (integral + f x) else Some integral
  end.
(** rombergs_method.c:94-98: for j on, with the rest of richardson and of dt; gives the
    rest of dt, integral and delta *)
Fixpoint richardson_loop (rs dt : list R) (integral delta : R) : list R * R * R :=
  match rs, dt with
  | r :: rs, d :: dt =>
      let delta := integral - d in
      let '(dt', res, delta') := richardson_loop rs dt (integral + r * delta) delta in
      (integral :: dt', res, delta')
  | _, _ => ([], integral, delta)
  end.
(** rombergs_method.c:82-118: n iterations from k on, with dt[0] to dt[k-1]; gives the
    result and err *)
Fixpoint columns (n k : nat) (f : R -> R) (a upper h tolerance : R) (dt : list R) (integral : R) : option (R * Z) :=
  match n with
  | O => Some (integral, (-1)%Z)
  | S n =>
      let old_h := h in
      let h := h * (1 / 2) in
      match sum_below (S (2 ^ k)) f (a + h) old_h upper 0 with
      | None => None
      | Some s =>
          let integral := h * s + (1 / 2) * nth 0 dt 0 in
          let '(dt', integral, delta) := richardson_loop richardson dt integral 0 in
          if Rltb (Rabs delta) tolerance then Some (integral, 0%Z)
          else columns n (S k) f a upper h tolerance (dt' ++ [integral]) integral
      end
  end.
(** rombergs_method.c:62-119, Rombergs_Integration_Method *)
Definition Rombergs_Integration_Method (a h tolerance : R) (max_cols : Z) (f : R -> R) : option (R * Z) :=
  let upper_limit := a + h in
  let integral := (1 / 2) * (f a + f (a + h)) in
  let dt := [(1 / 2) * h * (f a + f (a + h))] in
  let max_cols := Z.to_nat (Z.min (Z.max max_cols 0) MAX_COLUMNS) in
  columns (max_cols - 1) 1 f a upper_limit h tolerance dt integral.

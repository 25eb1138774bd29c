(** Model of the sampling code in package/inference/mc: randomkit.c,
    compact5table.c, sampford.c, _ppssampler.c and population.py:20-182.

    Doubles are real numbers (with infinities where the code can divide by
    zero), C integers are unbounded; the sizes that matter are shown to be in
    range.  C code that reads or writes outside an array gives [BadMemory].
    Loops that may not end take a number of steps and give [OutOfFuel]. *)

From Coq Require Import ZArith String List Bool Arith Reals.
From Verif Require Import Exn Instances.
Import ListNotations.
Open Scope exn_scope.

Definition upd {A} (i : nat) (v : A) (l : list A) : list A := firstn i l ++ v :: skipn (S i) l.

(** ** randomkit.c *)

(** The part of rk_state that is used, randomkit.h:66-72. *)
Record rk := Rk { rk_key : list Z; rk_pos : Z }.

Definition MATRIX_A : Z := 0x9908b0df.
Definition UPPER_MASK : Z := 0x80000000.
Definition LOWER_MASK : Z := 0x7fffffff.

(** randomkit.c:193-194 and its two copies: element i from i, i+1 and i+M,
    all modulo N.  The unary minus is on an unsigned type; 32 bits are enough
    because of the mask. *)
Definition rk_twist (key : list Z) (i next far : nat) : list Z :=
  let y := Z.lor (Z.land (nth i key 0%Z) UPPER_MASK) (Z.land (nth next key 0%Z) LOWER_MASK) in
  upd i (Z.lxor (Z.lxor (nth far key 0%Z) (Z.shiftr y 1))
                (Z.land (Z.modulo (- Z.land y 1) (2 ^ 32)) MATRIX_A)) key.
(** randomkit.c:191-202 *)
Definition rk_regen (key : list Z) : list Z :=
  let key := fold_left (fun k i => rk_twist k i (i + 1) (i + 397)) (seq 0 (624 - 397)) key in
  let key := fold_left (fun k i => rk_twist k i (i + 1) (i - (624 - 397))) (seq (624 - 397) 396) key in
  rk_twist key 623 0 396.
(** randomkit.c:210-213; on a wider type the masks remove the upper bits. *)
Definition rk_temper (y : Z) : Z :=
  let y := Z.lxor y (Z.shiftr y 11) in
  let y := Z.lxor y (Z.land (Z.shiftl y 7) 0x9d2c5680) in
  let y := Z.lxor y (Z.land (Z.shiftl y 15) 0xefc60000) in
  Z.lxor y (Z.shiftr y 18).
(** randomkit.c:183-216 *)
Definition rk_random : rk -> rk * res Z := fun s =>
  let s := if Z.eqb (rk_pos s) 624 then Rk (rk_regen (rk_key s)) 0 else s in
  if Z.ltb (rk_pos s) 0 then (s, Err BadMemory)
  else match nth_error (rk_key s) (Z.to_nat (rk_pos s)) with
       | None => (s, Err BadMemory)
       | Some y => (Rk (rk_key s) (rk_pos s + 1), Ok (rk_temper y))
       end.
(** randomkit.c:223-230.  [wide] says that unsigned long has 64 bits; C does
    not fix the order of the two calls, the upper half is taken first here. *)
Definition rk_ulong (wide : bool) : rk -> rk * res Z :=
  if wide then a <- rk_random;; b <- rk_random;; ret (Z.lor (Z.shiftl a 32) b) else rk_random.
(** randomkit.c:238-246; the last shift is only there for 64 bits. *)
Definition rk_mask (wide : bool) (max : Z) : Z :=
  let m := Z.lor max (Z.shiftr max 1) in
  let m := Z.lor m (Z.shiftr m 2) in
  let m := Z.lor m (Z.shiftr m 4) in
  let m := Z.lor m (Z.shiftr m 8) in
  let m := Z.lor m (Z.shiftr m 16) in
  if wide then Z.lor m (Z.shiftr m 32) else m.
(** randomkit.c:249-251 *)
Fixpoint interval_loop (wide : bool) (mask max : Z) (fuel : nat) : rk -> rk * res Z :=
  match fuel with
  | O => raise OutOfFuel
  | S fuel =>
      u <- rk_ulong wide;;
      let value := Z.land u mask in
      if Z.ltb max value then interval_loop wide mask max fuel else ret value
  end.
(** randomkit.c:232-252 *)
Definition rk_interval (wide : bool) (max : Z) (fuel : nat) : rk -> rk * res Z :=
  if Z.eqb max 0 then ret 0%Z else interval_loop wide (rk_mask wide max) max fuel.
(** randomkit.c:254-259 *)
Definition rk_double : rk -> rk * res R :=
  a <- rk_random;;
  b <- rk_random;;
  ret ((IZR (Z.shiftr a 5) * 67108864 + IZR (Z.shiftr b 6)) / 9007199254740992)%R.

(** ** compact5table.c *)

(** compact5table.c:22 *)
Definition dg (m k : Z) : Z := Z.land (Z.shiftr m (30 - 6 * k)) 63.
(** compact5table.c:68-76 *)
Definition size (P : list Z) (k : Z) : Z := fold_left (fun s m => s + dg m k)%Z P 0%Z.
(** compact5table.c:124-149: table k, filled in the order of the items. *)
Fixpoint fill (P : list Z) (k : Z) (i : nat) : list nat :=
  match P with [] => [] | m :: P' => repeat i (Z.to_nat (dg m k)) ++ fill P' k (S i) end.
(** compact5table.c:82-91 *)
Fixpoint sure_event (P : list Z) (i : nat) : option nat :=
  match P with
  | [] => None
  | m :: P' => if Z.eqb (Z.land (Z.shiftr m 30) 63) 1 then Some i else sure_event P' (S i)
  end.

Record tables := Tables {
  tA : list nat; tB : list nat; tC : list nat; tD : list nat; tE : list nat;
  sizeE : Z; t1 : Z; t2 : Z; t3 : Z; t4 : Z }.
(** The struct Sampler: with prob1event set, with tables, or with neither
    (prob1event = -1 and the other fields not assigned). *)
Inductive sampler := Sure (i : nat) | Tabled (t : tables) | Unset.

(** compact5table.c:66-150, from the 30-bit integers. *)
Definition build_tables (P : list Z) : sampler :=
  if Z.leb (size P 1 + size P 2 + size P 3 + size P 4 + size P 5) 0 then
    match sure_event P 0 with Some i => Sure i | None => Unset end
  else
    let t1 := Z.shiftl (size P 1) 24 in
    let t2 := (t1 + Z.shiftl (size P 2) 18)%Z in
    let t3 := (t2 + Z.shiftl (size P 3) 12)%Z in
    let t4 := (t3 + Z.shiftl (size P 4) 6)%Z in
    Tabled (Tables (fill P 1 0) (fill P 2 0) (fill P 3 0) (fill P 4 0) (fill P 5 0) (size P 5) t1 t2 t3 t4).

(** Conversion of a double to an integer type. *)
Definition to_int (x : R) : Z := if Rltb x 0 then (- Int_part (- x))%Z else Int_part x.
Definition rsum (w : list R) : R := fold_left Rplus w 0%R.
(** compact5table.c:56-58 *)
Definition bits30 (w : list R) : list Z := map (fun x => to_int (x / rsum w * 2 ^ 30)%R) w.
(** compact5table.c:30-153; None is the null pointer. *)
Definition init_sampler5tbl (w : list R) : option sampler :=
  if Rleb (rsum w) 0 then None else Some (build_tables (bits30 w)).

Inductive drawn := Item (i : nat) | Again | Outside.
Definition at_table (t : list nat) (k : Z) : drawn :=
  if Z.ltb k 0 then Outside else match nth_error t (Z.to_nat k) with Some i => Item i | None => Outside end.
(** compact5table.c:186-204 and 228-254: what a 30-bit number leads to. *)
Definition look_up (t : tables) (j : Z) : drawn :=
  if Z.ltb j (t1 t) then at_table (tA t) (Z.shiftr j 24)
  else if Z.ltb j (t2 t) then at_table (tB t) (Z.shiftr (j - t1 t) 18)
  else if Z.ltb j (t3 t) then at_table (tC t) (Z.shiftr (j - t2 t) 12)
  else if Z.ltb j (t4 t) then at_table (tD t) (Z.shiftr (j - t3 t) 6)
  else if Z.leb (sizeE t) (j - t4 t) then Again
  else at_table (tE t) (j - t4 t).

(** compact5table.c:174-205 *)
Fixpoint Dran (fuel : nat) (s : sampler) : rk -> rk * res nat :=
  match s with
  | Sure i => ret i
  | Unset => raise BadMemory
  | Tabled t =>
      match fuel with
      | O => raise OutOfFuel
      | S fuel =>
          y <- rk_random;;
          match look_up t (Z.shiftr y 2) with
          | Item i => ret i
          | Again => Dran fuel s
          | Outside => raise BadMemory
          end
      end
  end.
(** compact5table.c:223-255; i-- makes the loop come back to the same i. *)
Fixpoint dran_loop (fuel : nat) (t : tables) (n : nat) (out : list nat) : rk -> rk * res (list nat) :=
  match n with
  | O => ret out
  | S n' =>
      match fuel with
      | O => raise OutOfFuel
      | S fuel =>
          y <- rk_random;;
          match look_up t (Z.shiftr y 2) with
          | Item i => dran_loop fuel t n' (out ++ [i])
          | Again => dran_loop fuel t n out
          | Outside => raise BadMemory
          end
      end
  end.
(** compact5table.c:210-256 *)
Definition Dran_array (fuel : nat) (s : sampler) (n : nat) : rk -> rk * res (list nat) :=
  match s with
  | Sure i => ret (repeat i n)
  | Unset => match n with O => ret [] | S _ => raise BadMemory end
  | Tabled t => dran_loop fuel t n []
  end.

(** ** sampford.c and the methods of _ppssampler.c *)

(** Doubles where a division by zero can occur. *)
Inductive xr := Num (r : R) | PInf | NInf | NaN.
Definition xdiv (a b : R) : xr :=
  if Reqb b 0 then (if Reqb a 0 then NaN else if Rltb a 0 then NInf else PInf) else Num (a / b)%R.
Definition xadd (a b : xr) : xr :=
  match a, b with
  | NaN, _ | _, NaN | PInf, NInf | NInf, PInf => NaN
  | PInf, _ | _, PInf => PInf
  | NInf, _ | _, NInf => NInf
  | Num x, Num y => Num (x + y)%R
  end.
(** x times a non-negative number. *)
Definition xscale (x : xr) (u : R) : xr :=
  match x with
  | Num r => Num (r * u)%R
  | NaN => NaN
  | inf => if Reqb u 0 then NaN else inf
  end.
Definition xle (a b : xr) : bool :=
  match a, b with
  | NaN, _ | _, NaN => false
  | NInf, _ | _, PInf => true
  | PInf, _ | _, NInf => false
  | Num x, Num y => Rleb x y
  end.
(** numpy's cumsum. *)
Fixpoint cumsum_from (s : R) (l : list R) : list R :=
  match l with [] => [] | x :: l' => (s + x)%R :: cumsum_from (s + x)%R l' end.
Definition cumsum (l : list R) : list R := cumsum_from 0%R l.
Fixpoint xcumsum_from (s : xr) (l : list xr) : list xr :=
  match l with [] => [] | x :: l' => xadd s x :: xcumsum_from (xadd s x) l' end.
Definition xcumsum (l : list xr) : list xr := xcumsum_from (Num 0%R) l.

(** struct Sampford.  [f_ratios] is None until memory is allocated for it. *)
Record sampford := Sampford {
  f_npopn : nat; f_cumwts : list R; f_indices : list nat; f_nsamp : nat; f_ratios : option (list xr * list xr) }.
(** struct PPSSampler; None is the null pointer. *)
Record pps := Pps { p_tab : sampler; p_sf : option sampford; p_ratio : option sampler }.

(** _ppssampler.c:114-162.  A null pointer makes the method return -1
    without an exception; the interpreter then raises SystemError, here
    RuntimeError. *)
Definition new_pps (w : list R) : res pps :=
  match init_sampler5tbl w with
  | None => Err RuntimeError
  | Some s => Ok (Pps s None None)
  end.
(** _ppssampler.c:170-214 *)
Definition pps_sample (fuel : nat) (p : pps) (n : Z) : rk -> rk * res (list nat) :=
  if Z.leb n 0 then raise ValueError else Dran_array fuel (p_tab p) (Z.to_nat n).

Section Sampling.
(** PyArray_ArgSort: indices of the elements in increasing order. *)
Variable argsort : list R -> list nat.
(** The array it returns has elements of type npy_intp.  The code reads it as
    an array of int, of 32 bits.  [wide] says that npy_intp has 64 bits, the
    lower half first. *)
Variable wide : bool.

Definition int_view (l : list nat) : list nat := if wide then flat_map (fun i => [i; 0]) l else l.
Fixpoint from_pairs (v : list nat) : list Z :=
  match v with a :: b :: v' => (Z.of_nat a + 2 ^ 32 * Z.of_nat b)%Z :: from_pairs v' | _ => [] end.
(** The array of npy_intp with these ints in memory. *)
Definition intp_of (v : list nat) : list Z := if wide then from_pairs v else map Z.of_nat v.

(** _ppssampler.c:259-264: exchange elements from both ends. *)
Definition reverse_part (n : nat) (v : list nat) : list nat := rev (firstn n v) ++ skipn n v.

(** _ppssampler.c:224-290.  Returns the indices, the weights and their sum. *)
Definition prepwts (p : pps) (w : list R) : res (pps * (list Z * list R * R)) :=
  let n := length w in
  match n with
  | O => Err BadMemory
  | S _ =>
      let v := reverse_part n (int_view (argsort w)) in
      let idata := firstn n v in
      let sorted := map (fun i => nth i w 0%R) idata in
      let cum := cumsum sorted in
      Ok (Pps (p_tab p) (Some (Sampford n cum idata 0 None)) (p_ratio p), (intp_of v, sorted, last cum 0%R))
  end.

(** _ppssampler.c:334 *)
Definition ratio (nsamp : nat) (tot w : R) : xr :=
  if Reqb tot 0 then NaN else xdiv (w / tot) (1 - INR nsamp * (w / tot)).
(** _ppssampler.c:300-353 and sampford.c:47-67 *)
Definition prepratios (p : pps) (nsamp : nat) (w : list R) (tot : R) : res (pps * list xr) :=
  if Nat.leb (length w) nsamp then Err ValueError
  else
    let ratios := map (ratio nsamp tot) w in
    let cum := xcumsum ratios in
    match p_sf p with
    | None => Err BadMemory
    | Some f =>
        if Nat.ltb (length w) (f_npopn f) then Err BadMemory
        else if Nat.eqb nsamp 0 && match f_ratios f with None => true | _ => false end then Err BadMemory
        else
          let f' := Sampford (f_npopn f) (f_cumwts f) (f_indices f) nsamp
                      (Some (firstn (f_npopn f) ratios, firstn (f_npopn f) cum)) in
          Ok (Pps (p_tab p) (Some f') (p_ratio p), cum)
    end.

(** sampford.c:103-105, 114-116: the first element not below val. *)
Fixpoint find_le {A} (le : A -> bool) (l : list A) (i : nat) : nat :=
  match l with [] => i | a :: l' => if le a then i else find_le le l' (S i) end.
(** sampford.c:102-106 *)
Definition first_pick (cumwts : list R) (u : R) : nat :=
  let val := (last cumwts 0 * u)%R in find_le (fun c => Rleb val c) cumwts 0.
(** sampford.c:111-116 *)
Definition ratio_pick (cumratios : list xr) (u : R) : nat :=
  let val := xscale (last cumratios NaN) u in find_le (xle val) cumratios 0.

(** The loops of sampford.c take their random numbers from two sources, in the
    code rk_double (line 102) and rand()/(RAND_MAX+1.) (line 113). *)
Section Sources.
Variable G : Type.
Variables source1 source2 : G -> G * res R.

(** sampford.c:112-127; None is a duplicate. *)
Fixpoint more_picks (cumratios : list xr) (k : nat) (sample : list nat) : G -> G * res (option (list nat)) :=
  match k with
  | O => ret (Some sample)
  | S k' =>
      u <- source2;;
      let i := ratio_pick cumratios u in
      if existsb (Nat.eqb i) sample then ret None else more_picks cumratios k' (sample ++ [i])
  end.
(** sampford.c:97-130 *)
Fixpoint sampford_loop (cumwts : list R) (cumratios : list xr) (nsamp fuel ntry : nat) : G -> G * res (nat * list nat) :=
  match fuel with
  | O => raise OutOfFuel
  | S fuel =>
      u <- source1;;
      o <- more_picks cumratios (nsamp - 1) [first_pick cumwts u];;
      match o with
      | Some sample => ret (S ntry, sample)
      | None => sampford_loop cumwts cumratios nsamp fuel (S ntry)
      end
  end.
(** _ppssampler.c:363-390 with sampford.c:86-133; with nsamp = 0 the sample
    has no room for its first element. *)
Definition samplenr_from (fuel : nat) (p : pps) : G -> G * res (nat * list nat) :=
  match p_sf p with
  | Some f =>
      match f_ratios f, f_nsamp f with
      | Some (_, cumratios), S _ => sampford_loop (f_cumwts f) cumratios (f_nsamp f) fuel 0
      | _, _ => raise BadMemory
      end
  | None => raise BadMemory
  end.
End Sources.

(** The C library's rand() and RAND_MAX + 1; [C] is its hidden state. *)
Variable C : Type.
Variable rand : C -> C * Z.
Variable rand_end : Z.

(** (1.*rand())/(RAND_MAX+1.), sampford.c:113 *)
Definition crand : rk * C -> (rk * C) * res R := fun s =>
  let (c, r) := rand (snd s) in ((fst s, c), Ok (IZR r / IZR rand_end)%R).
Definition on_rk {A} (m : rk -> rk * res A) : rk * C -> (rk * C) * res A := fun s =>
  let (k, r) := m (fst s) in ((k, snd s), r).
Definition samplenr : nat -> pps -> rk * C -> (rk * C) * res (nat * list nat) :=
  samplenr_from (rk * C) (on_rk rk_double) crand.

(** _ppssampler.c:401-423.  Ratios that are not finite would make the
    conversion to integers undefined. *)
Fixpoint finite (l : list xr) : option (list R) :=
  match l with
  | [] => Some []
  | Num r :: l' => match finite l' with Some l'' => Some (r :: l'') | None => None end
  | _ => None
  end.
Definition prepratiotables (p : pps) : res pps :=
  match p_sf p with
  | Some f =>
      match f_ratios f with
      | Some (ratios, _) =>
          match finite ratios with
          | Some r =>
              match init_sampler5tbl r with
              | Some s => Ok (Pps (p_tab p) (Some f) (Some s))
              | None => Err RuntimeError
              end
          | None => Err BadMemory
          end
      | None => Err BadMemory
      end
  | None => Err BadMemory
  end.

(** sampford.c:163-176 *)
Fixpoint more_table_picks (f : sampford) (rs : sampler) (fuel : nat) (k : nat) (sample : list nat) : rk -> rk * res (option (list nat)) :=
  match k with
  | O => ret (Some sample)
  | S k' =>
      j <- Dran fuel rs;;
      match nth_error (f_indices f) j with
      | None => raise BadMemory
      | Some i => if existsb (Nat.eqb i) sample then ret None else more_table_picks f rs fuel k' (sample ++ [i])
      end
  end.
(** sampford.c:154-181; every inner loop has [fuel] steps too. *)
Fixpoint tables_loop (f : sampford) (ws rs : sampler) (fuel0 fuel ntry : nat) : rk -> rk * res (nat * list nat) :=
  match fuel with
  | O => raise OutOfFuel
  | S fuel =>
      i <- Dran fuel0 ws;;
      o <- more_table_picks f rs fuel0 (f_nsamp f - 1) [i];;
      match o with
      | Some sample => ret (S ntry, sample)
      | None => tables_loop f ws rs fuel0 fuel (S ntry)
      end
  end.
(** _ppssampler.c:434-464 with sampford.c:140-182 *)
Definition samplenr5 (fuel : nat) (p : pps) : rk -> rk * res (nat * list nat) :=
  match p_sf p, p_ratio p with
  | Some f, Some rs =>
      match f_nsamp f with
      | O => raise BadMemory
      | S _ => tables_loop f (p_tab p) rs fuel fuel 0
      end
  | _, _ => raise BadMemory
  end.

(** ** Equal probabilities, _ppssampler.c *)

(** _ppssampler.c:712 and 777 *)
Definition pick_of (npopn : nat) (r : Z) : nat := Z.to_nat (Z.of_nat npopn * r / rand_end).
(** _ppssampler.c:711-717 and 776-782; also returns the workspace. *)
Fixpoint pick_loop (k : nat) (npopn : nat) (pool : list Z) (sample : list Z) : C -> C * (list Z * list Z) := fun c =>
  match k with
  | O => (c, (sample, pool))
  | S k' =>
      let (c, r) := rand c in
      let pick := pick_of npopn r in
      pick_loop k' (npopn - 1) (upd pick (nth (npopn - 1) pool 0%Z) pool) (sample ++ [nth pick pool 0%Z]) c
  end.
(** _ppssampler.c:737-792; also returns the caller's array, of which the
    workspace is a copy. *)
Definition equalprob (nsamp : Z) (pool : list Z) : C -> C * res (list Z * list Z) := fun c =>
  if Z.leb nsamp 0 then (c, Err ValueError)
  else if Z.ltb (Z.of_nat (length pool)) nsamp then (c, Err ValueError)
  else let (c, r) := pick_loop (Z.to_nat nsamp) (length pool) pool [] c in (c, Ok (fst r, pool)).
(** _ppssampler.c:667-727, on an array of ints that is used in place: also
    returns what it holds afterwards. *)
Definition equalprobi (nsamp npopn : Z) (pool : list Z) : C -> C * res (list Z * list Z) := fun c =>
  if Z.leb nsamp 0 then (c, Err ValueError)
  else if Z.ltb npopn nsamp then (c, Err ValueError)
  else if Z.ltb (Z.of_nat (length pool)) npopn then (c, Err ValueError)
  else
    let n := Z.to_nat npopn in
    let pool := map Z.of_nat (seq 0 n) ++ skipn n pool in
    let (c, r) := pick_loop (Z.to_nat nsamp) n pool [] c in (c, Ok r).

(** ** population.py *)

(** The state of numpy.random: the generator and, in [np_extra], the two
    entries about normal deviates. *)
Record np_state := NpState { np_rk : rk; np_extra : Z * R }.
(** The state outside the objects: that of numpy.random, the static rng_state
    of _ppssampler.c and that of the C library. *)
Record world := World { w_np : np_state; w_loc : rk; w_c : C }.
Inductive pyarg := AStr (s : string) | AKey (k : list Z) | AInt (z : Z) | AFloat (r : R).

(** random.get_state() *)
Definition get_state (s : np_state) : list pyarg :=
  [AStr "MT19937"; AKey (rk_key (np_rk s)); AInt (rk_pos (np_rk s)); AInt (fst (np_extra s)); AFloat (snd (np_extra s))].
(** _ppssampler.c:542-578 *)
Definition set_rng_state (args : list pyarg) : world -> world * res unit :=
  match args with
  | [AStr id; AKey key; AInt pos] => fun s =>
      if negb (String.eqb id "MT19937") then (s, Err ValueError)
      else if negb (Nat.eqb (length key) 624) then (s, Err ValueError)
      else (World (w_np s) (Rk key pos) (w_c s), Ok tt)
  | _ => raise TypeError
  end.
Definition on_loc {A} (m : rk -> rk * res A) : world -> world * res A := fun s =>
  let (k, r) := m (w_loc s) in (World (w_np s) k (w_c s), r).

Section Populations.
Context {A : Type}.
Record popn := Popn { o_equi : bool; o_items : list A; o_weights : list R; o_npopn : nat; o_sampler : option pps }.

(** population.py:22-46; items given as a number, line 28, are not modelled. *)
Definition new_popn (items : option (list A)) (weights : option (list R)) (index : nat -> A) : res popn :=
  match weights, items with
  | None, Some it => Ok (Popn true it [] (length it) None)
  | None, None => Err TypeError
  | Some w, None => Ok (Popn false (map index (seq 0 (length w))) w (length w) None)
  | Some w, Some it =>
      if negb (Nat.eqb (length it) (length w)) then Err ValueError else Ok (Popn false it w (length w) None)
  end.

Fixpoint items_at (items : list A) (l : list nat) : res (list A) :=
  match l with
  | [] => Ok []
  | i :: l' =>
      match nth_error items i, items_at items l' with
      | Some a, Ok r => Ok (a :: r)
      | None, _ => Err IndexError
      | _, Err e => Err e
      end
  end.

(** population.py:48-69 *)
Definition popn_sample (fuel : nat) (nsamp : Z) : popn * world -> (popn * world) * res (list A) := fun s =>
  let (o, w) := s in
  if o_equi o then (s, Err NotImplementedError)
  else
    match (match o_sampler o with Some p => Ok p | None => new_pps (o_weights o) end) with
    | Err e => (s, Err e)
    | Ok p =>
        let o := Popn (o_equi o) (o_items o) (o_weights o) (o_npopn o) (Some p) in
        let st := get_state (w_np w) in
        match set_rng_state (firstn 3 st) w with
        | (w, Err e) => ((o, w), Err e)
        | (w, Ok _) =>
            match on_loc (pps_sample fuel p nsamp) w with
            | (w, Err e) => ((o, w), Err e)
            | (w, Ok idx) =>
                let w := World (NpState (w_loc w) (np_extra (w_np w))) (w_loc w) (w_c w) in
                ((o, w), items_at (o_items o) idx)
            end
        end
    end.

(** population.py:87-96: what comes after is not reached, since
    set_rng_state is given five arguments.  The same holds of subset_pps5,
    lines 131-143. *)
Definition subset_pps (nsamp : nat) : popn * world -> (popn * world) * res (list A) := fun s =>
  let (o, w) := s in
  if Nat.eqb nsamp (o_npopn o) then (s, Ok (o_items o))
  else
    match set_rng_state (get_state (w_np w)) w with
    | (w, Err e) => ((o, w), Err e)
    | (w, Ok _) => ((o, w), Err NotImplementedError)
    end.
(** population.py:85 *)
Definition max_subset (o : popn) : Z := to_int (rsum (o_weights o) / fold_left Rmax (o_weights o) 0)%R.
End Populations.
End Sampling.

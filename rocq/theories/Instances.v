(** Two arithmetics for the generic parameter model. *)

From Coq Require Import ZArith List Bool Reals.
From Verif Require Import PieModel.

(** Integers, which floats represent exactly; used in examples. The
    exponential and logarithm are placeholders never used by them. *)
Definition numZ : num :=
  Num Z Z.leb Z.ltb Z.eqb Z.add Z.sub Z.mul Z.div (fun x => x) (fun x => x)
      (fun _ => false) (fun z => z).

(** Real numbers: the arithmetic without rounding or overflow. *)
Definition Rleb (a b : R) : bool := if Rle_dec a b then true else false.
Definition Rltb (a b : R) : bool := if Rlt_dec a b then true else false.
Definition Reqb (a b : R) : bool := if Req_EM_T a b then true else false.
Definition numR : num :=
  Num R Rleb Rltb Reqb Rplus Rminus Rmult Rdiv exp ln (fun _ => false) IZR.

Lemma Rleb_spec : forall a b, Rleb a b = true <-> (a <= b)%R.
Proof. intros a b. unfold Rleb. destruct (Rle_dec a b); split; auto; discriminate. Qed.
Lemma Rltb_spec : forall a b, Rltb a b = true <-> (a < b)%R.
Proof. intros a b. unfold Rltb. destruct (Rlt_dec a b); split; auto; discriminate. Qed.
Lemma Rleb_false : forall a b, Rleb a b = false <-> ~ (a <= b)%R.
Proof. intros a b. unfold Rleb. destruct (Rle_dec a b); split; auto; try discriminate. intros H; now elim H. Qed.
Lemma Rltb_false : forall a b, Rltb a b = false <-> ~ (a < b)%R.
Proof. intros a b. unfold Rltb. destruct (Rlt_dec a b); split; auto; try discriminate. intros H; now elim H. Qed.
Lemma Reqb_spec : forall a b, Reqb a b = true <-> a = b.
Proof. intros a b. unfold Reqb. destruct (Req_EM_T a b); split; auto; discriminate. Qed.
Lemma Reqb_false : forall a b, Reqb a b = false <-> a <> b.
Proof. intros a b. unfold Reqb. destruct (Req_EM_T a b); split; auto; try discriminate. intros H; now elim H. Qed.

(** flatten. *)

From Coq Require Import ZArith List Bool Arith Reals Lra Lia.
From Verif Require Import Exn Instances MomModel MomSpec.
Import ListNotations.
Local Open Scope R_scope.

(** What one item gives. *)
Definition piece (depth : nat) (i : item) : list item :=
  match item0 i with
  | Err _ => [i]
  | Ok x =>
      match flatten depth [x] with
      | Err _ => [i]
      | Ok r =>
          match truth (item1 i) with
          | Err _ => r ++ [i]
          | Ok false => r
          | Ok true => match flatten depth [item1 i] with Err _ => r ++ [i] | Ok r' => r ++ r' end
          end
      end
  end.
Lemma flatten_S : forall d args, flatten (S d) args = Ok (flat_map (piece d) args).
Proof. reflexivity. Qed.
Lemma flatten_1 : forall d i, flatten (S d) [i] = Ok (piece d i).
Proof. intros. rewrite flatten_S. cbn [flat_map]. now rewrite app_nil_r. Qed.
Lemma flatten_0 : forall args, flatten 0 args = Err RecursionError.
Proof. reflexivity. Qed.

Lemma calls_cons : forall x l, calls (Seq (x :: l)) = S (Nat.max (calls x) (calls (Seq l))).
Proof. reflexivity. Qed.
Lemma calls_pos : forall i, nested i -> (1 <= calls i)%nat.
Proof. intros i [x|l N _]; [cbn; lia|]. destruct l as [|x l]; [congruence|]. rewrite calls_cons. lia. Qed.

Lemma piece_nested : forall d i, nested i -> (calls i <= S d)%nat -> piece d i = leaves i.
Proof.
  induction d as [|d IH]; intros i Ni C; destruct Ni as [x|l N F]; try reflexivity; destruct l as [|x l]; try congruence; inversion F as [|? ? F1 F2]; subst.
  - rewrite calls_cons in C. pose proof (calls_pos x F1). lia.
  - rewrite calls_cons in C. unfold piece. cbn [item0]. rewrite flatten_1, IH by (auto; lia). cbn [item1 truth tl]. destruct l as [|y l].
    + cbn. now rewrite app_nil_r.
    + cbn [length Nat.eqb negb]. rewrite flatten_1, IH; [reflexivity|constructor; [discriminate|assumption]|lia].
Qed.
Lemma flatten_nested : forall depth args, Forall nested args -> (forall a, In a args -> (calls a <= depth)%nat) -> (1 <= depth)%nat ->
  flatten depth args = Ok (flat_map leaves args).
Proof.
  intros [|d] args F C D; [lia|]. rewrite flatten_S. f_equal. induction args as [|a args IH]; [reflexivity|]. inversion F as [|? ? F1 F2]; subst. cbn [flat_map].
  rewrite piece_nested, IH by (auto; try apply C; cbn; auto; intros; apply C; cbn; auto). reflexivity.
Qed.

Lemma num_piece : forall d x, piece d (Num x) = [Num x].
Proof. reflexivity. Qed.
Lemma flatten_long : forall depth xs, (1 <= depth <= length xs)%nat ->
  flatten depth [Seq (map Num xs)] = Ok (map Num (firstn (depth - 1) xs) ++ [Seq (map Num (skipn (depth - 1) xs))]).
Proof.
  induction depth as [|d IH]; intros xs H; [lia|]. rewrite flatten_1. f_equal. replace (S d - 1)%nat with d by lia. destruct xs as [|x xs]; [cbn in H; lia|].
  unfold piece. cbn [map item0]. destruct d as [|d]; [rewrite flatten_0; reflexivity|]. rewrite flatten_1, num_piece. cbn [item1 tl truth]. cbn in H.
  destruct xs as [|y xs]; [cbn in H; lia|]. cbn [map length Nat.eqb negb]. change (Num y :: map Num xs) with (map Num (y :: xs)). rewrite IH by lia.
  replace (S d - 1)%nat with d by lia. reflexivity.
Qed.
Lemma long_differs : forall depth xs, (1 <= depth <= length xs)%nat -> flatten depth [Seq (map Num xs)] <> Ok (map Num xs).
Proof.
  intros depth xs H E. rewrite flatten_long in E by assumption. injection E as E. assert (In (Seq (map Num (skipn (depth - 1) xs))) (map Num xs)) as I.
  { rewrite <- E. apply in_or_app. right. now left. }
  apply in_map_iff in I as (x & Ex & _). discriminate.
Qed.

Lemma flatten_array2 : forall depth x y, (3 <= depth)%nat -> flatten depth [Arr [x; y]] = Ok (if Reqb y 0 then [Num x] else [Num x; Num y]).
Proof.
  intros [|[|[|d]]] x y H; try lia. rewrite flatten_1. f_equal. unfold piece. cbn [item0]. rewrite flatten_1, num_piece. cbn [item1 tl truth]. destruct (Reqb y 0); [reflexivity|]. cbn [negb].
  rewrite flatten_1. unfold piece. cbn [item0]. rewrite flatten_1, num_piece. reflexivity.
Qed.
Lemma flatten_array : forall depth x y z xs, (2 <= depth)%nat -> flatten depth [Arr (x :: y :: z :: xs)] = Ok [Num x; Arr (x :: y :: z :: xs)].
Proof. intros [|[|d]] x y z xs H; try lia. rewrite flatten_1. reflexivity. Qed.

Lemma piece_char : forall d c, piece d (Str [c]) = [Str [c]].
Proof. induction d as [|d IH]; intros c; [reflexivity|]. unfold piece. cbn [item0]. rewrite flatten_1, IH. reflexivity. Qed.
Lemma flatten_string : forall depth cs, cs <> [] -> (length cs <= depth)%nat -> flatten depth [Str cs] = Ok (map (fun c => Str [c]) cs).
Proof.
  induction depth as [|d IH]; intros cs N H; [destruct cs; [congruence|cbn in H; lia]|]. rewrite flatten_1. f_equal. destruct cs as [|c cs]; [congruence|]. cbn in H.
  destruct cs as [|b cs]; [apply piece_char|]. unfold piece. cbn [item0]. cbn in H. destruct d as [|d]; [lia|]. rewrite flatten_1, piece_char. cbn [item1 tl truth length Nat.eqb negb].
  rewrite IH; [reflexivity|discriminate|cbn; lia].
Qed.

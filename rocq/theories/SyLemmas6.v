(** FLSM: its value and the number of evaluations; products of functions *)

From Coq Require Import List Bool Arith ZArith Reals Permutation Sorted Lra Lia.
From Verif Require Import Exn Instances CountSpec McModel McLemmas5 BaModel BaLemmas ObsModel AdModel AdLemmas AdLemmas2 SyModel SyLemmas SyLemmas2 SyLemmas3 SyLemmas4 SyLemmas5.
Import ListNotations.
Open Scope R_scope.

Fixpoint vecs_lt (n b : nat) : list (list nat) :=
  match n with O => [[]] | S n' => flat_map (fun j => map (cons j) (vecs_lt n' b)) (seq 0 b) end.
Lemma vecs_lt_len : forall n b, length (vecs_lt n b) = (b ^ n)%nat.
Proof.
  induction n as [|n IH]; intros b; [reflexivity|]. cbn [vecs_lt Nat.pow]. rewrite <- IH. generalize (vecs_lt n b) 0%nat. clear. intros V. induction b as [|b IHb]; intros k; [reflexivity|].
  cbn [seq flat_map]. rewrite app_length, map_length, IHb. lia.
Qed.
Lemma vecs_lt_in : forall n b p, length p = n -> (forall j, In j p -> (j < b)%nat) -> In p (vecs_lt n b).
Proof.
  induction n as [|n IH]; intros b [|j p] L H; try discriminate; [now left|]. cbn [vecs_lt]. apply in_flat_map. exists j. split; [apply in_seq; specialize (H j (or_introl eq_refl)); lia|].
  apply in_map. apply IH; [now injection L|]. intros i Hi. apply H. now right.
Qed.

Fixpoint half (m : list nat) : R := match m with [] => 1 | j :: m' => (if Nat.eqb j 0 then 1 else / 2) * half m' end.
Fixpoint prodl (h : list R) : R := match h with [] => 1 | a :: h' => a * prodl h' end.
Lemma half_perm : forall p q, Permutation p q -> half p = half q.
Proof. intros p q H. induction H as [|j p q H IH|i j p|p q r H IH H' IH']; cbn [half]; [reflexivity|now rewrite IH|ring|congruence]. Qed.
Lemma pow2_perm : forall p q, Permutation p q -> pow2 (mask p) = pow2 (mask q).
Proof. intros p q H. induction H as [|j p q H IH|i j p|p q r H IH H' IH']; cbn [mask map pow2]; [reflexivity|unfold mask in IH; now rewrite IH|lia|congruence]. Qed.
Lemma half_app : forall p q, half (p ++ q) = half p * half q.
Proof. induction p as [|j p IH]; intros q; cbn [app half]; [ring|]. rewrite IH. ring. Qed.
Lemma prodl_app : forall p q, prodl (p ++ q) = prodl p * prodl q.
Proof. induction p as [|j p IH]; intros q; cbn [app prodl]; [ring|]. rewrite IH. ring. Qed.

Lemma firstn_snoc : forall A (l : list A) i d, (i < length l)%nat -> firstn (S i) l = firstn i l ++ [nth i l d].
Proof. induction l as [|a l IH]; intros [|i] d H; cbn [length] in H; try lia; [reflexivity|]. cbn [firstn nth app]. f_equal. apply IH. lia. Qed.

Section Value.
Variables (f : list R -> res R) (F : list R -> R) (s : nat) (center h : list R).
Hypothesis f_is : forall x, length x = s -> f x = Ok (F x).
Hypothesis c_len : length center = s.
Hypothesis h_len : length h = s.
Hypothesis h_pos : forall a, In a h -> 0 < a.

(** The part of the sum with one permutation *)
Definition full (p : list nat) : R := half p * prodl h * around F center h p.

Lemma sumR_mul : forall A (g : A -> R) c l, c * sumR (map g l) = sumR (map (fun x => c * g x) l).
Proof. intros A g c l. induction l as [|x l IH]; unfold sumR in *; cbn [map fold_right]; [ring|]. rewrite <- IH. ring. Qed.

Lemma flsm_is : forall m maxord ls, length m = s -> (1 <= s)%nat -> desc m -> (maxord <= 12)%nat -> (forall j, In j m -> (j < maxord)%nat) -> all_of ls (fun p => Permutation p m) ->
  flsm f s center h m maxord = Ok (sumR (map full ls), Z.of_nat (length ls * pow2 (mask m)), h).
Proof.
  intros m maxord ls L S1 D M12 HM [ND IN]. unfold flsm.
  destruct (iter_up _ (fun i w => w = half (firstn (i - 1) m) * prodl (firstn (i - 1) h)) s 1 (fun i intwgt =>
    let! mi := rd1 m i in
    let! h0 := rd1 h i in
    let intwgt := if Nat.eqb mi 0 then intwgt else intwgt / 2 in
    Ok (intwgt * h0)) 1) as (w & E & W).
  - cbn. ring.
  - intros i w Hi ->. rewrite (rd1_nth _ m i 0%nat) by lia. rewrite (rd1_nth _ h i 0) by lia. eexists. split; [reflexivity|].
    replace (S i - 1)%nat with (S (i - 1)) by lia. rewrite (firstn_snoc _ m (i - 1) 0%nat) by lia. rewrite (firstn_snoc _ h (i - 1) 0) by lia. rewrite half_app, prodl_app. cbn [half prodl].
    destruct (Nat.eqb (nth (i - 1) m 0%nat) 0); field.
  - cbv zeta in E. rewrite E. replace (1 + s - 1)%nat with s in W by lia. rewrite (firstn_all2 m) in W by lia. rewrite (firstn_all2 h) in W by lia. subst w.
    destruct (perms_all (s - 1) m ltac:(lia) D) as (ls' & T & ND' & IN').
    assert (PL : Permutation ls ls') by (apply NoDup_Permutation; [exact ND|exact ND'|]; intros p; now rewrite IN, IN').
    assert (V : forall r, In r ls' -> vecok s r).
    { intros r Hr. apply IN' in Hr. split; [rewrite (Permutation_length Hr); exact L|]. intros j Hj. apply (Permutation_in _ Hr) in Hj. specialize (HM j Hj). lia. }
    rewrite (perms_loop f F s center h f_is c_len h_len h_pos m ls' _ T (trip_end m D) V).
    + rewrite (sumR_perm (map full ls) (map full ls')) by now apply Permutation_map.
      rewrite Rplus_0_l, sumR_mul. do 3 f_equal.
      * f_equal. apply map_ext_in. intros r Hr. unfold full. rewrite (half_perm r m) by now apply IN'. reflexivity.
      * rewrite Z.add_0_l, (Permutation_length PL). f_equal. clear - IN'. assert (Q : forall r, In r ls' -> pow2 (mask r) = pow2 (mask m)) by (intros r Hr; apply pow2_perm; now apply IN'). clear IN'.
        induction ls' as [|r ls' IH]; [reflexivity|]. cbn [map list_sum fold_right length]. rewrite (Q r (or_introl eq_refl)). unfold list_sum in IH. rewrite IH by (intros; apply Q; now right). lia.
    + rewrite <- vecs_lt_len. apply NoDup_incl_length; [exact ND'|]. intros p Hp. apply IN' in Hp. apply vecs_lt_in; [rewrite (Permutation_length Hp); exact L|].
      intros j Hj. apply HM. apply (Permutation_in _ Hp Hj).
Qed.
End Value.

(** Sums and multiples of functions *)
Lemma full_lin : forall F G a b center h p, full (fun x => a * F x + b * G x) center h p = a * full F center h p + b * full G center h p.
Proof.
  intros F G a b center h p. unfold full, around. generalize (signs (mask p)). intros l.
  enough (E : sumR (map (fun t => a * F (point p center h t) + b * G (point p center h t)) l) = a * sumR (map (fun t => F (point p center h t)) l) + b * sumR (map (fun t => G (point p center h t)) l)) by (rewrite E; ring).
  induction l as [|t l IH]; unfold sumR in *; cbn [map fold_right]; [ring|]. rewrite IH. ring.
Qed.
Lemma full_ext : forall F G center h p, length center = length p -> length h = length p -> (forall x, length x = length p -> F x = G x) -> full F center h p = full G center h p.
Proof.
  intros F G center h p H1 H2 H. unfold full, around. do 2 f_equal. apply map_ext_in. intros t Ht. apply H. apply signs_len in Ht. unfold mask in Ht. rewrite map_length in Ht. apply point_len; lia.
Qed.

(** Products of functions of one coordinate each *)
Fixpoint prodf (fl : list (R -> R)) (x : list R) : R :=
  match fl, x with g :: fl', v :: x' => g v * prodf fl' x' | _, _ => 1 end.
Definition cell (g : R -> R) (c a : R) (j : nat) : R := a * ((g (c + gn j * a) + g (c - gn j * a)) / 2).
Fixpoint cells (fl : list (R -> R)) (center h : list R) : list (nat -> R) :=
  match fl, center, h with g :: fl', c :: center', a :: h' => cell g c a :: cells fl' center' h' | _, _, _ => [] end.
Lemma full_prod : forall fl center h p, length fl = length p -> length center = length p -> length h = length p ->
  full (prodf fl) center h p = prods (cells fl center h) p.
Proof.
  unfold full, around. induction fl as [|g fl IH]; intros [|c center] [|a h] [|j p] L1 L2 L3; try discriminate; cbn [cells prods mask map signs half prodl].
  - unfold sumR. cbn. ring.
  - cbn [length] in *. rewrite <- (IH center h p) by lia. clear IH. fold (mask p).
    enough (E : sumR (map (fun t => prodf (g :: fl) (point (j :: p) (c :: center) (a :: h) t)) (flat_map (fun sg => if negb (Nat.eqb j 0) then [false :: sg; true :: sg] else [false :: sg]) (signs (mask p)))) * (if Nat.eqb j 0 then 1 else / 2) =
      (g (c + gn j * a) + g (c - gn j * a)) / 2 * sumR (map (fun t => prodf fl (point p center h t)) (signs (mask p)))).
    { unfold cell. transitivity (a * half p * prodl h * (sumR (map (fun t => prodf (g :: fl) (point (j :: p) (c :: center) (a :: h) t)) (flat_map (fun sg => if negb (Nat.eqb j 0) then [false :: sg; true :: sg] else [false :: sg]) (signs (mask p)))) * (if Nat.eqb j 0 then 1 else / 2))); [ring|]. rewrite E. ring. }
    generalize (signs (mask p)). intros l. induction l as [|t l IH]; unfold sumR in *; cbn [flat_map map fold_right]; [ring|].
    rewrite map_app, fold_right_app. 
    assert (FA : forall (u : list R) v, fold_right Rplus v u = fold_right Rplus 0 u + v) by (induction u as [|w u IHu]; intros v; cbn [fold_right]; [ring|]; rewrite IHu; ring).
    rewrite FA, Rmult_plus_distr_r, IH, Rmult_plus_distr_l. f_equal.
    destruct (Nat.eqb_spec j 0) as [->|NJ]; cbn [negb map fold_right point prodf].
    + rewrite gn_0. replace (c + 0 * a) with c by ring. replace (c - 0 * a) with c by ring. field.
    + replace (c + gn j * - a) with (c - gn j * a) by ring. field.
Qed.

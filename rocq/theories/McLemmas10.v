(** Lemmas for the inclusion probabilities: means over uniform numbers. *)

From Coq Require Import ZArith List Bool Arith Reals Lia Lra Permutation.
From Coquelicot Require Import Coquelicot.
From Verif Require Import Exn Instances CountSpec CountLemmas McModel McSpec McLemmas5 McLemmas9.
Import ListNotations.
Open Scope R_scope.

Lemma mean_ext : forall k f g, (forall us, f us = g us) -> mean k f = mean k g.
Proof.
  induction k as [|k IH]; intros f g H; cbn [mean]; [apply H|]. apply RInt_ext. intros u _. apply IH. intros us. apply H.
Qed.
Lemma mean_const : forall k c, mean k (fun _ => c) = c.
Proof.
  induction k as [|k IH]; intros c; cbn [mean]; [reflexivity|]. rewrite (RInt_ext (V := R_CompleteNormedModule) _ (fun _ => c)) by (intros u _; apply IH).
  rewrite RInt_const. cbv [scal mult]. simpl. unfold mult. simpl. ring.
Qed.
Lemma so_last : forall k f, sum_over 0 (S k) f = sum_over 0 k f + f k.
Proof. intros k f. apply (so_end 0 k f). Qed.
Lemma sumR_so : forall l, sumR l = sum_over 0 (length l) (fun i => nth i l 0).
Proof.
  intros l. assert (G : forall k, (k <= length l)%nat -> sumR (firstn k l) = sum_over 0 k (fun i => nth i l 0)).
  { induction k as [|k IH]; intros K; [rewrite so_0; reflexivity|]. rewrite so_last, firstn_S, IH by lia. reflexivity. }
  specialize (G (length l) (le_n _)). now rewrite firstn_all in G.
Qed.

Section Step.
Variable l : list R.
Hypothesis F0 : List.Forall (fun x => 0 <= x) l.
Hypothesis S0 : 0 < sumR l.
Lemma nonempty : l <> [].
Proof. intros ->. cbn in S0. lra. Qed.
Lemma pick_at : forall i u, (i < length l)%nat -> sumR (firstn i l) / sumR l < u < sumR (firstn (S i) l) / sumR l -> pick l u = i.
Proof.
  intros i u I [A B]. apply Rmult_lt_compat_l with (r := sumR l) in A, B; [|exact S0|exact S0].
  replace (sumR l * (sumR (firstn i l) / sumR l)) with (sumR (firstn i l)) in A by (field; lra).
  replace (sumR l * (sumR (firstn (S i) l) / sumR l)) with (sumR (firstn (S i) l)) in B by (field; lra).
  assert (U : 0 <= u <= 1).
  { pose proof (firstn_mono l 0 i F0 ltac:(lia)) as A0. change (sumR (firstn 0 l)) with 0 in A0. pose proof (firstn_mono l (S i) (length l) F0 ltac:(lia)) as B0. rewrite firstn_all in B0.
    split; [apply Rmult_le_reg_l with (sumR l); lra|]. apply Rmult_le_reg_l with (sumR l); lra. }
  destruct (pick_spec l u nonempty F0 U) as [P [Q R0]]. cbv zeta in *.
  destruct (lt_eq_lt_dec (pick l u) i) as [[L|L]|L]; [|exact L|].
  - pose proof (firstn_mono l (S (pick l u)) i F0 ltac:(lia)). lra.
  - pose proof (firstn_mono l (S i) (pick l u) F0 ltac:(lia)). destruct R0; [lra|lia].
Qed.
Lemma step_part : forall (F : nat -> R) k, (k <= length l)%nat ->
  is_RInt (fun u => F (pick l u)) 0 (sumR (firstn k l) / sumR l) (sum_over 0 k (fun i => nth i l 0 / sumR l * F i)).
Proof.
  intros F. induction k as [|k IH]; intros K.
  - cbn [firstn]. change (sumR []) with 0. unfold Rdiv. rewrite Rmult_0_l, so_0. apply (is_RInt_point (V := R_NormedModule)).
  - rewrite so_last. apply (is_RInt_Chasles (V := R_NormedModule) _ _ (sumR (firstn k l) / sumR l)); [apply IH; lia|].
    assert (LE : sumR (firstn k l) / sumR l <= sumR (firstn (S k) l) / sumR l).
    { unfold Rdiv. apply Rmult_le_compat_r; [apply Rlt_le, Rinv_0_lt_compat; lra|]. now apply firstn_mono; [|lia]. }
    apply is_RInt_ext with (fun _ => F k).
    + intros u U. rewrite Rmin_left, Rmax_right in U by exact LE. now rewrite (pick_at k u) by (lia || exact U).
    + replace (nth k l 0 / sumR l * F k) with (scal (sumR (firstn (S k) l) / sumR l - sumR (firstn k l) / sumR l) (F k)); [apply (is_RInt_const (V := R_NormedModule))|].
      rewrite firstn_S by lia. cbv [scal]. simpl. unfold mult. simpl. field. lra.
Qed.
Lemma mean_step : forall k f (G : nat -> list R -> R), (forall u us, 0 < u < 1 -> f (u :: us) = G (pick l u) us) ->
  mean (S k) f = sum_over 0 (length l) (fun i => nth i l 0 / sumR l * mean k (G i)).
Proof.
  intros k f G H. cbn [mean]. apply is_RInt_unique. apply is_RInt_ext with (fun u => mean k (G (pick l u))).
  - intros u U. rewrite Rmin_left, Rmax_right in U by lra. apply mean_ext. intros us. symmetry. now apply H.
  - pose proof (step_part (fun i => mean k (G i)) (length l) (le_n _)) as P. rewrite firstn_all in P. unfold Rdiv in P at 1. rewrite Rinv_r in P by lra. exact P.
Qed.
End Step.

(** ** The tries *)

Section Values.
Variable N : nat.
Variables p l : nat -> R.
Variable c : R.
Variable n : nat.
Variable pay : list nat -> R.
(** The value of the later picks, given that of another try. *)
Fixpoint later (v : R) (k : nat) (s : list nat) : R :=
  match k with O => pay s | S k' => sum_over 0 N (fun j => c * l j * (if mem j s then v else later v k' (s ++ [j]))) end.
Fixpoint value (t : nat) : R :=
  match t with O => 0 | S t' => sum_over 0 N (fun i => p i * later (value t') (n - 1) [i]) end.
Hypothesis cl : c * sum_over 0 N l = 1.
Hypothesis p1 : sum_over 0 N p = 1.
(** Samples of different positions below N. *)
Definition fine (s : list nat) : Prop := List.Forall (fun i => (i < N)%nat) s.
Variable Q : nat -> list nat -> R.
Hypothesis Q_O : forall s, fine s -> Q 0 s = pay s.
Hypothesis Q_S : forall m s, fine s -> Q (S m) s = rest N s (fun j => l j * Q m (j :: s)).
Hypothesis Q_set : forall m s s', (forall j, In j s <-> In j s') -> Q m s = Q m s'.
Lemma fine_snoc : forall s j, fine s -> (j < N)%nat -> fine (s ++ [j]).
Proof. intros s j F J. apply Forall_app. split; [exact F|]. constructor; [exact J|constructor]. Qed.
Lemma later_is : forall v k s, fine s -> later v k s = c ^ k * Q k s + (1 - c ^ k * E N l k s) * v.
Proof.
  intros v. induction k as [|k IH]; intros s F; cbn [later].
  - rewrite Q_O by exact F. cbn [pow E]. ring.
  - rewrite Q_S by exact F. cbn [E pow].
    replace (sum_over 0 N (fun j => c * l j * (if mem j s then v else later v k (s ++ [j])))) with
      (v * (c * sum_over 0 N l) + (c ^ S k * rest N s (fun j => l j * Q k (j :: s)) + (- v * c ^ S k) * rest N s (fun j => l j * E N l k (j :: s)))).
    + rewrite cl. cbn [pow]. ring.
    + unfold rest. rewrite <- !so_scal, <- !so_plus. apply so_ext. intros j J. destruct (mem j s); [cbn [pow]; ring|].
      rewrite IH by (apply fine_snoc; [exact F|lia]).
      rewrite (Q_set k (s ++ [j]) (j :: s)) by (intros i; rewrite in_app_iff; cbn [In]; tauto).
      rewrite (E_set N l k (s ++ [j]) (j :: s)) by (intros i; rewrite in_app_iff; cbn [In]; tauto). cbn [pow]. ring.
Qed.
Definition total : R := c ^ (n - 1) * sum_over 0 N (fun i => p i * Q (n - 1) [i]).
Definition stop : R := c ^ (n - 1) * whole N l p n.
Lemma value_step : forall t, value (S t) = total + (1 - stop) * value t.
Proof.
  intros t. cbn [value]. unfold total, stop, whole.
  replace (sum_over 0 N (fun i => p i * later (value t) (n - 1) [i])) with
    (c ^ (n - 1) * sum_over 0 N (fun i => p i * Q (n - 1) [i]) + (value t * sum_over 0 N p + (- (value t * c ^ (n - 1))) * sum_over 0 N (fun i => p i * E N l (n - 1) [i]))).
  - rewrite p1. ring.
  - rewrite <- !so_scal, <- !so_plus. apply so_ext. intros i I. rewrite later_is by (constructor; [lia|constructor]). ring.
Qed.
Lemma value_is : forall t, stop * value t = total * (1 - (1 - stop) ^ t).
Proof.
  induction t as [|t IH]; [cbn [value pow]; ring|]. rewrite value_step. cbn [pow]. rewrite Rmult_plus_distr_l.
  replace (stop * ((1 - stop) * value t)) with ((1 - stop) * (stop * value t)) by ring. rewrite IH. ring.
Qed.
End Values.

Section Tries.
Variables sw lams : list R.
Variable n : nat.
Hypothesis n1 : (1 <= n)%nat.
Hypothesis len : length lams = length sw.
Hypothesis sw0 : List.Forall (fun x => 0 <= x) sw.
Hypothesis sws : 0 < sumR sw.
Hypothesis lams0 : List.Forall (fun x => 0 <= x) lams.
Hypothesis lamss : 0 < sumR lams.
Variable h : res (nat * list nat) -> R.
Variable pay : list nat -> R.
Hypothesis h_ok : forall t s, h (Ok (t, s)) = pay s.
Hypothesis h_err : forall e, h (Err e) = 0.
Let N := length sw.
Let pr := fun i => nth i sw 0 / sumR sw.
Let lr := fun i => nth i lams 0.
Let c := / sumR lams.
Let loop := sampford_loop (list R) tape tape (cumsum sw) (map Num (cumsum lams)) n.
Let v := value N pr lr c n pay.
Let rest_of (t ntry k : nat) (s : list nat) : list R -> list R * res (nat * list nat) :=
  (o <- more_picks (list R) tape (map Num (cumsum lams)) k s;;
   match o with Some sample => ret (S ntry, sample) | None => loop t (S ntry) end)%exn.
Lemma rest_of_S : forall t ntry k s u us, rest_of t ntry (S k) s (u :: us) = if mem (pick lams u) s then loop t (S ntry) us else rest_of t ntry k (s ++ [pick lams u]) us.
Proof.
  intros t ntry k s u us. unfold rest_of. cbn [more_picks]. unfold bind at 1 2, tape at 1. rewrite ratio_pick_is by (apply nonempty; assumption).
  unfold mem. destruct (existsb (Nat.eqb (pick lams u)) s); reflexivity.
Qed.
Lemma later_mean : forall t k ntry s, (forall ntry j, (t * n <= j)%nat -> mean j (fun us => h (snd (loop t ntry us))) = v t) ->
  forall j, (t * n + k <= j)%nat -> mean j (fun us => h (snd (rest_of t ntry k s us))) = later N lr c pay (v t) k s.
Proof.
  intros t k ntry s V. revert s. induction k as [|k IH]; intros s j J.
  - rewrite (mean_ext j _ (fun _ => pay s)) by (intros us; unfold rest_of; cbn [more_picks]; unfold bind, ret; cbn [snd]; apply h_ok). apply mean_const.
  - destruct j as [|j]; [lia|]. rewrite (mean_step lams lams0 lamss j _ (fun i us => if mem i s then h (snd (loop t (S ntry) us)) else h (snd (rest_of t ntry k (s ++ [i]) us)))).
    + cbn [later]. rewrite len. apply so_ext. intros i I. unfold c, lr, Rdiv. rewrite (Rmult_comm (nth i lams 0)). f_equal.
      destruct (mem i s); [apply V; lia|apply IH; lia].
    + intros u us _. rewrite rest_of_S. destruct (mem (pick lams u) s); reflexivity.
Qed.
Theorem loop_mean : forall t ntry j, (t * n <= j)%nat -> mean j (fun us => h (snd (loop t ntry us))) = v t.
Proof.
  induction t as [|t IH]; intros ntry j J.
  - rewrite (mean_ext j _ (fun _ => 0)) by (intros us; apply h_err). apply mean_const.
  - destruct j as [|j]; [lia|]. rewrite (mean_step sw sw0 sws j _ (fun i us => h (snd (rest_of t ntry (n - 1) [i] us)))).
    + unfold v. cbn [value]. apply so_ext. intros i I. unfold pr. f_equal. apply later_mean; [exact IH|lia].
    + intros u us _. reflexivity.
Qed.
End Tries.

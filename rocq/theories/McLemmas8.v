(** Lemmas on the class Population. *)

From Coq Require Import ZArith String List Bool Arith Reals Lia Lra.
From Verif Require Import Exn Instances CountSpec McModel McSpec McLemmas McLemmas2 McLemmas3 McLemmas4.
Import ListNotations.

Section Popn.
Context {A C C' : Type}.

Theorem sample_same : forall fuel nsamp (o : @popn A) (w : world C) (w' : world C') o1 w1 r o1' w1' r',
  w_np C w = w_np C' w' -> popn_sample C fuel nsamp (o, w) = ((o1, w1), r) -> popn_sample C' fuel nsamp (o, w') = ((o1', w1'), r') ->
  o1 = o1' /\ r = r' /\ w_np C w1 = w_np C' w1'.
Proof.
  intros fuel nsamp o w w' o1 w1 r o1' w1' r' E H H'. unfold popn_sample in *. destruct (o_equi o).
  { injection H as <- <- <-. injection H' as <- <- <-. auto. }
  destruct (match o_sampler o with Some p => Ok p | None => new_pps (o_weights o) end) as [p|e]; [|injection H as <- <- <-; injection H' as <- <- <-; auto].
  rewrite <- E in H'. unfold get_state in *. cbn [firstn] in *. unfold set_rng_state in *.
  change (negb (String.eqb "MT19937" "MT19937")) with false in *. cbv iota in *.
  destruct (negb (Nat.eqb (length (rk_key (np_rk (w_np C w)))) 624)); [injection H as <- <- <-; injection H' as <- <- <-; auto|].
  unfold on_loc in *. cbn [w_np w_loc w_c] in *. destruct (pps_sample fuel p nsamp _) as [k [idx|e]].
  - cbn [w_np w_loc w_c] in *. injection H as <- <- <-. injection H' as <- <- <-. cbn [w_np]. rewrite E. auto.
  - injection H as <- <- <-. injection H' as <- <- <-. auto.
Qed.
Lemma items_found : forall (items : list A) idx, List.Forall (fun i => i < length items)%nat idx ->
  exists out, items_at items idx = Ok out /\ length out = length idx /\ List.Forall2 (fun i a => nth_error items i = Some a) idx out.
Proof.
  intros items idx F. induction F as [|i idx I F [out [E [L F2]]]]; [exists []; split; [reflexivity|split; [reflexivity|constructor]]|].
  cbn [items_at]. destruct (nth_error items i) as [a|] eqn:N; [|apply nth_error_None in N; lia]. rewrite E. exists (a :: out). split; [reflexivity|]. split; [cbn; congruence|]. now constructor.
Qed.
Theorem sample_draws : forall fuel nsamp (o : @popn A) (w : world C) o1 w1 r, usable o -> good (np_rk (w_np C w)) -> (1 <= nsamp)%Z ->
  popn_sample C fuel nsamp (o, w) = ((o1, w1), r) ->
  usable o1 /\ o_items o1 = o_items o /\ o_weights o1 = o_weights o /\
  (r = Err OutOfFuel \/
   exists out idx ys, r = Ok out /\ Z.of_nat (length out) = nsamp /\ List.Forall2 (fun i a => nth_error (o_items o) i = Some a) idx out /\
     List.Forall (fun i => 0 < nth i (o_weights o) 0)%R idx /\
     outputs (np_rk (w_np C w)) ys (np_rk (w_np C w1)) /\ good (np_rk (w_np C w1)) /\ np_extra (w_np C w1) = np_extra (w_np C w)).
Proof.
  intros fuel nsamp o w o1 w1 r [UE [UW [UL [UZ US]]]] G NS H. unfold popn_sample in H. rewrite UE in H.
  assert (P : exists p, (match o_sampler o with Some p => Ok p | None => new_pps (o_weights o) end) = Ok p /\ new_pps (o_weights o) = Ok p).
  { destruct (o_sampler o) as [p|]; [exists p; auto|]. unfold new_pps. destruct (draws_in_proportion _ UW UZ) as [s [_ [E _]]]. rewrite E. eexists. split; reflexivity. }
  destruct P as [p [P1 P2]]. rewrite P1 in H.
  assert (EP : init_sampler5tbl (o_weights o) = Some (p_tab p)). { unfold new_pps in P2. destruct (init_sampler5tbl (o_weights o)); [|discriminate]. now injection P2 as <-. }
  unfold get_state in H. cbn [firstn] in H. unfold set_rng_state in H. change (negb (String.eqb "MT19937" "MT19937")) with false in H. cbv iota in H.
  destruct G as [G1 G2]. rewrite G1 in H. change (negb (Nat.eqb 624 624)) with false in H. cbv iota in H.
  unfold on_loc in H. cbn [w_np w_loc w_c] in H.
  assert (RK : forall g, Rk (rk_key g) (rk_pos g) = g) by (intros []; reflexivity). rewrite RK in H.
  unfold pps_sample in H. rewrite (proj2 (Z.leb_gt _ _)) in H by lia.
  destruct (Dran_array fuel (p_tab p) (Z.to_nat nsamp) (np_rk (w_np C w))) as [g' rr] eqn:D.
  assert (GG : good (np_rk (w_np C w))) by (split; [exact G1|exact G2]).
  destruct (array_positive _ _ UW UZ EP _ _ _ _ _ GG D) as [G' [->|[idx [ys [-> [L [O F]]]]]]].
  - injection H as <- <- <-. cbn [o_items o_weights]. split; [|split; [reflexivity|split; [reflexivity|now left]]].
    split; [reflexivity|]. split; [exact UW|]. split; [exact UL|]. split; [exact UZ|exact P2].
  - destruct (items_found (o_items o) idx) as [out [E [LO F2]]].
    { eapply Forall_impl; [|exact F]. intros i [I _]. rewrite UL. exact I. }
    cbn [w_np w_loc w_c o_items] in H. rewrite E in H. injection H as <- <- <-. cbn [o_items o_weights w_np np_rk np_extra].
    split; [split; [reflexivity|]; split; [exact UW|]; split; [exact UL|]; split; [exact UZ|exact P2]|]. split; [reflexivity|]. split; [reflexivity|].
    right. exists out, idx, ys. split; [reflexivity|]. split; [lia|]. split; [exact F2|]. split; [eapply Forall_impl; [|exact F]; intros i [_ I]; exact I|]. split; [exact O|]. split; [exact G'|reflexivity].
Qed.
Theorem subset_fails : forall nsamp (o : @popn A) (w : world C), nsamp <> o_npopn o -> subset_pps C nsamp (o, w) = ((o, w), Err TypeError).
Proof. intros nsamp o w N. unfold subset_pps. rewrite (proj2 (Nat.eqb_neq _ _) N). reflexivity. Qed.
Theorem subset_all : forall (o : @popn A) (w : world C), subset_pps C (o_npopn o) (o, w) = ((o, w), Ok (o_items o)).
Proof. intros o w. unfold subset_pps. now rewrite Nat.eqb_refl. Qed.
End Popn.

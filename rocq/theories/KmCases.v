(** Data for the examples about product-limit estimates, and the estimates
    worked out *)

From Coq Require Import List Bool Arith ZArith Reals Lra Lia Permutation.
From Verif Require Import Exn Instances McModel BaModel KmModel KmSpec KmLemmas KmLemmas2 KmLemmas3 KmLemmas4 KmLemmas5 KmLemmas6 KmLemmas7 KmLemmas8 KmLemmas9.
Import ListNotations.
Open Scope R_scope.

(** Memory with zeros in an array of n elements and large values after it *)
Definition km_mem (n : nat) : mem := fun i => if (i <=? n)%nat then 0 else 10.
Definition km_far : mem := fun _ => 10.

Ltac km_dec := repeat match goal with
  | |- context [Rle_b ?a ?b] => first [ replace (Rle_b a b) with true by (symmetry; apply Rle_b_true; lra)
                                      | replace (Rle_b a b) with false by (unfold Rle_b; destruct (Rle_dec a b); [lra | reflexivity]) ]
  | |- context [Rlt_b ?a ?b] => first [ replace (Rlt_b a b) with true by (symmetry; apply Rlt_b_true; lra)
                                      | replace (Rlt_b a b) with false by (unfold Rlt_b; destruct (Rlt_dec a b); [lra | reflexivity]) ]
  | |- context [Req_b ?a ?b] => first [ replace (Req_b a b) with true by (symmetry; apply Req_b_true; lra)
                                      | replace (Req_b a b) with false by (unfold Req_b; destruct (Req_EM_T a b); [lra | reflexivity]) ]
  end.
Ltac km_nodup := repeat constructor; cbn [In]; intros H; repeat match goal with H : _ \/ _ |- _ => destruct H as [H|H] end; try easy; lra.

(** Detections 1 and 3, a limit 2 *)
Lemma a_events : events [1; 3] [2] = [1; 3].
Proof. unfold events, topmost, data. cbn [app filter forallb]. km_dec. easy. Qed.
Lemma a_points : points [1; 3] [2] = [1; 3].
Proof. unfold points. rewrite a_events. apply nodup_fixed_point. km_nodup. Qed.
Lemma a_top : filter (topmost [1; 3] [2]) [2] = [].
Proof. unfold topmost, data. cbn [app filter forallb]. km_dec. easy. Qed.
Lemma a_risk1 : at_risk [1; 3] [2] 1 = 3.
Proof. unfold at_risk, data. cbn [app filter]. km_dec. simpl. lra. Qed.
Lemma a_risk3 : at_risk [1; 3] [2] 3 = 1.
Proof. unfold at_risk, data. cbn [app filter]. km_dec. simpl. lra. Qed.
Lemma a_dead1 : dead [1; 3] [2] 1 = 1.
Proof. unfold dead. rewrite a_events. cbn [app filter]. km_dec. simpl. lra. Qed.
Lemma a_dead3 : dead [1; 3] [2] 3 = 1.
Proof. unfold dead. rewrite a_events. cbn [app filter]. km_dec. simpl. lra. Qed.
Lemma a_surv1 : survival [1; 3] [2] 1 = 2 / 3.
Proof. unfold survival. rewrite a_points. cbn [filter]. km_dec. unfold product. cbn [map fold_right]. rewrite a_dead1, a_risk1. lra. Qed.
Lemma a_surv3 : survival [1; 3] [2] 3 = 0.
Proof. unfold survival. rewrite a_points. cbn [filter]. km_dec. unfold product. cbn [map fold_right]. rewrite a_dead1, a_risk1, a_dead3, a_risk3. lra. Qed.
Lemma a_prob1 : prob [1; 3] [2] 1 = 1 / 3.
Proof. unfold prob, survival_before. rewrite a_points. cbn [filter]. km_dec. unfold product. cbn [map fold_right]. rewrite a_dead1, a_risk1. lra. Qed.
Lemma a_prob3 : prob [1; 3] [2] 3 = 2 / 3.
Proof. unfold prob, survival_before. rewrite a_points. cbn [filter]. km_dec. unfold product. cbn [map fold_right]. rewrite a_dead1, a_risk1, a_dead3, a_risk3. lra. Qed.
Lemma a_mean : mean [1; 3] [2] = 7 / 3.
Proof. unfold mean. rewrite a_points. unfold total. cbn [map fold_right]. rewrite a_prob1, a_prob3. lra. Qed.

(** The same with 2 as an upper limit: the signs are changed *)
Lemma u_events : events [-1; -3] [-2] = [-1; -3].
Proof. unfold events, topmost, data. cbn [app filter forallb]. km_dec. easy. Qed.
Lemma u_points : points [-1; -3] [-2] = [-1; -3].
Proof. unfold points. rewrite u_events. apply nodup_fixed_point. km_nodup. Qed.
Lemma u_top : filter (topmost [-1; -3] [-2]) [-2] = [].
Proof. unfold topmost, data. cbn [app filter forallb]. km_dec. easy. Qed.
Lemma u_below1 : below [-1; -3] [-2] (-1) = 1 / 3.
Proof.
  unfold below. rewrite u_points. cbn [filter]. km_dec. unfold total. cbn [map fold_right].
  unfold prob, survival_before, dead, at_risk. rewrite u_points, u_events. unfold data. cbn [app filter]. km_dec. unfold product. cbn [map fold_right length]. simpl. lra.
Qed.

(** A detection 1 and two limits 2 *)
Lemma b_top : filter (topmost [1] [2; 2]) [2; 2] = [2; 2].
Proof. unfold topmost, data. cbn [app filter forallb]. km_dec. easy. Qed.
Lemma b_points : points [1] [2; 2] = [1; 2].
Proof.
  unfold points, events. rewrite b_top. cbn [app]. cbn [nodup]. 
  destruct (in_dec Req_EM_T 1 [2; 2]) as [H|H]; [exfalso; cbn [In] in H; destruct H as [H|[H|H]]; [lra | lra | easy]|]. f_equal.
  destruct (in_dec Req_EM_T 2 [2]) as [H2|H2]; [|exfalso; apply H2; now left]. destruct (in_dec Req_EM_T 2 []) as [H3|H3]; [easy|]. easy.
Qed.

(** Detections 2 and 3, an upper limit 1 *)
Lemma c_top : filter (topmost [-2; -3] [-1]) [-1] = [-1].
Proof. unfold topmost, data. cbn [app filter forallb]. km_dec. easy. Qed.
Lemma c_events : events [-2; -3] [-1] = [-2; -3; -1].
Proof. unfold events. now rewrite c_top. Qed.
Lemma c_points : points [-2; -3] [-1] = [-2; -3; -1].
Proof. unfold points. rewrite c_events. apply nodup_fixed_point. km_nodup. Qed.

(** Detections 1 and 2 *)
Lemma d_events : events [1; 2] [] = [1; 2].
Proof. easy. Qed.
Lemma d_points : points [1; 2] [] = [1; 2].
Proof. unfold points. rewrite d_events. apply nodup_fixed_point. km_nodup. Qed.
Lemma d_surv1 : survival [1; 2] [] 1 = 1 / 2.
Proof.
  unfold survival. rewrite d_points. cbn [filter]. km_dec. unfold product. cbn [map fold_right].
  unfold dead, at_risk. rewrite d_events. unfold data. cbn [app filter]. km_dec. simpl. lra.
Qed.
Lemma d_prob : total (map (prob [1; 2] []) (points [1; 2] [])) = 1.
Proof.
  rewrite d_points. unfold total. cbn [map fold_right]. unfold prob, survival_before. rewrite d_points. cbn [filter]. km_dec. unfold product. cbn [map fold_right].
  unfold dead, at_risk. rewrite d_events. unfold data. cbn [app filter]. km_dec. simpl. lra.
Qed.

(** The increasing sequence of two or three points *)
Lemma lists_two a b z : a < b -> lists_all [a; b] z 2 -> z 1%nat = a /\ z 2%nat = b.
Proof.
  intros L [A B]. assert (X := A 1%nat ltac:(lia)). cbn [Nat.add] in X.
  assert (Z1 : In (z 1%nat) [a; b]) by (apply B; exists 1%nat; split; [lia | easy]).
  assert (Z2 : In (z 2%nat) [a; b]) by (apply B; exists 2%nat; split; [lia | easy]).
  cbn [In] in *. destruct Z1 as [E1|[E1|E1]], Z2 as [E2|[E2|E2]]; try easy; lra.
Qed.

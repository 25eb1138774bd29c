(** NXPRT: the partitions; sums over vectors are sums over partitions and permutations *)

From Coq Require Import List Bool Arith ZArith Reals Permutation Sorted Lra Lia.
From Verif Require Import Exn Instances CountSpec McModel McLemmas5 BaModel BaLemmas ObsModel AdModel AdLemmas AdLemmas2 SyModel SyLemmas SyLemmas2 SyLemmas3 SyLemmas4 SyLemmas5 SyLemmas6.
Import ListNotations.
Open Scope nat_scope.

(** The partitions of q into s parts, the last part ascending *)
Fixpoint pts (fuel s q : nat) : list (list nat) :=
  match fuel, s with
  | O, _ => []
  | S fuel', O => if Nat.eqb q 0 then [[]] else []
  | S fuel', S s' => map (fun p => p ++ [0]) (pts fuel' s' q) ++ (if Nat.leb s q then map (map S) (pts fuel' s (q - s)) else [])
  end.
Definition parts (s q : nat) : list (list nat) := pts (S (s + q)) s q.

Lemma NoDup_join : forall A (a b : list A), NoDup a -> NoDup b -> (forall z, In z a -> ~ In z b) -> NoDup (a ++ b).
Proof.
  intros A a b Ha Hb H. induction a as [|z a IHa]; [exact Hb|]. cbn [app]. inversion Ha; subst. constructor.
  - intros C. apply in_app_or in C. destruct C as [C|C]; [contradiction|]. now apply (H z (or_introl eq_refl)).
  - apply IHa; [assumption|]. intros w Hw. apply H. now right.
Qed.
Lemma sum_S : forall p, list_sum (map S p) = list_sum p + length p.
Proof. induction p as [|a p IH]; [reflexivity|]. cbn [map list_sum fold_right length]. unfold list_sum in IH. rewrite IH. lia. Qed.
Lemma desc_S : forall p, desc (map S p) <-> desc p.
Proof.
  induction p as [|a p IH]; [split; intros; constructor|]. cbn [map]. rewrite !desc_cons, IH. split; intros [H1 H2]; (split; [exact H1|]).
  - intros b Hb. specialize (H2 (S b) (in_map S _ _ Hb)). lia.
  - intros b Hb. apply in_map_iff in Hb. destruct Hb as (c & <- & Hc). specialize (H2 c Hc). lia.
Qed.
Lemma pts_all : forall fuel s q, s + q < fuel -> all_of (pts fuel s q) (fun p => length p = s /\ desc p /\ list_sum p = q).
Proof.
  induction fuel as [|fuel IH]; intros s q H; [lia|]. destruct s as [|s]; cbn [pts].
  - destruct (Nat.eqb_spec q 0) as [->|N].
    + split; [repeat constructor; intros []|]. intros p. split; [intros [<-|[]]; repeat split; constructor|]. intros (L & _). destruct p; [now left|discriminate].
    + split; [constructor|]. intros p. split; [intros []|]. intros (L & _ & E). destruct p; [cbn in E; lia|discriminate].
  - destruct (IH s q ltac:(lia)) as [N1 I1].
    set (R := if Nat.leb (S s) q then map (map S) (pts fuel (S s) (q - S s)) else []).
    assert (N2 : NoDup R /\ forall p, In p R <-> exists r, p = map S r /\ length r = S s /\ desc r /\ list_sum r + S s = q).
    { unfold R. destruct (Nat.leb_spec (S s) q) as [Q|Q].
      - destruct (IH (S s) (q - S s) ltac:(lia)) as [N2 I2]. split.
        + apply FinFun.Injective_map_NoDup; [|exact N2]. intros a b. revert b. induction a as [|x a IHa]; intros [|y b] E; try discriminate; [reflexivity|]. injection E as -> E. f_equal. now apply IHa.
        + intros p. rewrite in_map_iff. split; [intros (r & <- & Hr); apply I2 in Hr; exists r; intuition lia|intros (r & -> & Hr); exists r; split; [reflexivity|apply I2; intuition lia]].
      - split; [constructor|]. intros p. split; [intros []|]. intros (r & _ & _ & _ & E). lia. }
    destruct N2 as [N2 I2]. split.
    + apply NoDup_join; [|exact N2|].
      * apply FinFun.Injective_map_NoDup; [|exact N1]. intros a b E. now apply app_inj_tail in E.
      * intros z Hz Hz'. apply in_map_iff in Hz. destruct Hz as (a & <- & _). apply I2 in Hz'. destruct Hz' as (r & E & _). assert (B : In 0 (map S r)) by (rewrite <- E; apply in_or_app; right; now left).
        apply in_map_iff in B. destruct B as (? & B & _). discriminate.
    + intros p. rewrite in_app_iff, in_map_iff, I2. split.
      * intros [(a & <- & Ha)|(r & -> & L & D & E)].
        -- apply I1 in Ha. destruct Ha as (L & D & E). rewrite app_length, list_sum_app. cbn. split; [lia|]. split; [|lia]. apply desc_app. split; [exact D|]. split; [repeat constructor|]. intros x b _ [<-|[]]. lia.
        -- rewrite map_length, sum_S, L. split; [reflexivity|]. split; [now apply desc_S|lia].
      * intros (L & D & E). assert (NE : p <> []) by (intros ->; discriminate). destruct (exists_last NE) as (a & z & ->). destruct z as [|z].
        -- left. exists a. split; [reflexivity|]. apply I1. rewrite app_length in L. cbn in L. rewrite list_sum_app in E. cbn in E. apply desc_app in D. intuition lia.
        -- right. exists (map pred (a ++ [S z])). assert (EQ : a ++ [S z] = map S (map pred (a ++ [S z]))).
           { rewrite map_map. rewrite <- (map_id (a ++ [S z])) at 1. apply map_ext_in. intros b Hb. apply in_app_or in Hb. destruct Hb as [Hb|[<-|[]]]; [|reflexivity].
             apply desc_app in D. destruct D as (_ & _ & D). specialize (D b (S z) Hb (or_introl eq_refl)). lia. }
           split; [exact EQ|]. split; [now rewrite map_length|]. rewrite EQ in D, E. apply (proj1 (desc_S _)) in D. split; [exact D|]. rewrite sum_S, map_length in E. lia.
Qed.
Lemma parts_all : forall s q, all_of (parts s q) (fun p => length p = s /\ desc p /\ list_sum p = q).
Proof. intros. apply pts_all. lia. Qed.

(** The order in which NXPRT finds them, up to the sum 11 *)
Definition upto_sum (s d : nat) : list (list nat) := flat_map (parts s) (seq 0 (S d)).
Fixpoint veqb (p q : list nat) : bool := match p, q with [], [] => true | a :: p', b :: q' => Nat.eqb a b && veqb p' q' | _, _ => false end.
Lemma veqb_spec : forall p q, veqb p q = true <-> p = q.
Proof.
  induction p as [|a p IH]; intros [|b q]; cbn [veqb]; try (split; [discriminate|discriminate]); [tauto|]. rewrite andb_true_iff, Nat.eqb_eq, IH. split; [intros [-> ->]; reflexivity|intros E; injection E; auto].
Qed.
Fixpoint follows (s : nat) (ls : list (list nat)) (e : list nat) : bool :=
  match ls with
  | [] => true
  | p :: ls' =>
      let r := match ls' with r :: _ => r | [] => e end in
      match nxprt s p with Ok q => veqb q r | Err _ => false end &&
      Nat.eqb (if Nat.ltb (list_sum p) (hd 0 r) then S (list_sum p) else list_sum p) (list_sum r) && follows s ls' e
  end.
Lemma partitions_check : forallb (fun s => Nat.leb (length (upto_sum s 11)) 195 && forallb (fun d => follows s (upto_sum s d) (S d :: repeat 0 (s - 1))) (seq 0 12)) (seq 1 20) = true.
Proof. vm_compute. reflexivity. Qed.
Lemma parts_follow : forall s d, 1 <= s <= 20 -> d < 12 -> follows s (upto_sum s d) (S d :: repeat 0 (s - 1)) = true.
Proof.
  intros s d H Hd. assert (Q := partitions_check). rewrite forallb_forall in Q. specialize (Q s ltac:(apply in_seq; lia)). apply andb_true_iff in Q. destruct Q as [_ Q]. rewrite forallb_forall in Q. apply Q. apply in_seq. lia.
Qed.
Lemma parts_few : forall s, 1 <= s <= 20 -> length (upto_sum s 11) <= 195.
Proof. intros s H. assert (Q := partitions_check). rewrite forallb_forall in Q. specialize (Q s ltac:(apply in_seq; lia)). apply andb_true_iff in Q. destruct Q as [Q _]. now apply Nat.leb_le. Qed.
Lemma upto_in : forall s d m, In m (upto_sum s d) <-> length m = s /\ desc m /\ list_sum m <= d.
Proof.
  intros s d m. unfold upto_sum. rewrite in_flat_map. split.
  - intros (q & Hq & Hm). apply in_seq in Hq. apply parts_all in Hm. intuition lia.
  - intros (L & D & S). exists (list_sum m). split; [apply in_seq; lia|]. now apply parts_all.
Qed.
Lemma upto_pre : forall s d e, d <= e -> exists r, upto_sum s e = upto_sum s d ++ r.
Proof. intros s d e H. unfold upto_sum. replace (S e) with (S d + (e - d)) by lia. rewrite seq_app, flat_map_app. eexists. reflexivity. Qed.

(** All vectors *)
Fixpoint vecs (n q : nat) : list (list nat) :=
  match n with O => if Nat.eqb q 0 then [[]] else [] | S n' => flat_map (fun j => map (cons j) (vecs n' (q - j))) (seq 0 (S q)) end.
Lemma sumR_flat : forall A B (g : B -> R) (k : A -> list B) l, sumR (map g (flat_map k l)) = sumR (map (fun a => sumR (map g (k a))) l).
Proof. intros A B g k l. induction l as [|a l IH]; [reflexivity|]. cbn [flat_map map]. rewrite map_app, sumR_app, IH. reflexivity. Qed.
Lemma sg_sumR : forall d g, sg d g = sumR (map g (seq 0 (S d))).
Proof.
  induction d as [|d IH]; intros g; [rewrite sg_0; unfold sumR; cbn; ring|]. rewrite sg_S, IH, (seq_S (S d)), map_app, sumR_app. unfold sumR at 3. cbn [map fold_right Nat.add]. ring.
Qed.
Lemma msum_vecs : forall n q g, msum n q g = sumR (map g (vecs n q)).
Proof.
  induction n as [|n IH]; intros q g; cbn [msum vecs].
  - destruct (Nat.eqb q 0); unfold sumR; cbn; ring.
  - rewrite sumR_flat, sg_sumR. f_equal. apply map_ext. intros j. rewrite map_map. apply IH.
Qed.
Lemma vecs_all : forall n q, all_of (vecs n q) (fun p => length p = n /\ list_sum p = q).
Proof.
  induction n as [|n IH]; intros q; cbn [vecs].
  - destruct (Nat.eqb_spec q 0) as [->|N].
    + split; [repeat constructor; intros []|]. intros p. split; [intros [<-|[]]; auto|]. intros [L _]. destruct p; [now left|discriminate].
    + split; [constructor|]. intros p. split; [intros []|]. intros [L E]. destruct p; [cbn in E; lia|discriminate].
  - split.
    + generalize 0 at 1. generalize (S q) at 1. intros k. induction k as [|k IHk]; intros a; [constructor|]. cbn [seq flat_map]. apply NoDup_join.
      * apply FinFun.Injective_map_NoDup; [intros x y E; now injection E|apply IH].
      * apply IHk.
      * intros z Hz Hz'. apply in_map_iff in Hz. destruct Hz as (x & <- & _). apply in_flat_map in Hz'. destruct Hz' as (j & Hj & Hz'). apply in_map_iff in Hz'. destruct Hz' as (y & E & _). injection E as -> _. apply in_seq in Hj. lia.
    + intros p. rewrite in_flat_map. split.
      * intros (j & Hj & Hp). apply in_map_iff in Hp. destruct Hp as (r & <- & Hr). apply IH in Hr. destruct Hr as [L E]. apply in_seq in Hj. cbn [length list_sum fold_right]. unfold list_sum in E. split; lia.
      * intros [L E]. destruct p as [|j p]; [discriminate|]. cbn [list_sum fold_right length] in *. fold (list_sum p) in E. exists j. split; [apply in_seq; lia|]. apply in_map. apply IH. split; lia.
Qed.

(** Sorting *)
Fixpoint insd (a : nat) (l : list nat) : list nat := match l with [] => [a] | b :: l' => if Nat.leb b a then a :: l else b :: insd a l' end.
Fixpoint sortd (l : list nat) : list nat := match l with [] => [] | a :: l' => insd a (sortd l') end.
Lemma insd_perm : forall a l, Permutation (insd a l) (a :: l).
Proof. intros a l. induction l as [|b l IH]; [reflexivity|]. cbn [insd]. destruct (Nat.leb b a); [reflexivity|]. rewrite IH. apply perm_swap. Qed.
Lemma sortd_perm : forall l, Permutation (sortd l) l.
Proof. induction l as [|a l IH]; [reflexivity|]. cbn [sortd]. rewrite insd_perm. now constructor. Qed.
Lemma insd_desc : forall a l, desc l -> desc (insd a l).
Proof.
  intros a l. induction l as [|b l IH]; intros H; [repeat constructor|]. cbn [insd]. assert (H0 := H). apply desc_cons in H. destruct H as [H1 H2]. destruct (Nat.leb_spec b a).
  - apply desc_cons. split; [exact H0|]. intros c [<-|Hc]; [assumption|]. specialize (H2 c Hc). lia.
  - apply desc_cons. split; [now apply IH|]. intros c Hc. apply (Permutation_in _ (insd_perm a l)) in Hc. destruct Hc as [<-|Hc]; [lia|now apply H2].
Qed.
Lemma sortd_desc : forall l, desc (sortd l).
Proof. induction l as [|a l IH]; [constructor|]. now apply insd_desc. Qed.

Definition permsof (m : list nat) : list (list nat) := filter (fun p => veqb (sortd p) m) (vecs (length m) (list_sum m)).
Lemma list_sum_perm : forall p q, Permutation p q -> list_sum p = list_sum q.
Proof. intros p q H. induction H as [|j p q H IH|i j p|p q r H IH H' IH']; cbn [list_sum fold_right]; [reflexivity|unfold list_sum in IH; now rewrite IH|lia|congruence]. Qed.
Lemma permsof_all : forall m, desc m -> all_of (permsof m) (fun p => Permutation p m).
Proof.
  intros m D. split; [apply NoDup_filter; apply vecs_all|]. intros p. unfold permsof. rewrite filter_In, veqb_spec. split.
  - intros [_ <-]. symmetry. apply sortd_perm.
  - intros P. split; [apply vecs_all; split; [now apply Permutation_length|now apply list_sum_perm]|]. apply desc_eq; [apply sortd_desc|exact D|]. rewrite sortd_perm. exact P.
Qed.
Lemma sum_zero : forall A (g : A -> R) l, (forall a, In a l -> g a = 0%R) -> sumR (map g l) = 0%R.
Proof. intros A g l H. induction l as [|a l IH]; [reflexivity|]. unfold sumR in *. cbn [map fold_right]. rewrite (H a (or_introl eq_refl)), IH by (intros; apply H; now right). ring. Qed.
Lemma group : forall (g : list nat -> R) keys l, NoDup keys -> (forall p, In p l -> In (sortd p) keys) ->
  sumR (map g l) = sumR (map (fun k => sumR (map g (filter (fun p => veqb (sortd p) k) l))) keys).
Proof.
  intros g keys l ND. induction l as [|p l IH]; intros H; [symmetry; apply sum_zero; reflexivity|].
  cbn [map]. change (sumR (g p :: map g l)) with (g p + sumR (map g l))%R. rewrite IH by (intros; apply H; now right).
  assert (K := H p (or_introl eq_refl)). clear IH H. revert ND K. induction keys as [|k keys IHk]; intros ND K; [destruct K|].
  cbn [map]. inversion ND as [|? ? NK ND']; subst. unfold sumR in *. cbn [fold_right]. cbn [filter] in *. destruct K as [E|K].
  - subst k. rewrite (proj2 (veqb_spec _ _) eq_refl). cbn [map fold_right].
    assert (E : map (fun k => fold_right Rplus 0%R (map g (if veqb (sortd p) k then p :: filter (fun p0 => veqb (sortd p0) k) l else filter (fun p0 => veqb (sortd p0) k) l))) keys =
      map (fun k => fold_right Rplus 0%R (map g (filter (fun p0 => veqb (sortd p0) k) l))) keys).
    { apply map_ext_in. intros k Hk. destruct (veqb (sortd p) k) eqn:V; [|reflexivity]. apply veqb_spec in V. subst k. contradiction. }
    rewrite E. ring.
  - assert (V : veqb (sortd p) k = false) by (destruct (veqb (sortd p) k) eqn:V; [|reflexivity]; apply veqb_spec in V; subst k; contradiction).
    rewrite V. rewrite <- (IHk ND' K). ring.
Qed.
Lemma msum_parts : forall s q g, msum s q g = sumR (map (fun m => sumR (map g (permsof m))) (parts s q)).
Proof.
  intros s q g. rewrite msum_vecs. destruct (parts_all s q) as [ND IN]. rewrite (group g (parts s q)).
  - f_equal. apply map_ext_in. intros m Hm. apply IN in Hm. destruct Hm as (L & D & E). unfold permsof. now rewrite L, E.
  - exact ND.
  - intros p Hp. apply vecs_all in Hp. destruct Hp as [L E]. apply IN. split; [now rewrite (Permutation_length (sortd_perm p))|]. split; [apply sortd_desc|]. now rewrite (list_sum_perm _ _ (sortd_perm p)).
Qed.

(** Rules that miss their degree, failures of the class, and adapt_vec. *)

From Coq Require Import List Bool Arith ZArith Reals Lra Lia String.
From Coquelicot Require Import Coquelicot.
From Verif Require Import Exn Instances CountSpec CountLemmas McModel BaModel BaLemmas CubTables CubModel CubSpec CubLemmas CubLemmas2 CubLemmas3 CubLemmas4 CubLemmas5.
Import ListNotations.
Open Scope R_scope.

Definition power (k : nat) (a b : nat) : R := if (Nat.eqb a k && Nat.eqb b 0)%bool then 1 else 0.
Lemma poly_power : forall k x y, poly k (power k) x y = x ^ k.
Proof.
  intros k x y. unfold poly. rewrite so_end. rewrite so_zero.
  - replace (S k - (0 + k))%nat with 1%nat by lia. unfold sum_over, power. cbn [seq map sumR fold_right]. replace (0 + k)%nat with k by lia. rewrite Nat.eqb_refl. cbn [andb Nat.eqb pow]. ring.
  - intros i Hi. apply so_zero. intros j Hj. unfold power. replace (Nat.eqb i k) with false by (symmetry; apply Nat.eqb_neq; lia). cbn [andb]. ring.
Qed.
(** The rules, a power each gets wrong, and the integers that show it *)
Definition misses : list (string * nat) := [("e2r2_13_41", 10%nat); ("e2r2_9_19a", 6%nat); ("e2r2_11_28c", 4%nat)]%string.
Definition flat (n : znode) : znode := ((fst (fst n), 0%Z), snd n).
Definition check_miss (K V : Z) (n : string) (k : nat) : bool :=
  let l := map flat (table n) in let D := (zpi * V ^ Z.of_nat (2 * k))%Z in
  ((0 <? K) && (0 <? V) && (K * V =? U) && (zrt2 mod K =? 0))%Z && forallb (shr_ok K) l &&
  (D <=? 2 * Z.abs ((zrt2 / K) ^ Z.of_nat k * zsum (map (shr K) l) (Z.of_nat k) 0 - nmz k * D))%Z.
Definition unit_of (k : nat) : Z := if Nat.eqb k 4 then 1 else (10 ^ 16)%Z.
Definition rest_of (k : nat) : Z := if Nat.eqb k 4 then (10 ^ 33)%Z else (10 ^ 17)%Z.
Lemma misses_ok : forallb (fun h => check_miss (unit_of (snd h)) (rest_of (snd h)) (fst h) (snd h)) misses = true.
Proof. vm_cast_no_check (eq_refl true). Qed.
Lemma flat_sum : forall l k, rule_sum (map nnode l) (fun u v => u ^ k * v ^ 0) = rule_sum (map nnode (map flat l)) (fun u v => u ^ k * v ^ 0).
Proof. induction l as [|[[u v] w] l IH]; intros k; [reflexivity|]. cbn [map flat nnode rule_sum fst snd pow]. cbn [pow] in IH. now rewrite IH. Qed.
Lemma spread_one : forall k, spread nm 0 1 k = nm k.
Proof.
  intros k. unfold spread. rewrite (so_one (S k) 0 _ k) by (try lia; intros j Hj N; unfold bco; rewrite (pow_i (k - j)) by lia; ring).
  unfold bco. rewrite pow1. unfold Binomial.C. rewrite Nat.sub_diag. replace (0 ^ 0) with 1 by reflexivity. replace (INR (fact 0)) with 1 by reflexivity. assert (F := INR_fact_neq_0 k). 
  field. exact F.
Qed.
Lemma mean_power : forall k, normal_mean (poly k (power k)) 0 0 1 1 (nm k).
Proof.
  intros k. assert (H := mean_poly k (power k) 0 0 1 1). rewrite (so_one (S k) 0 _ k) in H.
  - rewrite (so_one (S k - k) 0 _ 0%nat) in H.
    + rewrite !spread_one in H. unfold power at 2 in H. rewrite Nat.eqb_refl in H. cbn [andb Nat.eqb] in H. rewrite nm_0 in H. replace (1 * (nm k * 1)) with (nm k) in H by ring. exact H.
    + lia.
    + intros j Hj N. unfold power. replace (Nat.eqb j 0) with false by (symmetry; apply Nat.eqb_neq; exact N). rewrite andb_false_r. ring.
  - lia.
  - intros i Hi N. apply so_zero. intros j Hj. unfold power. replace (Nat.eqb i k) with false by (symmetry; apply Nat.eqb_neq; exact N). cbn [andb]. ring.
Qed.
Lemma miss_value : forall K V n k, check_miss K V n k = true -> / 2 <= Rabs (rule_sum (map nnode (table n)) (fun u v => u ^ k * v ^ 0) - nm k).
Proof.
  intros K V n k H. unfold check_miss in H. apply andb_true_iff in H. destruct H as [H HP]. apply Z.leb_le in HP. repeat (apply andb_true_iff in H; destruct H as [H ?]).
  apply Z.ltb_lt in H. repeat match goal with h : (_ <? _)%Z = true |- _ => apply Z.ltb_lt in h | h : (_ =? _)%Z = true |- _ => apply Z.eqb_eq in h end.
  rewrite flat_sum. assert (E := plane_z K V (map flat (table n)) k 0 ltac:(assumption) ltac:(assumption) ltac:(assumption) ltac:(assumption) ltac:(assumption)). rewrite E. clear E. rewrite Nat.add_0_r, nm_z.
  change (Z.of_nat 0) with 0%Z. set (A := ((zrt2 / K) ^ Z.of_nat k * zsum (map (shr K) (map flat (table n))) (Z.of_nat k) 0)%Z) in *. set (D := (zpi * V ^ Z.of_nat (2 * k))%Z) in *.
  assert (PD : (0 < D)%Z) by (apply Z.mul_pos_pos; [reflexivity|apply Z.pow_pos_nonneg; [assumption|lia]]).
  clearbody A D. apply IZR_lt in PD. apply IZR_le in HP. rewrite mult_IZR, abs_IZR, minus_IZR, mult_IZR in HP.
  replace (IZR A / IZR D - IZR (nmz k)) with ((IZR A - IZR (nmz k) * IZR D) / IZR D) by (field; lra). unfold Rdiv. rewrite Rabs_mult, (Rabs_pos_eq (/ _)) by (apply Rlt_le, Rinv_0_lt_compat; lra).
  apply Rmult_le_reg_r with (IZR D); [lra|]. rewrite Rmult_assoc, Rinv_l by lra. lra.
Qed.
Lemma norm_misses : forall rule k, In (rule, k) misses -> forall before after,
  exists o st v m, norm_init [0; 0] [1; 1] rule (used before imported) = (st, Ok o) /\ norm_call o (fun x y => Ok (poly k (power k) x y)) (used after st) = (used after st, Ok v) /\
    normal_mean (poly k (power k)) 0 0 1 1 m /\ / 2 <= Rabs (v - m).
Proof.
  intros rule k Hin before after.
  assert (Hr : exists i t, rule_dict rule = Ok i /\ nth_error tables i = Some t).
  { unfold misses in Hin. cbn [In] in Hin. repeat (destruct Hin as [Hin|Hin]; [injection Hin; intros _ <-; eexists _, _; split; reflexivity|]). contradiction. }
  destruct Hr as [i [t [Hi Ht]]]. destruct (norm_value before after rule i t (fun x y => Ok (poly k (power k) x y)) (poly k (power k)) 0 0 1 1 Hi Ht (fun _ _ => eq_refl)) as [o [st [I1 I2]]].
  exists o, st. eexists. exists (nm k). split; [exact I1|]. split; [exact I2|]. split; [apply mean_power|].
  rewrite <- (find_table rule i t Hi Ht). assert (Ck := proj1 (forallb_forall _ _) misses_ok _ Hin). cbn [fst snd] in Ck.
  rewrite (rule_ext _ _ (fun u v => u ^ k * v ^ 0)); [exact (miss_value _ _ _ _ Ck)|]. intros u v. rewrite poly_power, !Rplus_0_l, !Rmult_1_l. cbn [pow]. ring.
Qed.

(** Failures of the class *)
Lemma init_unknown : forall locn scale rule s, (forall t, In t tables -> fst t <> rule) -> norm_init locn scale rule s = (s, Err KeyError).
Proof.
  intros locn scale rule s H. unfold norm_init, lifted, bind, rule_dict.
  assert (E : forall l k, (forall t, In t l -> fst t <> rule) -> find_rule rule l k = Err KeyError).
  { induction l as [|t l IH]; intros k N; cbn [find_rule]; [reflexivity|]. replace (String.eqb rule (fst t)) with false.
    - apply IH. intros q Q. apply N. now right.
    - symmetry. apply String.eqb_neq. intros Q. apply (N t); [now left|now symmetry]. }
  now rewrite E.
Qed.
Lemma init_lengths : forall locn scale rule s i a w, rule_dict rule = Ok i -> rd (st_absc s) i = Ok a -> rd (st_wts s) i = Ok w ->
  (List.length locn <> 2%nat \/ List.length scale <> 2%nat) -> snd (norm_init locn scale rule s) = Err ValueError.
Proof.
  intros locn scale rule s i a w Hi Ha Hw N. unfold norm_init, lifted, get, bind, ret. rewrite Hi, Ha, Hw. unfold new_absc, new_wts. cbn [st_absc st_wts].
  destruct locn as [|l0 [|l1 [|l2 locn]]]; try reflexivity; destruct scale as [|s0 [|s1 [|s2 scale]]]; try reflexivity. cbn in N. lia.
Qed.

(** adapt_vec *)
Definition legal_args (n key : Z) : bool := ((2 <=? n) && (n <=? 15) && ((key =? 0) || ((key =? 1) && (n =? 2)) || ((key =? 2) && (n =? 3)) || (key =? 3) || (key =? 4)))%Z.
Lemma vec_num_cases : forall ndim key, if legal_args (Z.of_nat ndim) key then exists p, vec_num ndim key = Ok p else vec_num ndim key = Err ValueError.
Proof.
  intros ndim key. unfold legal_args, vec_num.
  destruct (Nat.ltb ndim 2) eqn:E1. { apply Nat.ltb_lt in E1. replace (2 <=? Z.of_nat ndim)%Z with false by (symmetry; apply Z.leb_gt; lia). reflexivity. }
  destruct (Nat.ltb 15 ndim) eqn:E2. { apply Nat.ltb_lt in E2. replace (Z.of_nat ndim <=? 15)%Z with false by (symmetry; apply Z.leb_gt; lia). rewrite andb_false_r. reflexivity. }
  apply Nat.ltb_ge in E1, E2. replace (2 <=? Z.of_nat ndim)%Z with true by (symmetry; apply Z.leb_le; lia). replace (Z.of_nat ndim <=? 15)%Z with true by (symmetry; apply Z.leb_le; lia). cbn [andb].
  destruct (Z.eqb_spec key 0) as [->|K0]; cbn [orb andb].
  - destruct (Nat.eqb_spec ndim 2); [eexists; reflexivity|]. destruct (Nat.eqb_spec ndim 3); [eexists; reflexivity|]. replace (Nat.leb 3 ndim) with true by (symmetry; apply Nat.leb_le; lia). eexists; reflexivity.
  - destruct (Z.eqb_spec key 1) as [->|K1]; cbn [orb andb].
    + destruct (Nat.eqb_spec ndim 2) as [->|N]; [eexists; reflexivity|]. replace (Z.of_nat ndim =? 2)%Z with false by (symmetry; apply Z.eqb_neq; lia). reflexivity.
    + destruct (Z.eqb_spec key 2) as [->|K2]; cbn [orb andb].
      * destruct (Nat.eqb_spec ndim 3) as [->|N]; [eexists; reflexivity|]. replace (Z.of_nat ndim =? 3)%Z with false by (symmetry; apply Z.eqb_neq; lia). reflexivity.
      * destruct (Z.eqb_spec key 3) as [->|K3]; cbn [orb andb]; [eexists; reflexivity|]. destruct (Z.eqb_spec key 4); cbn [orb]; [eexists; reflexivity|reflexivity].
Qed.
Lemma adapt_vec_raises : forall dcuhre nfuncs lower key maxpts,
  adapt_vec dcuhre nfuncs lower key maxpts = Err (if legal_args (Z.of_nat (List.length lower)) key then TypeError else ValueError).
Proof.
  intros dcuhre nfuncs lower key maxpts. unfold adapt_vec. assert (H := vec_num_cases (List.length lower) key). destruct (legal_args _ key).
  - destruct H as [p ->]. destruct p; reflexivity.
  - rewrite H. reflexivity.
Qed.
(** The checks and the number of points are those of the Fortran. *)
Lemma adapt_vec_checks : forall ndim key numfun a b minpts maxpts epsabs epsrel nw restar,
  (vec_num ndim key = Err ValueError <-> In (fst (dchhre (Z.of_nat ndim) numfun a b minpts maxpts epsabs epsrel key nw restar)) [2; 3; 4; 5]%Z) /\
  (forall p, vec_num ndim key = Ok p -> py_real p = IZR (snd (dchhre (Z.of_nat ndim) numfun a b minpts maxpts epsabs epsrel key nw restar))).
Proof.
  intros ndim key numfun a b minpts maxpts epsabs epsrel nw restar. assert (V := vec_num_cases ndim key).
  assert (Hl : legal_args (Z.of_nat ndim) key = false -> In (fst (dchhre (Z.of_nat ndim) numfun a b minpts maxpts epsabs epsrel key nw restar)) [2; 3; 4; 5]%Z).
  { intros L. unfold dchhre. destruct (Z.ltb_spec key 0) as [K|K]; cbn [orb]; [cbn; tauto|]. destruct (Z.ltb_spec 4 key) as [K'|K']; [cbn; tauto|]. cbn [orb].
    destruct (Z.ltb_spec (Z.of_nat ndim) 2) as [N|N]; cbn [orb]; [cbn; tauto|]. destruct (Z.ltb_spec 15 (Z.of_nat ndim)) as [N'|N']; [cbn; tauto|]. cbn [orb].
    unfold legal_args in L. replace (2 <=? Z.of_nat ndim)%Z with true in L by (symmetry; apply Z.leb_le; lia). replace (Z.of_nat ndim <=? 15)%Z with true in L by (symmetry; apply Z.leb_le; lia). cbn [andb] in L.
    repeat rewrite orb_false_iff in L. destruct L as [[[[L0 L1] L2] L3] L4]. apply Z.eqb_neq in L0, L3, L4.
    assert (KK : key = 1%Z \/ key = 2%Z) by lia. destruct KK as [-> | ->]; cbn [Z.eqb Pos.eqb andb] in *.
    - rewrite L1. cbn. tauto.
    - rewrite L2. cbn. tauto. }
  assert (Hk : legal_args (Z.of_nat ndim) key = true -> exists q, In q [0; 6; 7; 8; 9; 10; 11; 12]%Z /\ exists n, dchhre (Z.of_nat ndim) numfun a b minpts maxpts epsabs epsrel key nw restar = (q, n) /\ forall p, vec_num ndim key = Ok p -> py_real p = IZR n).
  { intros L. unfold legal_args in L. repeat (apply andb_true_iff in L; destruct L as [L ?]). apply Z.leb_le in L. match goal with h : (_ <=? 15)%Z = true |- _ => apply Z.leb_le in h; rename h into N' end.
    match goal with h : _ = true |- _ => rename h into KS end. unfold dchhre.
    assert (KK : (key = 0 \/ (key = 1 /\ Z.of_nat ndim = 2) \/ (key = 2 /\ Z.of_nat ndim = 3) \/ key = 3 \/ key = 4)%Z).
    { repeat rewrite orb_true_iff in KS. repeat rewrite andb_true_iff in KS. rewrite !Z.eqb_eq in KS. tauto. }
    replace ((key <? 0) || (4 <? key))%Z with false by (symmetry; apply orb_false_iff; split; apply Z.ltb_ge; lia).
    replace ((Z.of_nat ndim <? 2) || (15 <? Z.of_nat ndim))%Z with false by (symmetry; apply orb_false_iff; split; apply Z.ltb_ge; lia).
    replace ((key =? 1)%Z && negb (Z.of_nat ndim =? 2)%Z) with false by (symmetry; destruct (Z.eqb_spec key 1); [|reflexivity]; replace (Z.of_nat ndim =? 2)%Z with true by (symmetry; apply Z.eqb_eq; lia); reflexivity).
    replace ((key =? 2)%Z && negb (Z.of_nat ndim =? 3)%Z) with false by (symmetry; destruct (Z.eqb_spec key 2); [|reflexivity]; replace (Z.of_nat ndim =? 3)%Z with true by (symmetry; apply Z.eqb_eq; lia); reflexivity).
    cbv zeta. match goal with |- context [(6%Z, ?n)] => set (num := n) end.
    assert (NV : forall p, vec_num ndim key = Ok p -> py_real p = IZR num).
    { clear - KK N' L. assert (NN : (2 <= ndim <= 15)%nat) by lia. clear L N'.
      destruct KK as [-> | [[-> E] | [[-> E] | [-> | ->]]]];
        do 16 (destruct ndim as [|ndim]; [try lia; subst num; intros p H; injection H as <-; cbn; lra|]); lia. }
    repeat match goal with |- context [if ?c then _ else _] => match c with context [num] => destruct c | context [numfun] => destruct c | context [existsb] => destruct c | context [minpts] => destruct c | context [epsabs] => destruct c | context [restar] => destruct c end end;
      (eexists; split; [|eexists; split; [reflexivity|exact NV]]); cbn; tauto. }
  destruct (legal_args (Z.of_nat ndim) key) eqn:L.
  - destruct V as [p Hp]. destruct (Hk eq_refl) as [q [Q [n [E NV]]]]. rewrite E. cbn [fst snd]. split; [|exact NV]. rewrite Hp. split; [discriminate|]. intros I. cbn in Q, I. exfalso. lia.
  - split; [split; [intros _; now apply Hl|intros _; exact V]|]. rewrite V. discriminate.
Qed.

Lemma legal_spec : forall n key, legal n key <-> legal_args (Z.of_nat n) key = true.
Proof.
  intros n key. unfold legal, legal_args. repeat rewrite andb_true_iff. repeat rewrite orb_true_iff. repeat rewrite andb_true_iff. rewrite !Z.eqb_eq, !Z.leb_le. lia.
Qed.

(** Objects keep their arrays *)
Lemma init_object : forall locn scale rule s st o, norm_init locn scale rule s = (st, Ok o) ->
  exists a w, rd (st_absc st) (nc_absc o) = Ok a /\ rd (st_wts st) (nc_wts o) = Ok w.
Proof.
  intros locn scale rule s st o H. destruct (rule_dict rule) as [i|e] eqn:Hi; [|unfold norm_init, lifted, bind in H; rewrite Hi in H; discriminate].
  destruct (rd (st_absc s) i) as [a|e] eqn:Ha; [|unfold norm_init, lifted, get, bind in H; rewrite Hi, Ha in H; discriminate].
  destruct (rd (st_wts s) i) as [w|e] eqn:Hw; [|unfold norm_init, lifted, get, bind in H; rewrite Hi, Ha, Hw in H; discriminate].
  assert (N := init_lengths locn scale rule s i a w Hi Ha Hw). rewrite H in N. cbn [snd] in N.
  destruct locn as [|l0 [|l1 [|l2 locn]]]; try (exfalso; discriminate N; left; discriminate); destruct scale as [|s0 [|s1 [|s2 scale]]]; try (exfalso; discriminate N; right; discriminate).
  rewrite (init_ok l0 l1 s0 s1 rule s i a w Hi Ha Hw) in H. injection H as <- <-. cbn [st_absc st_wts nc_absc nc_wts]. eexists _, _. split; apply rd_last.
Qed.
Lemma object_stable : forall locn scale rule s st o f after, norm_init locn scale rule s = (st, Ok o) -> snd (norm_call o f (used after st)) = snd (norm_call o f st).
Proof.
  intros locn scale rule s st o f after H. destruct (init_object _ _ _ _ _ _ H) as [a [w [Ha Hw]]]. assert (X := used_extends after st).
  unfold norm_call, lifted, get, bind. rewrite Ha, Hw, (ext_absc _ _ _ _ X Ha), (ext_wts _ _ _ _ X Hw). reflexivity.
Qed.
Lemma tables_stable : forall l rule i, rule_dict rule = Ok i ->
  rd (st_absc (used l imported)) i = rd (st_absc imported) i /\ rd (st_wts (used l imported)) i = rd (st_wts imported) i /\
  (exists a w, rd (st_absc imported) i = Ok a /\ rd (st_wts imported) i = Ok w /\ List.length a = List.length w).
Proof.
  intros l rule i Hi. assert (X := used_extends l imported).
  assert (Ht : exists t, nth_error tables i = Some t).
  { assert (M : forall q k, find_rule rule q k = Ok i -> (k <= i)%nat /\ (i - k < List.length q)%nat).
    { induction q as [|x q IH]; intros k E; cbn [find_rule] in E; [discriminate|]. cbn [List.length]. destruct (String.eqb rule (fst x)); [injection E as ->; lia|]. apply IH in E. lia. }
    destruct (M tables 0%nat Hi) as [_ L]. rewrite Nat.sub_0_r in L. destruct (nth_error tables i) as [t|] eqn:E; [now exists t|]. apply nth_error_None in E. lia. }
  destruct Ht as [t Ht]. assert (A := imported_absc i t Ht). assert (W := imported_wts i t Ht).
  rewrite A, W, (ext_absc _ _ _ _ X A), (ext_wts _ _ _ _ X W). split; [reflexivity|]. split; [reflexivity|]. eexists _, _. split; [reflexivity|]. split; [reflexivity|].
  rewrite !map_length. assert (L : forallb (fun t => Nat.eqb (List.length (fst (snd t))) (List.length (snd (snd t)))) tables = true) by (vm_compute; reflexivity).
  rewrite forallb_forall in L. apply Nat.eqb_eq, L. exact (nth_error_In _ _ Ht).
Qed.
Lemma names_in : forall rule l k, (exists i, find_rule rule l k = Ok i) <-> In rule (map fst l).
Proof.
  intros rule. induction l as [|t l IH]; intros k; cbn [find_rule map In].
  - split; [intros [i H]; discriminate|contradiction].
  - destruct (String.eqb_spec rule (fst t)) as [->|N].
    + split; [now left|]. intros _. now exists k.
    + rewrite IH. split; [now right|]. intros [Q|Q]; [now symmetry in Q|exact Q].
Qed.
Lemma names_ok : forall rule, (exists i, rule_dict rule = Ok i) <-> In rule rule_names.
Proof. intros rule. exact (names_in rule tables 0%nat). Qed.
Lemma init_bad : forall locn scale rule before, let s := used before imported in
  (~ In rule rule_names -> norm_init locn scale rule s = (s, Err KeyError)) /\
  (In rule rule_names -> List.length locn <> 2%nat \/ List.length scale <> 2%nat -> snd (norm_init locn scale rule s) = Err ValueError).
Proof.
  intros locn scale rule before s. split.
  - intros N. apply init_unknown. intros t Ht E. apply N. rewrite <- E. change rule_names with (map fst tables). now apply in_map.
  - intros I L. apply names_ok in I. destruct I as [i Hi]. destruct (tables_stable before rule i Hi) as [A [W [a [w [Ea [Ew _]]]]]]. fold s in A, W. rewrite Ea in A. rewrite Ew in W. exact (init_lengths locn scale rule s i a w Hi A W L).
Qed.
(** All rules *)
Lemma sound_ok : forall rule d eps, In (rule, d, eps) (sound_rules ++ weak_rules) -> exists K V e, In (rule, K, V, d, e) heavy /\ eps = / 10 ^ e.
Proof.
  intros rule d eps H. unfold sound_rules, weak_rules in H. cbn [app In] in H.
  repeat (destruct H as [H|H]; [injection H as <- <- <-; eexists _, _, _; split; [unfold heavy; cbn [In]; repeat (first [left; reflexivity|right])|reflexivity]|]). contradiction.
Qed.
Lemma rule_means : forall rule d eps, In (rule, d, eps) (sound_rules ++ weak_rules) -> forall before after c f l0 l1 s0 s1, (forall x y, f x y = Ok (poly d c x y)) ->
  exists o st v m, norm_init [l0; l1] [s0; s1] rule (used before imported) = (st, Ok o) /\ norm_call o f (used after st) = (used after st, Ok v) /\
    normal_mean (poly d c) l0 l1 s0 s1 m /\ Rabs (v - m) <= eps * size d c (Rabs l0 + Rabs s0) (Rabs l1 + Rabs s1).
Proof. intros rule d eps H before after c f l0 l1 s0 s1 Hf. destruct (sound_ok rule d eps H) as [K [V [e [I ->]]]]. exact (norm_accuracy rule K V d e I before after c f l0 l1 s0 s1 Hf). Qed.
Lemma sound_means : forall rule d eps, In (rule, d, eps) sound_rules -> forall before after c f l0 l1 s0 s1, (forall x y, f x y = Ok (poly d c x y)) ->
  exists o st v m, norm_init [l0; l1] [s0; s1] rule (used before imported) = (st, Ok o) /\ norm_call o f (used after st) = (used after st, Ok v) /\
    normal_mean (poly d c) l0 l1 s0 s1 m /\ Rabs (v - m) <= eps * size d c (Rabs l0 + Rabs s0) (Rabs l1 + Rabs s1).
Proof. intros rule d eps H. apply rule_means. apply in_or_app. now left. Qed.
Lemma weak_means : forall rule d eps, In (rule, d, eps) weak_rules -> forall before after c f l0 l1 s0 s1, (forall x y, f x y = Ok (poly d c x y)) ->
  exists o st v m, norm_init [l0; l1] [s0; s1] rule (used before imported) = (st, Ok o) /\ norm_call o f (used after st) = (used after st, Ok v) /\
    normal_mean (poly d c) l0 l1 s0 s1 m /\ Rabs (v - m) <= eps * size d c (Rabs l0 + Rabs s0) (Rabs l1 + Rabs s1).
Proof. intros rule d eps H. apply rule_means. apply in_or_app. now right. Qed.
Lemma norm_sum_ext : forall f g l s, (forall x y, f x y = g x y) -> norm_sum f l s = norm_sum g l s.
Proof. intros f g. induction l as [|[p w] l IH]; intros s H; [reflexivity|]. cbn [norm_sum]. rewrite H. destruct (g (fst p) (snd p)); [now apply IH|reflexivity]. Qed.
Lemma norm_call_ext : forall o f g s, (forall x y, f x y = g x y) -> norm_call o f s = norm_call o g s.
Proof. intros o f g s H. unfold norm_call, lifted, get, bind. destruct (rd (st_absc s) (nc_absc o)) as [a|e]; [|reflexivity]. destruct (rd (st_wts s) (nc_wts o)) as [w|e]; [|reflexivity]. now rewrite (norm_sum_ext f g). Qed.
Lemma mean_ext : forall p q l0 l1 s0 s1 m, (forall x y, p x y = q x y) -> normal_mean p l0 l1 s0 s1 m -> normal_mean q l0 l1 s0 s1 m.
Proof.
  intros p q l0 l1 s0 s1 m H. unfold normal_mean. apply is_lim_ext. intros T. f_equal. unfold integral. apply RInt_ext. intros x _. apply RInt_ext. intros y _. now rewrite H.
Qed.
Lemma three_miss : forall rule k, In (rule, k) misses -> forall before after, exists o st v m,
    norm_init [0; 0] [1; 1] rule (used before imported) = (st, Ok o) /\ norm_call o (fun x _ => Ok (x ^ k)) (used after st) = (used after st, Ok v) /\
    normal_mean (fun x _ => x ^ k) 0 0 1 1 m /\ / 2 <= Rabs (v - m).
Proof.
  intros rule k H before after. destruct (norm_misses rule k H before after) as [o [st [v [m [I [E [M V]]]]]]]. exists o, st, v, m. split; [exact I|]. split.
  - rewrite <- E. apply norm_call_ext. intros x y. now rewrite poly_power.
  - split; [|exact V]. revert M. apply mean_ext. intros x y. apply poly_power.
Qed.
Lemma poly_power_le : forall d k x y, (k <= d)%nat -> poly d (power k) x y = x ^ k.
Proof.
  intros d k x y H. unfold poly. rewrite (so_one (S d) 0 _ k); [rewrite (so_one (S d - k) 0 _ 0%nat)|..]; try lia.
  - unfold power. rewrite Nat.eqb_refl. cbn [andb Nat.eqb pow]. ring.
  - intros j Hj N. unfold power. replace (Nat.eqb j 0) with false by (symmetry; apply Nat.eqb_neq; exact N). rewrite andb_false_r. ring.
  - intros i Hi N. apply so_zero. intros j Hj. unfold power. replace (Nat.eqb i k) with false by (symmetry; apply Nat.eqb_neq; exact N). cbn [andb]. ring.
Qed.
Lemma named_degree_witness : exists rule d c, In (rule, d) named_degree /\ forall before after, exists o st v m,
    norm_init [0; 0] [1; 1] rule (used before imported) = (st, Ok o) /\ norm_call o (fun x y => Ok (poly d c x y)) (used after st) = (used after st, Ok v) /\
    normal_mean (poly d c) 0 0 1 1 m /\ / 2 <= Rabs (v - m).
Proof.
  exists "e2r2_9_19a"%string, 9%nat, (power 6). split; [cbn; tauto|]. intros before after.
  destruct (three_miss "e2r2_9_19a" 6 (or_intror (or_introl eq_refl)) before after) as [o [st [v [m [I [E [M V]]]]]]]. exists o, st, v, m. split; [exact I|]. split.
  - rewrite <- E. apply norm_call_ext. intros x y. now rewrite poly_power_le by lia.
  - split; [|exact V]. revert M. apply mean_ext. intros x y. symmetry. apply poly_power_le. lia.
Qed.
Lemma adapt_vec_always : forall dcuhre nfuncs lower key maxpts,
  (legal (List.length lower) key -> adapt_vec dcuhre nfuncs lower key maxpts = Err TypeError) /\
  (~ legal (List.length lower) key -> adapt_vec dcuhre nfuncs lower key maxpts = Err ValueError).
Proof.
  intros dcuhre nfuncs lower key maxpts. rewrite adapt_vec_raises, legal_spec. destruct (legal_args _ key); split; intros H; try reflexivity; [now elim H|discriminate].
Qed.
Lemma adapt_vec_witness : exists ndim key, legal ndim key /\
  forall dcuhre nfuncs lower maxpts, List.length lower = ndim -> adapt_vec dcuhre nfuncs lower key maxpts = Err TypeError.
Proof.
  assert (L : legal 3 0) by (unfold legal; lia). exists 3%nat, 0%Z. split; [exact L|]. intros dcuhre nfuncs lower maxpts H. apply adapt_vec_always. now rewrite H.
Qed.
Lemma squares_exact : forall f,
  (forall c, (forall x y, -1 <= x <= 1 -> -1 <= y <= 1 -> f x y = Ok (poly 1 c x y)) -> square1d4pt f = Ok (integral (poly 1 c) (-1) 1 (-1) 1)) /\
  (forall c, (forall x y, -1 <= x <= 1 -> -1 <= y <= 1 -> f x y = Ok (poly 3 c x y)) ->
     exists v, square3d4pt f = Ok v /\ Rabs (v - integral (poly 3 c) (-1) 1 (-1) 1) <= / 10 ^ 32 * size 3 c 1 1) /\
  (forall c, (forall x y, -1 <= x <= 1 -> -1 <= y <= 1 -> f x y = Ok (poly 7 c x y)) ->
     exists v, square7d12pt f = Ok v /\ Rabs (v - integral (poly 7 c) (-1) 1 (-1) 1) <= / 10 ^ 32 * size 7 c 1 1).
Proof.
  assert (M1 : Rmax (Rabs (-1)) (Rabs 1) = 1) by (rewrite Rabs_left, Rabs_right by lra; unfold Rmax; destruct (Rle_dec (- -1) 1); lra).
  assert (M2 : Rabs (/ 2 * (1 - -1)) = 1) by (rewrite Rabs_right; lra).
  assert (M3 : Rmin (-1) 1 = -1) by (apply Rmin_left; lra). assert (M4 : Rmax (-1) 1 = 1) by (apply Rmax_right; lra).
  intros f. split; [exact (square1_exact f)|]. split; intros c H.
  - rewrite <- square_rect3. destruct (rect3_exact f c (-1) 1 (-1) 1) as [v [E V]]; [rewrite M3, M4; exact H|]. exists v. split; [exact E|]. rewrite M1, M2, !Rmult_1_r in V. exact V.
  - rewrite <- square_rect7. destruct (rect7_exact f c (-1) 1 (-1) 1) as [v [E V]]; [rewrite M3, M4; exact H|]. exists v. split; [exact E|]. rewrite M1, M2, !Rmult_1_r in V. exact V.
Qed.

(** dcuhre *)

From Coq Require Import List Bool Arith ZArith Reals Permutation Lra Lia FunctionalExtensionality.
From Verif Require Import Exn Instances McModel BaModel BaLemmas ObsModel ObsLemmas2 CountSpec McLemmas5 AdModel AdSpec AdLemmas AdLemmas2 AdLemmas3 CubModel SySpec SyModel SyLemmas2 SyLemmas6 SyLemmas10 SyLemmas12.
From Verif Require Import DcModel DcSpec DcLemmas DcLemmas2 DcLemmas3 DcLemmas4 DcLemmas5 DcLemmas6 DcLemmas7 DcLemmas8 DcLemmas9 DcLemmas10 DcNear.
Import ListNotations.
Open Scope R_scope.

Lemma rule_of : forall f n numfun keyf, (2 <= n)%nat -> kok n keyf -> forall c h, length c = n -> length h = n ->
  exists d, drlhre f n numfun (table_of n keyf) c h (t_g (table_of n keyf)) = Ok (V n keyf f c h, E n keyf f c h, d, t_g (table_of n keyf)) /\ (1 <= d <= n)%nat.
Proof.
  intros f n numfun keyf n2 K c h Lc Lh. destruct (region_is n keyf n2 K f numfun c h (t_g (table_of n keyf)) Lc Lh (fun _ => eq_refl)) as (v & e & d & g & Q & G & D & Hv & He).
  exists d. split; [|exact D]. rewrite Q. replace g with (t_g (table_of n keyf)) by (symmetry; apply functional_extensionality; exact G).
  replace v with (V n keyf f c h) by (symmetry; apply functional_extensionality; exact Hv). replace e with (E n keyf f c h) by (symmetry; apply functional_extensionality; exact He). reflexivity.
Qed.
Lemma rule_ok' : forall f n numfun keyf, (2 <= n)%nat -> kok n keyf -> forall c h, length c = n -> length h = n ->
  exists v e d, drlhre f n numfun (table_of n keyf) c h (t_g (table_of n keyf)) = Ok (v, e, d, t_g (table_of n keyf)) /\ (1 <= d <= n)%nat /\ ((forall x, In x h -> 0 <= x) -> forall j, 0 <= e j).
Proof.
  intros f n numfun keyf n2 K c h Lc Lh. destruct (rule_of f n numfun keyf n2 K c h Lc Lh) as (d & Q & D). exists (V n keyf f c h), (E n keyf f c h), d. split; [exact Q|]. split; [exact D|]. intros P j. now apply (E_pos n keyf n2 K f c h j).
Qed.

(** Halves of a box are in it *)
Definition within (c0 h0 c h : list R) : Prop := forall x, in_box c h x -> in_box c0 h0 x.
Lemma halves_box : forall a c h x, length h = length c -> (1 <= a <= length c)%nat -> in_box (low_centre a c h) (half_half a h) x \/ in_box (high_centre a c h) (half_half a h) x -> in_box c h x.
Proof.
  intros a c h x Lh Ha H. assert (L1 : length (low_centre a c h) = length c) by apply along_len. assert (L2 : length (high_centre a c h) = length c) by apply along_len.
  destruct H as [[Lx H]|[Lx H]]; [rewrite L1 in *|rewrite L2 in *]; (split; [exact Lx|]); intros b Hb; specialize (H b Hb); unfold low_centre, high_centre, half_half in H; rewrite !comp_along in H by lia;
    revert H; (destruct (Nat.eqb_spec b a) as [Q|N]; intros H; [rewrite Q in *|rewrite !Rplus_0_r in H; exact H]); revert H; unfold Rabs; repeat destruct (Rcase_abs _); lra.
Qed.
Lemma within_half : forall c0 h0 a c h, (1 <= a <= length c)%nat -> length h = length c -> (forall x, In x h -> 0 <= x) -> within c0 h0 c h -> within c0 h0 (low_centre a c h) (half_half a h) /\ within c0 h0 (high_centre a c h) (half_half a h).
Proof. intros c0 h0 a c h Ha Lh _ W. split; intros x Hx; apply W; apply (halves_box a c h x Lh Ha); auto. Qed.
Lemma boxes_len : forall a b, length b = length a -> length (centre_of a b) = length a /\ length (half_between a b) = length a.
Proof. intros a b L. unfold centre_of, half_between. rewrite !map_length, combine_length. lia. Qed.

(** The checks *)
Lemma used_is : forall n key, keyf_of (Z.of_nat n) key = rule_used n key.
Proof.
  intros n key. unfold keyf_of, rule_used. destruct (key =? 0)%Z; [|reflexivity]. destruct (Z.eqb_spec (Z.of_nat n) 2), (Nat.eqb_spec n 2); try (exfalso; lia); try reflexivity. destruct (Z.eqb_spec (Z.of_nat n) 3), (Nat.eqb_spec n 3); try (exfalso; lia); reflexivity.
Qed.
Lemma used_ok : forall n key, key_ok n key -> kok n (rule_used n key).
Proof.
  intros n key H. unfold rule_used. destruct (Z.eqb_spec key 0) as [->|N]; [|unfold key_ok, kok in *; tauto].
  unfold kok. destruct (Nat.eqb_spec n 2); [auto|]. destruct (Nat.eqb_spec n 3); auto.
Qed.
Lemma cost_is : forall n key, (2 <= n)%nat -> (0 <= key <= 4)%Z ->
  (if (rule_used n key =? 1)%Z then 65 else if (rule_used n key =? 2)%Z then 127 else
   if (rule_used n key =? 3)%Z then 1 + 4 * 2 * Z.of_nat n + 2 * Z.of_nat n * (Z.of_nat n - 1) + 4 * Z.of_nat n * (Z.of_nat n - 1) + Z.quot (4 * Z.of_nat n * (Z.of_nat n - 1) * (Z.of_nat n - 2)) 3 + 2 ^ Z.of_nat n
   else 1 + 3 * 2 * Z.of_nat n + 2 * Z.of_nat n * (Z.of_nat n - 1) + 2 ^ Z.of_nat n)%Z = rule_cost n key.
Proof.
  intros n key H Hk. unfold rule_cost. assert (U : (1 <= rule_used n key <= 4)%Z) by (unfold rule_used; destruct (Z.eqb_spec key 0); [destruct (Nat.eqb n 2), (Nat.eqb n 3); lia|lia]). set (u := rule_used n key) in *.
  destruct (Z.eqb_spec u 1); [reflexivity|]. destruct (Z.eqb_spec u 2); [reflexivity|]. destruct (Z.eqb_spec u 3), (Z.eqb_spec u 4); try lia.
  rewrite Z.quot_div_nonneg; [ring| |lia]. apply Z.mul_nonneg_nonneg; [|lia]. apply Z.mul_nonneg_nonneg; lia.
Qed.
Lemma cost_pos : forall n key, (2 <= n)%nat -> (1 <= rule_cost n key)%Z.
Proof.
  intros n key H. unfold rule_cost. assert (P : (0 <= 2 ^ Z.of_nat n)%Z) by (apply Z.pow_nonneg; lia). assert (Q : (0 <= Z.of_nat n * (Z.of_nat n - 1))%Z) by (apply Z.mul_nonneg_nonneg; lia).
  assert (D : (0 <= 4 * Z.of_nat n * (Z.of_nat n - 1) * (Z.of_nat n - 2) / 3)%Z) by (apply Z.div_pos; [|lia]; apply Z.mul_nonneg_nonneg; lia). destruct (rule_used n key =? 1)%Z; [lia|]. destruct (rule_used n key =? 2)%Z; [lia|]. destruct (rule_used n key =? 4)%Z; lia.
Qed.
Lemma accepted : forall numfun a b minpts maxpts epsabs epsrel key nw, acceptable numfun a b minpts maxpts epsabs epsrel key nw ->
  dchhre (Z.of_nat (length a)) (Z.of_nat numfun) a b minpts maxpts epsabs epsrel key nw 0 = (0%Z, rule_cost (length a) key) /\ kok (length a) (rule_used (length a) key) /\ length b = length a /\
  maxsub_of (rule_cost (length a) key) maxpts = ((maxpts - rule_cost (length a) key) / (2 * rule_cost (length a) key) + 1)%Z.
Proof.
  intros numfun a b minpts maxpts epsabs epsrel key nw (Hn & Hf & Hab & Hk & Hm & Hmm & He & Hw). set (n := length a) in *. assert (C := cost_pos n key ltac:(lia)).
  assert (MX : maxsub_of (rule_cost n key) maxpts = ((maxpts - rule_cost n key) / (2 * rule_cost n key) + 1)%Z) by (unfold maxsub_of; rewrite Z.quot_div_nonneg by lia; reflexivity).
  assert (Lb : length b = n). { unfold n. clear -Hab. induction Hab as [|x y a b _ _ IH]; [reflexivity|]. cbn [length]. now rewrite IH. }
  split; [|split; [now apply used_ok|split; [exact Lb|exact MX]]].
  unfold dchhre. fold (keyf_of (Z.of_nat n) key). rewrite used_is. unfold key_ok in Hk.
  assert (K1 : (key <? 0)%Z || (4 <? key)%Z = false) by (apply orb_false_iff; rewrite !Z.ltb_ge; lia). rewrite K1.
  assert (K2 : (Z.of_nat n <? 2)%Z || (15 <? Z.of_nat n)%Z = false) by (apply orb_false_iff; rewrite !Z.ltb_ge; lia). rewrite K2.
  assert (K3 : (key =? 1)%Z && negb (Z.of_nat n =? 2)%Z = false) by (destruct (Z.eqb_spec key 1); [|reflexivity]; destruct (Z.eqb_spec (Z.of_nat n) 2); [reflexivity|lia]).
  assert (K4 : (key =? 2)%Z && negb (Z.of_nat n =? 3)%Z = false) by (destruct (Z.eqb_spec key 2); [|reflexivity]; destruct (Z.eqb_spec (Z.of_nat n) 3); [reflexivity|lia]). rewrite K3, K4. cbv zeta.
  rewrite cost_is by lia. set (N := rule_cost n key) in *.
  destruct (Z.ltb_spec (Z.of_nat numfun) 1); [lia|].
  assert (AB : existsb (fun ab => Reqb (fst ab - snd ab) 0) (combine a b) = false).
  { clear -Hab. induction Hab as [|x y a b Hxy _ IH]; [reflexivity|]. cbn [combine existsb fst snd]. rewrite IH, orb_false_r. destruct (Reqb (x - y) 0) eqn:Q; [|reflexivity]. apply Reqb_spec in Q. exfalso. apply Hxy. lra. }
  rewrite AB. destruct (Z.ltb_spec maxpts (3 * N)); [lia|]. destruct (Z.ltb_spec maxpts minpts); [lia|].
  assert (EE : Rltb epsabs 0 && Rltb epsrel 0 = false). { apply andb_false_iff. destruct He as [He|He]; [left|right]; [destruct (Rltb epsabs 0) eqn:Q|destruct (Rltb epsrel 0) eqn:Q]; try reflexivity; apply Rltb_spec in Q; lra. }
  rewrite EE. fold (maxsub_of N maxpts). rewrite MX. unfold work_needed in Hw. fold N in Hw. destruct (Z.ltb_spec nw (((maxpts - N) / (2 * N) + 1) * (2 * Z.of_nat n + 2 * Z.of_nat numfun + 2) + 17 * 1 * Z.of_nat numfun + 1)); [lia|]. reflexivity.
Qed.

(** MINSUB and MAXSUB *)
Lemma minsub_le : forall N minpts k, (1 <= N)%Z -> (2 <= k)%Z -> (minsub_of N minpts <= k <-> minpts <= N * (2 * k - 1))%Z.
Proof.
  intros N minpts k HN Hk. unfold minsub_of. cbv zeta. assert (Q := Z.quot_rem' (minpts - N) (2 * N)). assert (B := Z.rem_bound_abs (minpts - N) (2 * N) ltac:(lia)). assert (S := Z.rem_sign_mul (minpts - N) (2 * N) ltac:(lia)).
  set (q := Z.quot (minpts - N) (2 * N)) in *. set (r := Z.rem (minpts - N) (2 * N)) in *. rewrite Z.abs_lt in B. rewrite (Z.abs_eq (2 * N)) in B by lia.
  rewrite Z.max_lub_iff. destruct (Z.eqb_spec r 0) as [R0|R0].
  - split; [intros [_ H]; nia|intros H; split; [exact Hk|nia]].
  - split; [intros [_ H]; nia|intros H; split; [exact Hk|]]. destruct (Z_lt_le_dec r 0) as [L|L]; [|nia]. assert (minpts - N <= 0)%Z by nia. assert (q <= 0)%Z by nia. lia.
Qed.

Definition ruled_by (f : list R -> vec) (n numfun : nat) (t : table) (c h : list R) (v e : vec) (d : nat) : Prop := exists g, drlhre f n numfun t c h (t_g t) = Ok (v, e, d, g).

Lemma run_ok : forall f f2 numfun a b minpts maxpts epsabs epsrel key nw junk result, acceptable numfun a b minpts maxpts epsabs epsrel key nw ->
  (forall x, in_box (centre_of a b) (half_between a b) x -> f2 x = f x) ->
  exists v e neval ifail rs, dcuhre f numfun a b minpts maxpts epsabs epsrel key nw 0 junk result = Ok (v, e, neval, ifail) /\ dcuhre f2 numfun a b minpts maxpts epsabs epsrel key nw 0 junk result = Ok (v, e, neval, ifail) /\
    dinhre (length a) (rule_used (length a) key) = Ok (table_of (length a) (rule_used (length a) key)) /\
    pieces numfun (ruled f (length a) numfun (table_of (length a) (rule_used (length a) key))) (centre_of a b) (half_between a b) rs /\
    (forall j, v j = orientation a b * sum_of (fun r => p_val r j) rs) /\ (forall j, e j = sum_of (fun r => p_err r j) rs) /\
    neval = (rule_cost (length a) key * (2 * Z.of_nat (length rs) - 1))%Z /\ (2 <= length rs)%nat /\ (neval <= maxpts)%Z /\
    ((ifail = 0%Z /\ (minpts <= neval)%Z /\ forall j, (1 <= j <= numfun)%nat -> accurate epsabs epsrel (v j) (e j)) \/
     (ifail = 1%Z /\ (maxpts < neval + 2 * rule_cost (length a) key)%Z /\ ((minpts <= neval)%Z -> ~ forall j, (1 <= j <= numfun)%nat -> accurate epsabs epsrel (v j) (e j)))).
Proof.
  intros f f2 numfun a b minpts maxpts epsabs epsrel key nw junk result A Ag. destruct (accepted _ _ _ _ _ _ _ _ _ A) as (CH & KF & Lb & MX). destruct A as (Hn & Hf & Hab & Hk & Hm & Hmm & He & Hw).
  unfold dcuhre. rewrite CH. cbn [Z.eqb negb]. rewrite used_is. set (n := length a) in *. set (keyf := rule_used n key) in *. assert (DI := dinhre_ok n keyf ltac:(lia) KF). rewrite DI. set (t := table_of n keyf) in *.
  destruct (ec_ok n keyf ltac:(lia) KF) as (_ & _ & EC5 & EC6).
  assert (C := cost_pos n key ltac:(lia)). set (N := rule_cost n key) in *. set (mx := maxsub_of N maxpts) in *.
  assert (M2 : (2 <= mx)%Z) by (rewrite MX; assert (1 <= (maxpts - N) / (2 * N))%Z by (apply Z.div_le_lower_bound; lia); lia).
  assert (M3 : (N * (2 * mx - 1) <= maxpts < N * (2 * mx - 1) + 2 * N)%Z).
  { rewrite MX. assert (X := Z.div_mod (maxpts - N) (2 * N) ltac:(lia)). assert (Y := Z.mod_pos_bound (maxpts - N) (2 * N) ltac:(lia)). set (q := ((maxpts - N) / (2 * N))%Z) in *. set (r := ((maxpts - N) mod (2 * N))%Z) in *. clearbody q r. nia. }
  destruct (boxes_len a b Lb) as [Lc Lh].
  destruct (dadhre_ok f n numfun t N (rule_ok' f n numfun keyf ltac:(lia) KF) f2 (within (centre_of a b) (half_between a b)) (within_half (centre_of a b) (half_between a b)) (fun c h Lc Lh P W => same_rule f f2 n numfun keyf c h ltac:(lia) KF Lc Lh P (fun x Hx => Ag x (W x Hx))) EC5 EC6 a b (minsub_of N minpts) mx epsabs epsrel junk eq_refl Lb ltac:(lia) (fun x Hx => Hx)) as (o & rs & -> & -> & P & Len & Hv & Hee & Hne & Hle & Hd).
  exists (o_result o), (o_abserr o), (o_neval o), (o_ifail o), rs. split; [reflexivity|]. split; [reflexivity|]. split; [reflexivity|]. split; [exact P|]. split; [exact Hv|]. split; [exact Hee|]. rewrite Len. split; [exact Hne|].
  assert (N2 : (2 <= o_nsub o)%nat) by (destruct Hd as [(_ & _ & X & _)|(_ & X & _)]; lia). split; [exact N2|].
  assert (ML := minsub_le N minpts (Z.of_nat (o_nsub o)) C ltac:(lia)). rewrite <- Hne in ML.
  split; [rewrite Hne; nia|]. destruct Hd as [(D1 & D2 & D3 & D4)|(D1 & D2 & D3)]; [left|right].
  - split; [exact D1|]. split; [now apply ML|exact D4].
  - split; [exact D1|]. split; [rewrite Hne, D2; lia|]. intros Q. apply D3; [lia|]. rewrite <- D2. now apply ML.
Qed.

(** Values inside the box are all that matters *)
Lemma inside_same : forall f f2 numfun a b minpts maxpts epsabs epsrel key nw restar junk result, length b = length a ->
  (forall x, in_box (centre_of a b) (half_between a b) x -> f2 x = f x) ->
  dcuhre f2 numfun a b minpts maxpts epsabs epsrel key nw restar junk result = dcuhre f numfun a b minpts maxpts epsabs epsrel key nw restar junk result.
Proof.
  intros f f2 numfun a b minpts maxpts epsabs epsrel key nw restar junk result Lb Ag. unfold dcuhre.
  destruct (dchhre (Z.of_nat (length a)) (Z.of_nat numfun) a b minpts maxpts epsabs epsrel key nw restar) as [ifail num] eqn:CH. destruct (Z.eqb_spec ifail 0) as [->|]; cbn [negb]; [|reflexivity]. destruct (restar =? 1)%Z; [reflexivity|].
  set (n := length a) in *.
  assert (B : (2 <= n)%nat /\ (3 * num <= maxpts)%Z /\ kok n (rule_used n key) /\ (1 <= num)%Z).
  { unfold dchhre in CH. fold (keyf_of (Z.of_nat n) key) in CH. rewrite used_is in CH. destruct ((key <? 0)%Z || (4 <? key)%Z) eqn:D0; [discriminate|]. apply orb_false_iff in D0 as [D3 D4]. apply Z.ltb_ge in D3, D4.
    destruct ((Z.of_nat n <? 2)%Z || (15 <? Z.of_nat n)%Z) eqn:D; [discriminate|]. apply orb_false_iff in D as [D1 D2]. apply Z.ltb_ge in D1, D2.
    destruct ((key =? 1)%Z && negb (Z.of_nat n =? 2)%Z) eqn:D5; [discriminate|]. destruct ((key =? 2)%Z && negb (Z.of_nat n =? 3)%Z) eqn:D6; [discriminate|]. cbv zeta in CH. rewrite cost_is in CH by lia. set (N := rule_cost n key) in CH. assert (HN : (1 <= N)%Z) by (apply cost_pos; lia).
    destruct (_ <? 1)%Z; [discriminate|]. destruct (existsb _ _); [discriminate|]. destruct (Z.ltb_spec maxpts (3 * N)); [discriminate|]. destruct (maxpts <? minpts)%Z; [discriminate|]. destruct (Rltb _ _ && _); [discriminate|]. destruct (nw <? _)%Z; [discriminate|]. destruct (negb _ && _); [discriminate|].
    injection CH as <-. split; [lia|]. split; [assumption|]. split; [|exact HN]. apply used_ok. unfold key_ok.
    destruct (Z.eqb_spec key 1); [destruct (Z.eqb_spec (Z.of_nat n) 2); [right; right; right; left; lia|discriminate]|]. destruct (Z.eqb_spec key 2); [destruct (Z.eqb_spec (Z.of_nat n) 3); [right; right; right; right; lia|discriminate]|]. lia. }
  destruct B as (B1 & B2 & K & B3). rewrite used_is. set (keyf := rule_used n key) in *. rewrite (dinhre_ok n keyf B1 K). destruct (ec_ok n keyf B1 K) as (_ & _ & EC5 & EC6).
  assert (MX : (1 <= maxsub_of num maxpts)%Z) by (unfold maxsub_of; rewrite Z.quot_div_nonneg by lia; assert (0 <= (maxpts - num) / (2 * num))%Z by (apply Z.div_pos; lia); lia).
  destruct (dadhre_ok f n numfun (table_of n keyf) num (rule_ok' f n numfun keyf B1 K) f2 (within (centre_of a b) (half_between a b)) (within_half (centre_of a b) (half_between a b)) (fun c h Lc Lh P W => same_rule f f2 n numfun keyf c h B1 K Lc Lh P (fun x Hx => Ag x (W x Hx))) EC5 EC6 a b (minsub_of num minpts) (maxsub_of num maxpts) epsabs epsrel junk eq_refl Lb MX (fun x Hx => Hx)) as (o & rs & -> & -> & _); reflexivity.
Qed.

(** The sum over the pieces of what is additive *)
Section Sum.
Variables (f : list R -> vec) (n numfun : nat) (keyf : Z).
Hypothesis n2 : (2 <= n)%nat.
Hypothesis K : kok n keyf.
Let t := table_of n keyf.
Lemma ruled_is : forall c h v e d, length c = n -> length h = n -> ruled f n numfun t c h v e d -> (1 <= d <= n)%nat /\ v = V n keyf f c h /\ e = E n keyf f c h.
Proof.
  intros c h v e d Lc Lh (g & Q). destruct (rule_of f n numfun keyf n2 K c h Lc Lh) as (d' & Q' & D). fold t in Q'. rewrite Q' in Q. injection Q as <- <- <- _. auto.
Qed.
Section Box.
Variables c0 h0 : list R.
Hypothesis c0_len : length c0 = n.
Hypothesis h0_len : length h0 = n.
Hypothesis h0_pos : forall x, In x h0 -> 0 <= x.
Definition right (r : piece) : Prop := length (p_centre r) = n /\ length (p_half r) = n /\ (1 <= p_axis r <= n)%nat /\ p_val r = V n keyf f (p_centre r) (p_half r) /\ (forall x, In x (p_half r) -> 0 <= x) /\ below (p_centre r) (p_half r) c0 h0.
Lemma pieces_right : forall rs, pieces numfun (ruled f n numfun t) c0 h0 rs -> forall r, In r rs -> right r.
Proof.
  intros rs P. induction P as [r Ec Eh Ru|rs r rest r1 r2 rs' P IH PM W (C1 & H1 & C2 & H2 & e1 & e2 & R1 & R2 & _) PM'].
  - intros q [<-|[]]. destruct (ruled_is _ _ _ _ _ c0_len h0_len Ru) as (D & Ev & _). unfold right. rewrite Ec, Eh. repeat split; try assumption; try lia. apply bigs_refl.
  - assert (Rr : right r) by (apply IH; apply (Permutation_in r (Permutation_sym PM)); now left). destruct Rr as (Lrc & Lrh & Ax & _ & Pos & Bl).
    assert (LC1 : length (p_centre r1) = n) by (rewrite C1; unfold low_centre; now rewrite along_len). assert (LH1 : length (p_half r1) = n) by (rewrite H1; unfold half_half; now rewrite along_len).
    assert (LC2 : length (p_centre r2) = n) by (rewrite C2; unfold high_centre; now rewrite along_len). assert (LH2 : length (p_half r2) = n) by (rewrite H2; unfold half_half; now rewrite along_len).
    destruct (ruled_is _ _ _ _ _ LC1 LH1 R1) as (D1 & E1 & _). destruct (ruled_is _ _ _ _ _ LC2 LH2 R2) as (D2 & E2 & _).
    assert (Pos' := half_nonneg (p_axis r) _ Pos). destruct (below_halves (p_axis r) (p_centre r) (p_half r) c0 h0 ltac:(lia) ltac:(lia) Bl) as [B1 B2].
    intros q Hq. apply (Permutation_in q PM') in Hq as [<-|[<-|Hq]]; [|..]; [..|apply IH; apply (Permutation_in q (Permutation_sym PM)); now right].
    + unfold right. rewrite <- C1, <- H1 in B1. rewrite <- H1 in Pos'. repeat split; try assumption; lia.
    + unfold right. rewrite <- C2, <- H2 in B2. rewrite <- H2 in Pos'. repeat split; try assumption; lia.
Qed.
Lemma pieces_sum : forall mu rs, additive mu -> pieces numfun (ruled f n numfun t) c0 h0 rs -> sum_of (fun r => mu (p_centre r) (p_half r)) rs = mu c0 h0.
Proof.
  intros mu rs A P. induction P as [r Ec Eh Ru|rs r rest r1 r2 rs' P IH PM W (C1 & H1 & C2 & H2 & _) PM'].
  - unfold sum_of. cbn [map fold_right]. rewrite Ec, Eh. ring.
  - assert (Rr : right r) by (apply (pieces_right rs P); apply (Permutation_in r (Permutation_sym PM)); now left). destruct Rr as (Lrc & Lrh & Ax & _).
    rewrite (sum_of_perm _ _ _ PM') . rewrite (sum_of_perm _ _ _ PM) in IH. unfold sum_of in *. cbn [map fold_right] in *. rewrite C1, H1, C2, H2. rewrite (A (p_axis r)) in IH by lia. lra.
Qed.
End Box.

(** Polynomials *)
Section Poly.
Variables (p : list (R * list nat)) (j : nat).
Hypothesis f_poly : forall x, length x = n -> f x j = poly p x.
Hypothesis p_len : forall a ks, In (a, ks) p -> length ks = n.
Definition amount (c h : list R) : R := if Nat.eqb (length c) n then sumc p (fun ks => parts1 ks c h) else 0.
Lemma amount_additive : additive amount.
Proof.
  intros a c h Ha Lh. unfold amount. unfold low_centre at 1, high_centre at 1. rewrite !along_len. destruct (Nat.eqb_spec (length c) n) as [E|]; [|ring]. clear f_poly. unfold sumc.
  induction p as [|[q ks] p' IH]; cbn [map fold_right fst snd]; [ring|]. rewrite IH by (intros c' ks' Hin; apply (p_len c'); now right).
  rewrite (parts1_additive ks a c h) by (rewrite ?(p_len q ks (or_introl eq_refl)); congruence || lia). ring.
Qed.
Lemma amount_whole : forall a b, length a = n -> length b = n -> orientation a b * amount (centre_of a b) (half_between a b) = integral a b (poly p).
Proof.
  intros a b La Lb. unfold amount. destruct (boxes_len a b ltac:(congruence)) as [Lc _]. rewrite Lc, La, Nat.eqb_refl. rewrite integral_poly by (congruence || (intros c ks Hin; rewrite La; now apply (p_len c))).
  assert (S1 : forall ks a b, length b = length a -> length ks = length a -> orientation a b * parts1 ks (centre_of a b) (half_between a b) = spans ks a b).
  { clear. induction ks as [|k ks IH]; intros [|x a] [|y b] L1 L2; try discriminate; [cbn; ring|]. unfold centre_of, half_between in *. cbn [combine map fst snd parts1 spans orientation]. rewrite <- (IH a b) by (cbn in *; lia). unfold part1, span.
    assert (NZ : INR (S k) <> 0) by (apply not_0_INR; lia).
    destruct (Rlt_dec y x) as [L|L].
    - rewrite (Rabs_left (y - x)) by lra. replace ((x + y) / 2 + - (y - x) / 2) with x by field. replace ((x + y) / 2 - - (y - x) / 2) with y by field. field. exact NZ.
    - rewrite (Rabs_right (y - x)) by lra. replace ((x + y) / 2 + (y - x) / 2) with y by field. replace ((x + y) / 2 - (y - x) / 2) with x by field. field. exact NZ. }
  clear f_poly. unfold sumc. induction p as [|[q ks] p' IH]; cbn [map fold_right fst snd]; [ring|]. rewrite <- IH by (intros c' ks' Hin; apply (p_len c'); now right).
  rewrite <- (S1 ks a b) by (rewrite ?(p_len q ks (or_introl eq_refl)); congruence). ring.
Qed.
End Poly.
Definition one : list (R * list nat) := [(1, repeat O n)].
Lemma one_len : forall a ks, In (a, ks) one -> length ks = n.
Proof. intros a ks [E|[]]. injection E as <- <-. apply repeat_length. Qed.
Definition vol (c h : list R) : R := amount one c h.
Lemma parts1_zero : forall c h, length h = length c -> parts1 (repeat O (length c)) c h = 2 ^ length c * prodl h.
Proof. induction c as [|x c IH]; intros [|y h] L; try discriminate; [cbn; ring|]. cbn [length repeat parts1 prodl pow] in *. rewrite IH by lia. unfold part1. cbn [INR pow]. field. Qed.
Lemma vol_is : forall c h, length c = n -> length h = n -> vol c h = 2 ^ n * prodl h.
Proof. intros c h Lc Lh. unfold vol, amount, one, sumc. rewrite Lc, Nat.eqb_refl. cbn [map fold_right fst snd]. rewrite <- Lc at 1. rewrite parts1_zero by congruence. rewrite Lc. ring. Qed.
Lemma vol_additive : additive vol.
Proof. exact (amount_additive one one_len). Qed.
Lemma vol_pos : forall c h, length c = n -> length h = n -> (forall x, In x h -> 0 <= x) -> 0 <= vol c h.
Proof. intros c h Lc Lh P. rewrite vol_is by assumption. apply Rmult_le_pos; [apply pow_le; lra|now apply prodl_pos]. Qed.
Lemma vtol_pos : 0 <= vtol keyf /\ 3 * vtol keyf <= etol keyf.
Proof. unfold vtol, etol. destruct (keyf =? 1)%Z; [lra|]. destruct (keyf =? 2)%Z; lra. Qed.
Lemma two_level_le : forall v0 v v' e e', 0 <= e -> 0 <= e' -> two_level v0 v v' e e' <= e + 3 / 4 * Rabs (v0 - (v + v')).
Proof.
  intros v0 v v' e e' H H'. unfold two_level. cbv zeta. assert (D := Rabs_pos (v0 - (v + v'))). set (d := Rabs _) in *. destruct (Rlt_dec 0 (e + e')) as [L|L]; [|lra].
  assert (e * (d / (2 * (e + e'))) <= d / 2); [|lra]. apply (Rmult_le_reg_r (2 * (e + e'))); [lra|]. replace (e * (d / (2 * (e + e'))) * (2 * (e + e'))) with (e * d) by (field; lra). replace (d / 2 * (2 * (e + e'))) with (e * d + e' * d) by field. assert (0 <= e' * d) by (now apply Rmult_le_pos). lra.
Qed.
Lemma sum_bound : forall (g m : piece -> R) rs, (forall r, In r rs -> g r <= m r) -> sum_of g rs <= sum_of m rs.
Proof. intros g m rs H. unfold sum_of. induction rs as [|r rs IH]; cbn [map fold_right]; [lra|]. assert (A := H r (or_introl eq_refl)). assert (B := IH (fun q Hq => H q (or_intror Hq))). lra. Qed.
Lemma sum_abs : forall (g g' m : piece -> R) rs, (forall r, In r rs -> Rabs (g r - g' r) <= m r) -> Rabs (sum_of g rs - sum_of g' rs) <= sum_of m rs.
Proof.
  intros g g' m rs H. unfold sum_of. induction rs as [|r rs IH]; cbn [map fold_right]; [rewrite Rminus_0_r, Rabs_R0; lra|]. assert (A := H r (or_introl eq_refl)). assert (B := IH (fun q Hq => H q (or_intror Hq))).
  set (x := fold_right Rplus 0 (map g rs)) in *. set (y := fold_right Rplus 0 (map g' rs)) in *. replace (g r + x - (g' r + y)) with (g r - g' r + (x - y)) by ring. eapply Rle_trans; [apply Rabs_triang|]. lra.
Qed.
Lemma sum_scal : forall (g : piece -> R) k rs, sum_of (fun r => g r * k) rs = sum_of g rs * k.
Proof. intros g k rs. unfold sum_of. induction rs as [|r rs IH]; cbn [map fold_right]; [ring|]. rewrite IH. ring. Qed.

Lemma errors_pos : forall c0 h0, length c0 = n -> length h0 = n -> (forall x, In x h0 -> 0 <= x) -> forall rs, pieces numfun (ruled f n numfun t) c0 h0 rs -> forall j r, In r rs -> 0 <= p_err r j.
Proof.
  intros c0 h0 Lc Lh H0 rs P j. induction P as [r Ec Eh Ru|rs r rest r1 r2 rs' P IH PM W HV PM'].
  - intros q [<-|[]]. destruct (ruled_is _ _ _ _ _ Lc Lh Ru) as (_ & _ & ->). now apply E_pos.
  - assert (P' : pieces numfun (ruled f n numfun t) c0 h0 rs') by (eapply pieces_step; eassumption). assert (PR' := pieces_right c0 h0 Lc Lh H0 rs' P').
    destruct (PR' r1 ltac:(apply (Permutation_in r1 (Permutation_sym PM')); now left)) as (L11 & L12 & _ & _ & Po1 & _). destruct (PR' r2 ltac:(apply (Permutation_in r2 (Permutation_sym PM')); right; now left)) as (L21 & L22 & _ & _ & Po2 & _).
    destruct HV as (_ & _ & _ & _ & e1 & e2 & R1 & R2 & T2 & T3). destruct (ruled_is _ _ _ _ _ L11 L12 R1) as (_ & _ & EE1). destruct (ruled_is _ _ _ _ _ L21 L22 R2) as (_ & _ & EE2).
    assert (Q1 : 0 <= e1 j) by (rewrite EE1; now apply E_pos). assert (Q2 : 0 <= e2 j) by (rewrite EE2; now apply E_pos).
    intros q Hq. apply (Permutation_in q PM') in Hq as [<-|[<-|Hq]]; [rewrite T2; now apply two_level_pos|rewrite T3; now apply two_level_pos|]. apply IH. apply (Permutation_in q (Permutation_sym PM)). now right.
Qed.
Section Near.
Variables (p : list (R * list nat)) (j : nat).
Hypothesis f_poly : forall x, length x = n -> f x j = poly p x.
Variables c0 h0 : list R.
Hypothesis c0_len : length c0 = n.
Hypothesis h0_len : length h0 = n.
Hypothesis h0_pos : forall x, In x h0 -> 0 <= x.
Let B (c h : list R) : R := vol c h * size p c0 h0.
Lemma B_size : forall c h, length c = n -> length h = n -> (forall x, In x h -> 0 <= x) -> below c h c0 h0 -> 2 ^ n * prodl h * size p c h <= B c h.
Proof. intros c h Lc Lh P Bl. unfold B. rewrite <- (vol_is c h Lc Lh). apply Rmult_le_compat_l; [now apply vol_pos|]. apply (size_le p c h c0 h0 Bl). Qed.
Lemma piece_near : of_degree (deg keyf) n p -> forall c h, length c = n -> length h = n -> (forall x, In x h -> 0 <= x) -> below c h c0 h0 -> Rabs (V n keyf f c h j - amount p c h) <= vtol keyf * B c h.
Proof.
  intros D c h Lc Lh P Bl. assert (N := V_near n keyf n2 K f p c h j f_poly D Lc Lh P). unfold amount. rewrite Lc, Nat.eqb_refl. eapply Rle_trans; [exact N|]. apply Rmult_le_compat_l; [apply vtol_pos|now apply B_size].
Qed.
Lemma pieces_near : forall rs, of_degree (deg keyf) n p -> pieces numfun (ruled f n numfun t) c0 h0 rs -> Rabs (sum_of (fun r => p_val r j) rs - amount p c0 h0) <= vtol keyf * B c0 h0.
Proof.
  intros rs D P. assert (PR := pieces_right c0 h0 c0_len h0_len h0_pos rs P). rewrite <- (pieces_sum c0 h0 c0_len h0_len h0_pos (amount p) rs (amount_additive p (fun a ks Hin => proj1 (D a ks Hin))) P).
  assert (S := pieces_sum c0 h0 c0_len h0_len h0_pos vol rs vol_additive P). unfold B. rewrite <- S.
  replace (vtol keyf * (sum_of (fun r => vol (p_centre r) (p_half r)) rs * size p c0 h0)) with (sum_of (fun r => vol (p_centre r) (p_half r) * (vtol keyf * size p c0 h0)) rs) by (rewrite sum_scal; ring).
  apply sum_abs. intros r Hr. destruct (PR r Hr) as (L1 & L2 & _ & -> & Pos & Bl). assert (N := piece_near D _ _ L1 L2 Pos Bl). unfold B in N. lra.
Qed.
Lemma pieces_small : of_degree (ndeg keyf) n p -> of_degree (deg keyf) n p -> forall rs, pieces numfun (ruled f n numfun t) c0 h0 rs -> forall r, In r rs -> p_err r j <= etol keyf * B (p_centre r) (p_half r).
Proof.
  intros D D' rs P. destruct vtol_pos as [T0 T1].
  assert (EB : forall c h, length c = n -> length h = n -> (forall x, In x h -> 0 <= x) -> below c h c0 h0 -> E n keyf f c h j + 3 * (vtol keyf * B c h) <= etol keyf * B c h).
  { intros c h Lc Lh Ph Bl. assert (N := E_near n keyf n2 K f p c h j f_poly D Lc Lh Ph). assert (X := B_size c h Lc Lh Ph Bl). set (y := 2 ^ n * prodl h * size p c h) in *. assert (0 <= (etol keyf - 3 * vtol keyf) * (B c h - y)) by (apply Rmult_le_pos; lra). lra. }
  assert (BP : forall c h, length c = n -> length h = n -> (forall x, In x h -> 0 <= x) -> 0 <= B c h) by (intros c h Lc Lh Ph; unfold B; apply Rmult_le_pos; [now apply vol_pos|apply size_pos]).
  induction P as [r Ec Eh Ru|rs r rest r1 r2 rs' P IH PM W HV PM'].
  - intros q [<-|[]]. destruct (ruled_is _ _ _ _ _ c0_len h0_len Ru) as (_ & _ & ->). rewrite Ec, Eh. assert (X := EB c0 h0 c0_len h0_len h0_pos (bigs_refl c0 h0)). assert (Y := BP c0 h0 c0_len h0_len h0_pos). assert (0 <= vtol keyf * B c0 h0) by (now apply Rmult_le_pos). lra.
  - assert (PR := pieces_right c0 h0 c0_len h0_len h0_pos rs P). assert (P' : pieces numfun (ruled f n numfun t) c0 h0 rs') by (eapply pieces_step; eassumption). assert (PR' := pieces_right c0 h0 c0_len h0_len h0_pos rs' P').
    destruct (PR r ltac:(apply (Permutation_in r (Permutation_sym PM)); now left)) as (L1 & L2 & Ax & EV & Po & Bl). destruct (PR' r1 ltac:(apply (Permutation_in r1 (Permutation_sym PM')); now left)) as (L11 & L12 & _ & EV1 & Po1 & Bl1). destruct (PR' r2 ltac:(apply (Permutation_in r2 (Permutation_sym PM')); right; now left)) as (L21 & L22 & _ & EV2 & Po2 & Bl2).
    destruct HV as (C1 & H1 & C2 & H2 & e1 & e2 & R1 & R2 & T2 & T3).
    destruct (ruled_is _ _ _ _ _ L11 L12 R1) as (_ & _ & EE1). destruct (ruled_is _ _ _ _ _ L21 L22 R2) as (_ & _ & EE2).
    assert (N0 := piece_near D' _ _ L1 L2 Po Bl). assert (N1 := piece_near D' _ _ L11 L12 Po1 Bl1). assert (N2 := piece_near D' _ _ L21 L22 Po2 Bl2). rewrite <- EV in N0. rewrite <- EV1 in N1. rewrite <- EV2 in N2.
    assert (A := amount_additive p (fun a ks Hin => proj1 (D a ks Hin)) (p_axis r) (p_centre r) (p_half r) ltac:(lia) ltac:(lia)). assert (AV := vol_additive (p_axis r) (p_centre r) (p_half r) ltac:(lia) ltac:(lia)). rewrite <- C1, <- C2, <- H1 in A, AV. assert (HH : p_half r1 = p_half r2) by congruence. assert (A' : amount p (p_centre r) (p_half r) = amount p (p_centre r1) (p_half r1) + amount p (p_centre r2) (p_half r2)) by (rewrite <- HH; exact A). assert (AV' : vol (p_centre r) (p_half r) = vol (p_centre r1) (p_half r1) + vol (p_centre r2) (p_half r2)) by (rewrite <- HH; exact AV).
    assert (VE : vol (p_centre r1) (p_half r1) = vol (p_centre r2) (p_half r2)) by (rewrite !vol_is by assumption; now rewrite H1, H2).
    assert (BE : B (p_centre r) (p_half r) = 2 * B (p_centre r1) (p_half r1) /\ B (p_centre r2) (p_half r2) = B (p_centre r1) (p_half r1)) by (unfold B; rewrite AV', <- VE; split; ring). destruct BE as [BE1 BE2]. rewrite BE1 in N0. rewrite BE2 in N2.
    assert (X1 := EB _ _ L11 L12 Po1 Bl1). assert (X2 := EB _ _ L21 L22 Po2 Bl2). rewrite BE2 in X2. set (b := B (p_centre r1) (p_half r1)) in *. rewrite <- EE1 in X1. rewrite <- EE2 in X2.
    assert (Q1 : 0 <= e1 j) by (rewrite EE1; now apply E_pos). assert (Q2 : 0 <= e2 j) by (rewrite EE2; now apply E_pos).
    assert (DD : Rabs (p_val r j - (p_val r1 j + p_val r2 j)) <= 4 * (vtol keyf * b)).
    { replace (p_val r j - (p_val r1 j + p_val r2 j)) with (p_val r j - amount p (p_centre r) (p_half r) + (- (p_val r1 j - amount p (p_centre r1) (p_half r1)) + - (p_val r2 j - amount p (p_centre r2) (p_half r2)))) by (rewrite A'; ring).
      eapply Rle_trans; [apply Rabs_triang|]. assert (Y := Rabs_triang (- (p_val r1 j - amount p (p_centre r1) (p_half r1))) (- (p_val r2 j - amount p (p_centre r2) (p_half r2)))). rewrite !Rabs_Ropp in Y. lra. }
    intros q Hq. apply (Permutation_in q PM') in Hq as [<-|[<-|Hq]].
    + fold b. rewrite T2. eapply Rle_trans; [now apply two_level_le|]. lra.
    + rewrite BE2. rewrite T3. eapply Rle_trans; [now apply two_level_le|]. rewrite (Rplus_comm (p_val r2 j)). lra.
    + apply IH. apply (Permutation_in q (Permutation_sym PM)). now right.
Qed.
Lemma errors_small : of_degree (ndeg keyf) n p -> forall rs, pieces numfun (ruled f n numfun t) c0 h0 rs -> sum_of (fun r => p_err r j) rs <= etol keyf * B c0 h0.
Proof.
  intros D rs P. assert (D' : of_degree (deg keyf) n p) by (intros q ks Hin; destruct (D q ks Hin); split; [assumption|]; unfold deg, ndeg in *; destruct (keyf =? 1)%Z; [lia|]; destruct (keyf =? 2)%Z; [lia|]; destruct (keyf =? 3)%Z; lia).
  assert (S := pieces_sum c0 h0 c0_len h0_len h0_pos vol rs vol_additive P). unfold B. rewrite <- S.
  replace (etol keyf * (sum_of (fun r => vol (p_centre r) (p_half r)) rs * size p c0 h0)) with (sum_of (fun r => vol (p_centre r) (p_half r) * (etol keyf * size p c0 h0)) rs) by (rewrite sum_scal; ring).
  apply sum_bound. intros r Hr. assert (X := pieces_small D D' rs P r Hr). unfold B in X. lra.
Qed.
End Near.
End Sum.

(** Worked cases for the sampling code. *)

From Coq Require Import ZArith String List Bool Arith Reals Lia Lra Sorting.Sorted Sorting.Permutation.
From Coquelicot Require Import Coquelicot.
From Verif Require Import Exn Instances CountSpec CountLemmas McModel McSpec McLemmas McLemmas2 McLemmas4 McLemmas5 McLemmas6 McLemmas9 McLemmas10 McLemmas11.
From Verif Require RefCases.
Import ListNotations.
Open Scope R_scope.

(** ** An argsort *)

Fixpoint place_in (w : list R) (i : nat) (l : list nat) : list nat :=
  match l with [] => [i] | j :: l' => if Rleb (nth i w 0) (nth j w 0) then i :: l else j :: place_in w i l' end.
Definition asort (w : list R) : list nat := fold_right (place_in w) [] (seq 0 (length w)).
Lemma place_perm : forall w i l, Permutation (place_in w i l) (i :: l).
Proof.
  intros w i. induction l as [|j l IH]; cbn [place_in]; [reflexivity|]. destruct (Rleb _ _); [reflexivity|]. rewrite IH. apply perm_swap.
Qed.
Lemma place_sorted : forall w i l, Sorted (fun i j => nth i w 0 <= nth j w 0) l -> Sorted (fun i j => nth i w 0 <= nth j w 0) (place_in w i l).
Proof.
  intros w i. induction l as [|j l IH]; intros S; cbn [place_in]; [repeat constructor|]. destruct (Rleb (nth i w 0) (nth j w 0)) eqn:E.
  - constructor; [exact S|]. constructor. now apply Rleb_spec.
  - apply Rleb_false in E. inversion S as [|? ? S1 S2]; subst. constructor; [now apply IH|]. destruct l as [|k l]; cbn [place_in]; [constructor; lra|].
    destruct (Rleb _ _); constructor; [lra|]. now inversion S2.
Qed.
Lemma asort_sorts : sorts asort.
Proof.
  intros w. unfold asort. generalize (seq 0 (length w)). intros l. induction l as [|i l [P S]]; cbn [fold_right]; [split; constructor|].
  split; [rewrite place_perm; now constructor|now apply place_sorted].
Qed.

(** ** A state and a generator *)

Definition g0 : rk := Rk (repeat 0%Z 624) 0.
Lemma g0_good : good g0.
Proof. split; [apply repeat_length|]. split; [apply Forall_forall; intros x X; apply repeat_spec in X; subst; lia|cbn; lia]. Qed.
Lemma g0_double : exists g1, rk_double g0 = (g1, Ok 0).
Proof.
  assert (E1 : rk_random g0 = (Rk (repeat 0%Z 624) 1, Ok 0%Z)) by (vm_compute; reflexivity).
  assert (E2 : rk_random (Rk (repeat 0%Z 624) 1) = (Rk (repeat 0%Z 624) 2, Ok 0%Z)) by (vm_compute; reflexivity).
  exists (Rk (repeat 0%Z 624) 2). unfold rk_double, bind. rewrite E1, E2. unfold ret. f_equal. f_equal. change (Z.shiftr 0 5) with 0%Z. change (Z.shiftr 0 6) with 0%Z. field.
Qed.
(** Always the same number. *)
Definition still (c : Z) : Z * Z := (c, c).
(** The generator given as an example in the C standard. *)
Definition lcg (c : Z) : Z * Z := let c := ((c * 1103515245 + 12345) mod 2 ^ 32)%Z in (c, ((c / 65536) mod 32768)%Z).
Lemma lcg_below : rand_below lcg 32768.
Proof. intros c. unfold lcg. cbn [snd]. apply Z.mod_pos_bound. lia. Qed.

(** ** Weights *)

Definition w4 : list R := [3; 2; 2; 1].
Lemma w4_ok : weights_ok w4.
Proof. split; [unfold w4; repeat (apply Forall_cons; [lra|]); constructor|unfold sumR, w4; cbn; lra]. Qed.
Lemma w4_strict : List.Forall (fun x => INR 2 * x < sumR w4) w4.
Proof. unfold w4, sumR. cbn [fold_right INR]. repeat (apply Forall_cons; [lra|]). constructor. Qed.
Lemma w4_sorted : in_order asort w4 = [3; 2; 2; 1].
Proof. unfold in_order, order, asort, w4. cbn [length seq fold_right]. do 8 (cbn [place_in nth]; RefCases.rdec). reflexivity. Qed.
Lemma w4_order : order asort w4 = [0; 2; 1; 3]%nat.
Proof. unfold order, asort, w4. cbn [length seq fold_right]. do 8 (cbn [place_in nth]; RefCases.rdec). reflexivity. Qed.
Lemma w4_lams : lams asort w4 2 = [3/2; 1/2; 1/2; 1/6].
Proof. unfold lams. rewrite w4_sorted. unfold lam, w4, sumR. cbn [map fold_right INR]. repeat (apply (f_equal2 cons); [field|]). reflexivity. Qed.
Lemma w4_run : forall p idx c, prepared asort false w4 2 p idx ->
  idx = [0; 2; 1; 3]%Z /\
  snd (samplenr Z still 16 1 p (g0, c)) = match ratio_pick (map Num (cumsum [3/2; 1/2; 1/2; 1/6])) (IZR c / 16) with O => Err OutOfFuel | i => Ok (1%nat, [0%nat; i]) end.
Proof.
  intros p idx c PR. destruct (prepared_is asort asort_sorts w4 w4_ok 2 ltac:(unfold w4; cbn; lia) w4_strict p idx PR) as [RD [-> _]]. rewrite w4_order. split; [reflexivity|].
  red in RD. rewrite w4_lams, w4_sorted in RD. unfold samplenr, samplenr_from. rewrite RD. cbn [f_ratios f_nsamp f_cumwts]. cbn [sampford_loop Nat.sub more_picks].
  destruct g0_double as [g1 G1]. unfold bind, on_rk at 1. cbn [fst]. rewrite G1. unfold crand, still. cbn [fst snd].
  replace (first_pick (cumsum [3; 2; 2; 1]) 0) with 0%nat.
  - destruct (ratio_pick _ _) as [|i]; reflexivity.
  - unfold first_pick, cumsum. cbn [cumsum_from last find_le]. rewrite (proj2 (Rleb_spec _ _)) by lra. reflexivity.
Qed.
Lemma w4_12 : ratio_pick (map Num (cumsum [3/2; 1/2; 1/2; 1/6])) (IZR 12 / 16) = 1%nat.
Proof. unfold ratio_pick, cumsum. cbn [cumsum_from map last xscale find_le xle]. RefCases.rdec. reflexivity. Qed.
Lemma w4_15 : ratio_pick (map Num (cumsum [3/2; 1/2; 1/2; 1/6])) (IZR 15 / 16) = 2%nat.
Proof. unfold ratio_pick, cumsum. cbn [cumsum_from map last xscale find_le xle]. RefCases.rdec. reflexivity. Qed.

(** ** At the limit *)

Definition wlim : list R := [2; 2; 1; 1].
Lemma wlim_ok : weights_ok wlim.
Proof. split; [unfold wlim; repeat (apply Forall_cons; [lra|]); constructor|unfold sumR, wlim; cbn; lra]. Qed.
Lemma wlim_max : forall A (items : list A), max_subset (Popn false items wlim 4 None) = 3%Z.
Proof.
  intros A items. unfold max_subset, rsum, wlim. cbn [o_weights fold_left]. rewrite (Rmax_right 0 2), (Rmax_left 2 2), (Rmax_left 2 1), (Rmax_left 2 1) by lra.
  unfold to_int. RefCases.rdec. apply RefCases.Int_part_eq. simpl. lra.
Qed.
Definition wtwo : list R := [2; 1; 1].
Lemma wtwo_ok : weights_ok wtwo.
Proof. split; [unfold wtwo; repeat (apply Forall_cons; [lra|]); constructor|unfold sumR, wtwo; cbn; lra]. Qed.
Lemma wtwo_max : forall A (items : list A), max_subset (Popn false items wtwo 3 None) = 2%Z.
Proof.
  intros A items. unfold max_subset, rsum, wtwo. cbn [o_weights fold_left]. rewrite (Rmax_right 0 2), (Rmax_left 2 1), (Rmax_left 2 1) by lra.
  unfold to_int. RefCases.rdec. apply RefCases.Int_part_eq. simpl. lra.
Qed.

(** ** Indices of 64 bits read as ints *)

Definition w3 : list R := [1; 3; 2].
Lemma w3_ok : weights_ok w3.
Proof. split; [unfold w3; repeat (apply Forall_cons; [lra|]); constructor|unfold sumR, w3; cbn; lra]. Qed.
Lemma w3_asort : asort w3 = [0; 2; 1]%nat.
Proof. unfold asort, w3. cbn [length seq fold_right]. do 8 (cbn [place_in nth]; RefCases.rdec). reflexivity. Qed.
Lemma w3_prep : forall p0, prepwts asort true p0 w3 =
  Ok (Pps (p_tab p0) (Some (Sampford 3 (cumsum [2; 1; 1]) [2; 0; 0]%nat 0 None)) (p_ratio p0), ([2; 0; 1]%Z, [2; 1; 1], last (cumsum [2; 1; 1]) 0)).
Proof. intros p0. unfold prepwts. rewrite w3_asort. unfold w3. reflexivity. Qed.
Definition l3 : list R := [1; 1/3; 1/3].
Lemma w3_prepared : forall p idx, prepared asort true w3 1 p idx ->
  idx = [2; 0; 1]%Z /\ p_sf p = Some (Sampford 3 (cumsum [2; 1; 1]) [2; 0; 0]%nat 1 (Some (map Num l3, map Num (cumsum l3)))).
Proof.
  intros p idx [p0 [p1 [sorted [tot [cum [_ [E1 E2]]]]]]]. rewrite w3_prep in E1. injection E1 as <- <- <- <-. split; [reflexivity|].
  assert (ER : forall t, t = 4 -> map (ratio 1 t) [2; 1; 1] = map Num l3).
  { intros t ->. cbn [map]. unfold ratio, xdiv. cbn [INR]. RefCases.rdec. unfold l3. cbn [map]. repeat (apply (f_equal2 cons); [apply f_equal; field|]). reflexivity. }
  unfold prepratios in E2. rewrite ER in E2 by (unfold cumsum; cbn [cumsum_from last]; lra). unfold xcumsum in E2. rewrite xcumsum_num in E2. cbn [length Nat.leb p_sf f_npopn Nat.ltb Nat.eqb andb f_cumwts f_indices] in E2. injection E2 as <- _. reflexivity.
Qed.
Lemma w3_ready : exists p idx, prepared asort true w3 1 p idx.
Proof.
  assert (E : exists s, init_sampler5tbl w3 = Some s).
  { unfold init_sampler5tbl. rewrite rsum_is, (proj2 (Rleb_false (sumR w3) 0)) by (destruct w3_ok; lra). eexists. reflexivity. }
  destruct E as [s E]. unfold prepared. eexists. eexists. exists (Pps s None None). eexists. eexists. eexists. eexists.
  split; [unfold new_pps; now rewrite E|]. split; [apply w3_prep|]. reflexivity.
Qed.
Lemma w3_trial : forall p idx t, prepared asort true w3 1 p idx -> (1 <= t)%nat -> mean (t * 1) (fun us => includes idx 1 (trial p t us)) = 1/4.
Proof.
  intros p idx t PR T. destruct (w3_prepared p idx PR) as [-> SF]. 
  rewrite (mean_ext _ _ (fun us => includes [2; 0; 1]%Z 1 (snd (sampford_loop (list R) tape tape (cumsum [2; 1; 1]) (map Num (cumsum l3)) 1 t 0 us)))).
  2: { intros us. unfold trial, samplenr_from. rewrite SF. reflexivity. }
  rewrite (loop_mean [2; 1; 1] l3 1 ltac:(lia) eq_refl) with (pay := fun s => if existsb (Z.eqb (Z.of_nat 1)) (members [2; 0; 1]%Z s) then 1 else 0).
  - destruct t as [|t]; [lia|]. cbn [value]. unfold sum_over. cbn [seq length fold_right map Nat.sub later members existsb nth Z.of_nat Z.eqb Pos.of_succ_nat Pos.eqb orb].
    unfold sumR. cbn [fold_right nth]. field.
  - repeat (apply Forall_cons; [lra|]). constructor.
  - unfold sumR. cbn. lra.
  - unfold l3. repeat (apply Forall_cons; [lra|]). constructor.
  - unfold sumR, l3. cbn. lra.
  - reflexivity.
  - reflexivity.
  - lia.
Qed.

(** ** A population *)

Definition letters : @popn string := Popn false ["a"; "b"; "c"; "d"]%string w4 4 None.
Lemma letters_usable : new_popn (Some ["a"; "b"; "c"; "d"]%string) (Some w4) (fun _ => ""%string) = Ok letters /\ usable letters.
Proof. split; [reflexivity|]. split; [reflexivity|]. split; [exact w4_ok|]. split; [reflexivity|]. split; [cbn; lia|exact I]. Qed.

(** Worked cases for piecewise linear densities. *)

From Coq Require Import ZArith List Bool Arith Reals Lia Lra Sorting.Sorted Sorting.Permutation.
From Coquelicot Require Import Coquelicot.
From Verif Require Import Exn Instances CountSpec CountLemmas McModel McSpec McLemmas5 McCases PwlModel PwlSpec PwlLemmas2 PwlLemmas3 PwlLemmas4 PwlLemmas5 PwlLemmas6.
From Verif Require RefCases.
Import ListNotations.
Open Scope R_scope.

(** ** Bridges *)

Theorem distribution : forall d vals logvals cut p o y, values_ok logvals cut vals -> domain_ok d (length vals) -> new_pwl d vals SLin logvals cut = Ok (p, o) ->
  nth 0 (places d (length vals)) 0 <= y -> is_RInt (density logvals cut vals (places d (length vals))) (nth 0 (places d (length vals)) 0) y (chance p y).
Proof. intros d vals logvals cut p o y OK DO E Y. rewrite (use_made _ _ _ _ _ _ OK DO E). now apply chance_is. Qed.
Theorem one_interval : forall lo hi p q u, lo < hi -> 0 < p + q -> 0 <= u <= 1 ->
  lo <= invert (lo, hi) (p, q) u <= hi /\ is_RInt (line lo hi p q) lo (invert (lo, hi) (p, q) u) (u * ((p + q) / 2 * (hi - lo))).
Proof.
  intros lo hi p q u LH PQ U. destruct (invert_is lo hi p q LH PQ u U) as [A B]. split; [exact A|]. pose proof (cum_int lo hi p q LH lo (invert (lo, hi) (p, q) u)) as CI.
  rewrite B, cum_lo, Rminus_0_r in CI by exact LH. eapply is_RInt_ext; [|exact CI]. reflexivity.
Qed.
Theorem evaluates : forall lo hi vals logvals cut p o, values_ok logvals cut vals -> lo < hi -> new_pwl (Ends lo hi) vals SLin logvals cut = Ok (p, o) ->
  let a := places (Ends lo hi) (length vals) in
  (forall x j, In j (intervals logvals cut vals) -> between a j x -> x <> hi -> pdf1 p x = Ok (height logvals cut vals a j x) /\ 0 <= height logvals cut vals a j x) /\
  (forall x, (forall j, In j (intervals logvals cut vals) -> ~ between a j x) -> pdf1 p x = Ok 0) /\
  (In (length vals - 2)%nat (intervals logvals cut vals) -> pdf1 p hi = Err IndexError).
Proof.
  intros lo hi vals logvals cut p o OK LH E a. rewrite (use_made (Ends lo hi) _ _ _ _ _ OK LH E). split; [|split].
  - intros x j J B XH. split; [exact (pdf_inside logvals cut vals OK lo hi LH x j J B XH)|].
    destruct (js_in' logvals cut vals OK (Ends lo hi) LH j J) as [_ [SU [A1 [A2 _]]]]. unfold height, Rdiv. apply Rmult_le_pos.
    + apply line_nonneg; [exact SU|exact A1|exact A2|exact B].
    + apply Rlt_le, Rinv_0_lt_compat. exact (tot_pos' logvals cut vals OK (Ends lo hi) LH).
  - intros x H. now apply pdf_outside.
  - apply (pdf_end logvals cut vals OK lo hi LH).
Qed.
Theorem integrates : forall lo hi vals logvals cut p o y, values_ok logvals cut vals -> lo < hi -> new_pwl (Ends lo hi) vals SLin logvals cut = Ok (p, o) -> lo <= y <= hi ->
  is_RInt (fun x => read (pdf1 p x)) lo y (chance p y) /\ chance p hi = 1.
Proof.
  intros lo hi vals logvals cut p o y OK LH E Y. rewrite (use_made (Ends lo hi) _ _ _ _ _ OK LH E). split; [now apply (pdf_int logvals cut vals OK lo hi LH)|].
  pose proof (chance_all logvals cut vals OK (Ends lo hi) LH) as H. pose proof (ab_nth logvals cut vals OK lo hi (length vals - 1)) as L.
  pose proof (n_ge logvals cut vals OK) as N2. rewrite <- H. f_equal. rewrite L by lia. field. apply not_0_INR. lia.
Qed.
Theorem uneven : forall a vals logvals cut p o x j, values_ok logvals cut vals -> domain_ok (Points a) (length vals) -> new_pwl (Points a) vals SLin logvals cut = Ok (p, o) ->
  In j (intervals logvals cut vals) -> between a j x -> pdf1 p x = Err NotImplementedError.
Proof. intros a vals logvals cut p o x j OK DO E J B. rewrite (use_made _ _ _ _ _ _ OK DO E). now apply (pdf_uneven logvals cut vals OK a x j). Qed.

(** ** Data *)

Ltac rlts := repeat match goal with |- context [Rlt_dec ?a ?b] => destruct (Rlt_dec a b); [try (exfalso; lra)|try (exfalso; lra)] end.
Definition v6 : list R := [1; 0; 0; 0; 2; 1].
Lemma v6_ok : values_ok false (1/10) v6.
Proof.
  split; [cbn; lia|]. split; [lra|]. intros _. split; [unfold v6; repeat (apply Forall_cons; [lra|]); constructor|]. unfold v6. apply Exists_cons_hd. lra.
Qed.
Lemma v6_peak : peak false v6 = 2.
Proof. unfold peak, v6. cbn [length seq map dens nth fold_right]. unfold Rmax. repeat (destruct (Rle_dec _ _); try lra). Qed.
Lemma v6_intervals : intervals false (1/10) v6 = [0; 3; 4]%nat.
Proof. unfold intervals, above. rewrite v6_peak. unfold v6. cbn [length Nat.sub seq filter Nat.add dens nth]. rlts. reflexivity. Qed.
Lemma v6_total : total false (1/10) v6 (places (Ends 0 5) 6) = 3.
Proof. unfold total. rewrite v6_intervals. unfold area, shown, places, v6, sumR. cbn [map fold_right seq nth Nat.add Nat.sub dens INR]. field. Qed.
Lemma v6_height : height false (1/10) v6 (places (Ends 0 5) 6) 3 (7/2) = 1/3.
Proof. unfold height. rewrite v6_total. unfold line, shown, places, v6. cbn [map seq nth Nat.add Nat.sub dens INR]. field. Qed.
Lemma v6_places : places (Ends 0 5) 6 = [0; 1; 2; 3; 4; 5].
Proof. unfold places. cbn [map seq INR Nat.sub]. repeat (apply (f_equal2 cons); [field|]). reflexivity. Qed.
Lemma v6_made : exists p o, new_pwl (Ends 0 5) v6 SLin false (1/10) = Ok (p, o) /\ in_use (Ends 0 5) v6 false (1/10) p o /\ w_wts p = [1/6; 1/3; 1/2].
Proof.
  destruct (weighs (Ends 0 5) v6 false (1/10) v6_ok ltac:(cbn; lra)) as [p [o [E [_ [_ [_ [W [WP [WS [_ [_ [OI OW]]]]]]]]]]]]. exists p, o. split; [exact E|].
  assert (WE : w_wts p = [1/6; 1/3; 1/2]).
  { rewrite W. change (length v6) with 6%nat. rewrite v6_total, v6_intervals. unfold area, shown, places, v6. cbn [map seq nth Nat.add Nat.sub dens INR]. repeat (apply (f_equal2 cons); [field|]). reflexivity. }
  split; [|exact WE]. exists o. split; [exact E|]. split; [|split; reflexivity].
  destruct (new_pwl_is false (1/10) v6 v6_ok (Ends 0 5) ltac:(cbn; lra)) as [o' [E' EO]]. rewrite E in E'. injection E' as -> ->. rewrite EO. rewrite EO in OW, OI. cbn [o_weights o_items] in OW, OI.
  unfold usable. cbn [o_equi o_weights o_items o_sampler]. rewrite WE. split; [reflexivity|]. split; [split; [repeat (apply Forall_cons; [lra|]); constructor|unfold sumR; cbn; lra]|].
  split; [rewrite OI, seq_length, v6_intervals; reflexivity|]. split; [cbn; lia|exact I].
Qed.
Lemma last_used : In (length v6 - 2)%nat (intervals false (1/10) v6).
Proof. rewrite v6_intervals. cbn. tauto. Qed.
(** One value. *)
Lemma one_value : exists p o, new_pwl (Ends 0 1) [1] SLin false (1/10) = Ok (p, o) /\ w_wts p = [].
Proof.
  unfold new_pwl. cbn [abscissas length]. unfold linspace. cbn [Nat.eqb]. unfold relative. cbn [pymax fold_left map]. unfold pymax. cbn [fold_left]. RefCases.rdec. cbn [map length seq filter nth].
  assert (E : Rltb (1/10) (1/1) = true) by (apply Rltb_spec; lra). rewrite E. cbn [group last ranges widen map nth]. unfold widen. cbn [nth last Nat.ltb Nat.leb andb Nat.sub map fst snd seq areas concat app]. unfold areas, pairs. cbn [seq map concat app Nat.sub new_popn length]. eexists; eexists. split; reflexivity.
Qed.
(** An inverse. *)
Lemma invert_example : invert (0, 2) (1, 3) (3/8) = 1.
Proof.
  unfold invert. RefCases.rdec. replace (1 ^ 2 + (3 ^ 2 - 1 ^ 2) * (3 / 8)) with (2 * 2) by field. rewrite sqrt_square by lra. field.
Qed.

(** ** Hazard *)

Definition t3 : list R := [2; 1; 3].
Definition m3 : list R := [1/2; 1/4; 1/4].
Lemma t3_sort : asort t3 = [1; 0; 2]%nat.
Proof. unfold asort, t3. cbn [length seq fold_right]. do 4 (cbn [place_in nth]; RefCases.rdec). reflexivity. Qed.
Lemma haz_wrong : exists o pts, new_popn1 asort t3 m3 NoErr = Ok o /\ haz_pts o None None = Ok pts /\ sumR m3 = 1 /\
  nth 0 (v_vals o) 0 = 1 /\ nth 2 (h_ord pts) 0 = 1 /\ sumR (skipn 1 (v_weights o)) / sumR (v_weights o) = 3/4.
Proof.
  destruct (haz_points asort t3 m3 None None asort_sorts ltac:(discriminate) eq_refl ltac:(auto)) as [o [pts [E [H [EV [EW [_ [_ [_ [_ [_ [_ [_ K]]]]]]]]]]]]]. exists o, pts. split; [exact E|]. split; [exact H|].
  destruct (K 0%nat ltac:(cbn; lia)) as [_ [_ [_ K0]]]. rewrite t3_sort in EV, EW. rewrite EW in K0. split; [unfold sumR, m3; cbn; lra|]. rewrite EV, EW. split; [reflexivity|]. split.
  - cbn [Nat.mul Nat.add] in K0. rewrite K0. unfold sumR, m3, t3. cbn. lra.
  - unfold sumR, m3. cbn. field.
Qed.

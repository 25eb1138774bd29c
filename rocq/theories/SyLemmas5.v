(** FLSM: the fully symmetric sums *)

From Coq Require Import List Bool Arith ZArith Reals Permutation Sorted Lra Lia.
From Verif Require Import Exn Instances CountSpec McModel McLemmas5 BaModel BaLemmas ObsModel AdModel AdLemmas AdLemmas2 SyModel SyLemmas SyLemmas2 SyLemmas3 SyLemmas4.
Import ListNotations.
Open Scope R_scope.

(** The generators *)
Definition gn (j : nat) : R := nth j g_table 0.
Lemma g_len : length g_table = 12%nat.
Proof. reflexivity. Qed.
Lemma gn_0 : gn 0 = 0.
Proof. reflexivity. Qed.
Lemma gn_pos : forall j, (1 <= j < 12)%nat -> 0 < gn j.
Proof.
  intros j H. assert (Q : forall a b, (0 < a)%Z -> (0 < b)%Z -> 0 < IZR a / IZR b) by (intros; apply Rdiv_lt_0_compat; now apply (IZR_lt 0)).
  unfold gn. do 12 (destruct j as [|j]; [try lia; apply Q; vm_compute; reflexivity|]). lia.
Qed.
Lemma rd_gn : forall j, (j < 12)%nat -> rd1 g_table (j + 1) = Ok (gn j).
Proof. intros j H. rewrite (rd1_nth _ g_table (j + 1) 0) by (rewrite g_len; lia). unfold gn. do 2 f_equal. lia. Qed.

(** Changing signs *)
Fixpoint inc (m sg : list bool) : bool * list bool :=
  match m, sg with
  | nz :: m', b :: sg' => if nz then if b then let (r, t) := inc m' sg' in (r, false :: t) else (true, true :: sg') else let (r, t) := inc m' sg' in (r, false :: t)
  | _, _ => (false, [])
  end.
Inductive visits (m : list bool) : list bool -> list (list bool) -> Prop :=
  | visits_one : forall sg, fst (inc m sg) = false -> visits m sg [sg]
  | visits_step : forall sg sg' ls, inc m sg = (true, sg') -> visits m sg' ls -> visits m sg (sg :: ls).
Fixpoint signs (m : list bool) : list (list bool) :=
  match m with
  | [] => [[]]
  | nz :: m' => flat_map (fun sg => if (nz : bool) then [false :: sg; true :: sg] else [false :: sg]) (signs m')
  end.
Lemma visits_more : forall nz m sg ls, visits m sg ls -> visits (nz :: m) (false :: sg) (flat_map (fun sg => if (nz : bool) then [false :: sg; true :: sg] else [false :: sg]) ls).
Proof.
  intros nz m sg ls H. induction H as [sg E|sg sg' ls E H IH]; cbn [flat_map app].
  - destruct nz; cbn [app].
    + apply visits_step with (true :: sg); [reflexivity|]. apply visits_one. cbn [inc]. destruct (inc m sg). exact E.
    + apply visits_one. cbn [inc]. destruct (inc m sg). exact E.
  - destruct nz; cbn [app].
    + apply visits_step with (true :: sg); [reflexivity|]. apply visits_step with (false :: sg'); [cbn [inc]; now rewrite E|exact IH].
    + apply visits_step with (false :: sg'); [cbn [inc]; now rewrite E|exact IH].
Qed.
Lemma visits_all : forall m, visits m (repeat false (length m)) (signs m).
Proof. induction m as [|nz m IH]; [now apply visits_one|]. cbn [length repeat signs]. now apply visits_more. Qed.
Lemma inc_back : forall m sg, length sg = length m -> fst (inc m sg) = false -> snd (inc m sg) = repeat false (length m).
Proof.
  induction m as [|nz m IH]; intros [|b sg] L H; try discriminate; [reflexivity|]. cbn [length repeat inc] in *.
  destruct nz; [destruct b; [|discriminate]|]; (destruct (inc m sg) as [r t] eqn:E; cbn [fst snd] in *; f_equal; specialize (IH sg ltac:(lia)); rewrite E in IH; now apply IH).
Qed.
Lemma inc_len : forall m sg, length sg = length m -> length (snd (inc m sg)) = length m.
Proof.
  induction m as [|nz m IH]; intros [|b sg] L; try discriminate; [reflexivity|]. cbn [length inc] in *. specialize (IH sg ltac:(lia)).
  destruct (inc m sg) as [r t]. destruct nz; [destruct b|]; cbn [snd length] in *; lia.
Qed.
Fixpoint pow2 (m : list bool) : nat := match m with [] => 1 | nz :: m' => (if nz then 2 else 1) * pow2 m' end%nat.
Lemma signs_count : forall m, length (signs m) = pow2 m.
Proof.
  induction m as [|nz m IH]; [reflexivity|]. cbn [signs pow2]. rewrite <- IH. generalize (signs m). intros l. induction l as [|a l IHl]; cbn [flat_map length]; [lia|]. rewrite app_length, IHl. destruct nz; cbn [length]; lia.
Qed.
Lemma pow2_le : forall m, (pow2 m <= 2 ^ length m)%nat.
Proof. induction m as [|nz m IH]; [apply Nat.le_refl|]. cbn [pow2 length Nat.pow]. destruct nz; lia. Qed.
Lemma signs_len : forall m sg, In sg (signs m) -> length sg = length m.
Proof.
  induction m as [|nz m IH]; intros sg H; [destruct H as [<-|[]]; reflexivity|]. cbn [signs] in H. apply in_flat_map in H. destruct H as (t & H1 & H2). specialize (IH t H1).
  destruct nz; [destruct H2 as [<-|[<-|[]]]|destruct H2 as [<-|[]]]; cbn [length]; lia.
Qed.

(** The points *)
Definition mask (mp : list nat) : list bool := map (fun j => negb (Nat.eqb j 0)) mp.
Fixpoint point (mp : list nat) (center h : list R) (sg : list bool) : list R :=
  match mp, center, h, sg with
  | j :: mp', c :: center', a :: h', b :: sg' => (c + gn j * (if b then - a else a)) :: point mp' center' h' sg'
  | _, _, _, _ => []
  end.
Fixpoint widths (h : list R) (sg : list bool) : list R :=
  match h, sg with a :: h', b :: sg' => (if (b : bool) then - a else a) :: widths h' sg' | _, _ => [] end.
Lemma widths_plus : forall h, widths h (repeat false (length h)) = h.
Proof. induction h as [|a h IH]; [reflexivity|]. cbn [length repeat widths]. now rewrite IH. Qed.
Lemma point_len : forall mp center h sg, length center = length mp -> length h = length mp -> length sg = length mp -> length (point mp center h sg) = length mp.
Proof. induction mp as [|j mp IH]; intros [|c center] [|a h] [|b sg] H1 H2 H3; try discriminate; [reflexivity|]. cbn [length point] in *. now rewrite IH by lia. Qed.
Lemma widths_len : forall h sg, length sg = length h -> length (widths h sg) = length h.
Proof. induction h as [|a h IH]; intros [|b sg] H; try discriminate; [reflexivity|]. cbn [length widths] in *. now rewrite IH by lia. Qed.

(** No sign changes where the generator is zero *)
Fixpoint fits (m sg : list bool) : Prop :=
  match m, sg with nz :: m', b :: sg' => ((b : bool) = true -> (nz : bool) = true) /\ fits m' sg' | [], [] => True | _, _ => False end.
Lemma fits_len : forall m sg, fits m sg -> length sg = length m.
Proof. induction m as [|nz m IH]; intros [|b sg] H; try contradiction; [reflexivity|]. destruct H as [_ H]. cbn [length]. now rewrite (IH _ H). Qed.
Lemma fits_plus : forall m, fits m (repeat false (length m)).
Proof. induction m as [|nz m IH]; [exact I|]. split; [discriminate|exact IH]. Qed.
Lemma inc_fits : forall m sg, fits m sg -> fits m (snd (inc m sg)).
Proof.
  induction m as [|nz m IH]; intros [|b sg] H; try contradiction; [exact I|]. destruct H as [H1 H]. specialize (IH sg H). cbn [inc]. destruct (inc m sg) as [r t]. cbn [snd] in IH.
  destruct nz; [destruct b|]; cbn [snd fits]; (split; [auto; discriminate|assumption]).
Qed.

Lemma flip_from : forall mp2 c2 h2 s2, length c2 = length mp2 -> length h2 = length mp2 -> fits (mask mp2) s2 ->
  forall mp1 c1 x1 w1, length c1 = length mp1 -> length x1 = length mp1 -> length w1 = length mp1 ->
  (forall a, In a h2 -> 0 < a) -> (forall j, In j mp2 -> (j < 12)%nat) ->
  flsm_flip (c1 ++ c2) (mp1 ++ mp2) (seq (S (length mp1)) (length mp2)) (x1 ++ point mp2 c2 h2 s2) (w1 ++ widths h2 s2) =
  let (b, t) := inc (mask mp2) s2 in Ok (b, x1 ++ point mp2 c2 h2 t, w1 ++ widths h2 t).
Proof.
  induction mp2 as [|j mp2 IH]; intros [|c c2] [|a h2] [|b s2] L1 L2 L3 mp1 c1 x1 w1 L4 L6 L7 HP HJ; try discriminate; try contradiction; cbn [length seq flsm_flip mask map inc point widths fits] in *; try contradiction; [reflexivity|].
  assert (LL : forall A (u : list A) v w (d : A), length u = length mp1 -> rd1 (u ++ v :: w) (S (length mp1)) = Ok v).
  { intros A u v w d E. rewrite (rd1_nth _ _ _ d) by (rewrite app_length; cbn [length]; lia). rewrite Nat.sub_succ, Nat.sub_0_r, app_nth2 by lia. now rewrite E, Nat.sub_diag. }
  assert (LW : forall A (u : list A) v w v', length u = length mp1 -> wr1 (u ++ v :: w) (S (length mp1)) v' = Ok (u ++ v' :: w)).
  { intros A u v w v' E. rewrite wr1_upd by (rewrite app_length; cbn [length]; lia). rewrite Nat.sub_succ, Nat.sub_0_r. f_equal. unfold upd.
    rewrite <- E, firstn_app, firstn_all, Nat.sub_diag, firstn_O, app_nil_r. f_equal. f_equal. rewrite skipn_app, skipn_all2 by lia. now replace (S (length u) - length u)%nat with 1%nat by lia. }
  rewrite (LL nat mp1 j mp2 0%nat eq_refl). cbv beta iota. rewrite rd_gn by (apply HJ; now left). cbv beta iota. rewrite (LL R c1 c c2 0 L4). cbv beta iota. rewrite (LL R w1 _ _ 0 L7). cbv beta iota zeta.
  rewrite LW by exact L7. cbv beta iota. rewrite LW by exact L6. cbv beta iota.
  assert (A0 : 0 < a) by (apply HP; now left). destruct L3 as [L3 L3'].
  assert (Next : forall v v',
    flsm_flip (c1 ++ c :: c2) (mp1 ++ j :: mp2) (seq (S (S (length mp1))) (length mp2)) (x1 ++ v :: point mp2 c2 h2 s2) (w1 ++ v' :: widths h2 s2) =
    let (b, t) := inc (mask mp2) s2 in Ok (b, x1 ++ v :: point mp2 c2 h2 t, w1 ++ v' :: widths h2 t)).
  { intros v v'. specialize (IH c2 h2 s2 ltac:(lia) ltac:(lia) L3' (mp1 ++ [j]) (c1 ++ [c]) (x1 ++ [v]) (w1 ++ [v'])). rewrite !app_length in IH. cbn [length] in IH.
    specialize (IH ltac:(lia) ltac:(lia) ltac:(lia)). rewrite <- !app_assoc in IH. cbn [app] in IH. replace (S (length mp1 + 1)) with (S (S (length mp1))) in IH by lia. rewrite IH; [|intros; apply HP; now right|intros; apply HJ; now right].
    destruct (inc (mask mp2) s2) as [r t]. rewrite <- !app_assoc. reflexivity. }
  destruct (Nat.eqb_spec j 0) as [->|NJ]; cbn [negb] in *.
  - rewrite gn_0. replace (Reqb 0 0) with true by (symmetry; now apply Reqb_spec). replace (Rltb _ _) with false; [|symmetry; apply Rltb_false; lra].
    rewrite Next. fold (mask mp2). destruct (inc (mask mp2) s2) as [r t]. cbn [point widths].
    destruct b; [specialize (L3 eq_refl); discriminate|reflexivity].
  - assert (G := gn_pos j ltac:(specialize (HJ j (or_introl eq_refl)); lia)). assert (GA := Rmult_lt_0_compat _ _ G A0).
    replace (Reqb (gn j) 0) with false by (symmetry; apply Reqb_false; lra). destruct b.
    + rewrite Ropp_involutive. replace (Rltb _ _) with false; [|symmetry; apply Rltb_false; lra].
      rewrite Next. fold (mask mp2). destruct (inc (mask mp2) s2) as [r t]. reflexivity.
    + replace (Rltb _ _) with true; [reflexivity|]. symmetry. apply Rltb_spec. lra.
Qed.

Section Loop.
Variables (f : list R -> res R) (F : list R -> R) (s : nat) (center h : list R).
Hypothesis f_is : forall x, length x = s -> f x = Ok (F x).
Hypothesis c_len : length center = s.
Hypothesis h_len : length h = s.
Hypothesis h_pos : forall a, In a h -> 0 < a.

Definition vecok (mp : list nat) : Prop := length mp = s /\ forall j, In j mp -> (j < 12)%nat.

Lemma flip_ok : forall mp sg, vecok mp -> fits (mask mp) sg ->
  flsm_flip center mp (seq 1 s) (point mp center h sg) (widths h sg) = let (b, t) := inc (mask mp) sg in Ok (b, point mp center h t, widths h t).
Proof.
  intros mp sg [V1 V2] H. assert (E := flip_from mp center h sg ltac:(lia) ltac:(lia) H [] [] [] [] eq_refl eq_refl eq_refl h_pos V2). rewrite V1 in E. exact E.
Qed.
Lemma signs_loop : forall mp, vecok mp -> forall sg ls, visits (mask mp) sg ls -> fits (mask mp) sg -> forall fuel sumcls intsum, (length ls <= fuel)%nat ->
  flsm_signs f s center fuel mp (point mp center h sg) (widths h sg) sumcls intsum =
  Ok ((sumcls + Z.of_nat (length ls))%Z, intsum + sumR (map (fun t => F (point mp center h t)) ls), h).
Proof.
  intros mp V sg ls H. assert (V' := V). destruct V' as [V1 V2]. assert (ML : length (mask mp) = s) by (unfold mask; now rewrite map_length).
  induction H as [sg E|sg sg' ls E H IH]; intros HF [|fuel] sumcls intsum Hf; cbn [length] in Hf; try lia; cbn [flsm_signs];
    (rewrite f_is by (assert (Q := fits_len _ _ HF); rewrite point_len; lia)); cbv beta iota zeta; rewrite (flip_ok mp sg V HF).
  - assert (B := inc_back (mask mp) sg (fits_len _ _ HF) E). destruct (inc (mask mp) sg) as [b t]. cbn [fst snd] in *. subst b t. rewrite ML, <- h_len, widths_plus.
    cbn [map sumR fold_right length]. do 3 f_equal; unfold sumR; cbn; try lia; ring.
  - assert (IF := inc_fits _ _ HF). rewrite E in IF |- *. cbn [snd] in IF. rewrite IH by (assumption || lia). cbn [length map]. unfold sumR. cbn [fold_right]. do 3 f_equal; try lia; ring.
Qed.
Lemma start_ok : forall mp, vecok mp -> flsm_start s center mp h = Ok (point mp center h (repeat false s)).
Proof.
  intros mp [V1 V2]. unfold flsm_start. set (P := point mp center h (repeat false s)).
  assert (LP : length P = s) by (unfold P; rewrite point_len; rewrite ?repeat_length; lia).
  assert (NP : forall i, (i < s)%nat -> nth i P 0 = nth i center 0 + gn (nth i mp 0%nat) * nth i h 0).
  { unfold P. clear f_is V2 h_pos LP P. revert mp center h V1 c_len h_len. induction s as [|k IH]; intros [|j mp] [|c ce] [|a hh] E1 E2 E3 [|i] Hi; try discriminate; try lia; cbn [repeat point nth]; [reflexivity|].
    apply IH; cbn [length] in *; lia. }
  destruct (iter_up _ (fun i x => length x = s /\ forall j, (j < i - 1)%nat -> nth j x 0 = nth j P 0) s 1 (fun i x =>
    let! mpi := rd1 mp i in
    let! g := rd1 g_table (mpi + 1) in
    let! c := rd1 center i in
    let! h0 := rd1 h i in wr1 x i (c + g * h0)) (repeat 0 s)) as (x & E & L & N).
  - split; [apply repeat_length|intros; lia].
  - intros i x Hi [L N]. rewrite (rd1_nth _ mp i 0%nat) by lia. rewrite rd_gn by (apply V2, nth_In; lia). rewrite (rd1_nth _ center i 0) by lia. rewrite (rd1_nth _ h i 0) by lia. rewrite wr1_upd by lia.
    eexists. split; [reflexivity|]. split; [now rewrite upd_len by lia|]. intros j Hj. rewrite nth_upd' by lia. destruct (Nat.eqb_spec j (i - 1)) as [->|NE]; [now rewrite NP by lia|apply N; lia].
  - rewrite E. f_equal. apply (nth_ext _ _ 0 0); [lia|]. intros j Hj. apply N. lia.
Qed.

(** The sum over the signs, the sum over the permutations *)
Definition around (mp : list nat) : R := sumR (map (fun t => F (point mp center h t)) (signs (mask mp))).
Lemma perms_loop : forall p ls q, trip p ls q -> nxt q None -> (forall r, In r ls -> vecok r) -> forall fuel w sumcls v, (length ls <= fuel)%nat ->
  flsm_perms f s center fuel w p h sumcls v =
  Ok (v + w * sumR (map around ls), (sumcls + Z.of_nat (list_sum (map (fun r => pow2 (mask r)) ls)))%Z, h).
Proof.
  intros p ls q H. induction H as [p|p p' ls q N H IH]; intros NN V [|fuel] w sumcls v Hf; cbn [length] in Hf; try lia; cbn [flsm_perms];
    (assert (VP : vecok p) by (apply V; now left)); (rewrite (start_ok p VP)); (assert (VL := proj1 VP));
    (assert (ML : length (mask p) = s) by (unfold mask; now rewrite map_length));
    (assert (SL := signs_loop p VP _ _ (visits_all (mask p)) (fits_plus _) (2 ^ s) sumcls 0)); rewrite ML in SL; (assert (WP : widths h (repeat false s) = h) by (rewrite <- h_len; apply widths_plus)); rewrite WP in SL; rewrite SL by (rewrite signs_count; rewrite <- ML at 1; apply pow2_le);
    rewrite signs_count, Rplus_0_l; fold (around p).
  - unfold nxt in NN. rewrite VL in NN. rewrite NN. cbn [map list_sum fold_right]. unfold sumR. cbn [fold_right]. do 3 f_equal; (lia || ring).
  - unfold nxt in N. rewrite VL in N. rewrite N. rewrite IH; [|exact NN|intros; apply V; now right|lia]. cbn [map list_sum fold_right]. unfold sumR. cbn [fold_right]. do 3 f_equal; [ring|]. rewrite <- Z.add_assoc. f_equal. rewrite <- Nat2Z.inj_add. f_equal.
Qed.
End Loop.

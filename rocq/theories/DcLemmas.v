(** DFSHRE *)

From Coq Require Import List Bool Arith ZArith Reals Permutation Lra Lia.
From Verif Require Import Exn Instances McModel BaModel BaLemmas ObsModel ObsLemmas2 CountSpec McLemmas5 AdModel AdLemmas AdLemmas2 SyModel SyLemmas2 SyLemmas3 SyLemmas4 SyLemmas5 SyLemmas6 DcModel.
Import ListNotations.
Open Scope R_scope.

(** Results of functions *)
Definition mapr {A B} (g : A -> B) (m : res A) : res B := match m with Ok a => Ok (g a) | Err e => Err e end.
Lemma rd1_map : forall A B (g : A -> B) l i, rd1 (map g l) i = mapr g (rd1 l i).
Proof.
  intros A B g l [|i]; [reflexivity|]. cbn [rd1]. unfold rd. rewrite nth_error_map. now destruct (nth_error l i).
Qed.
Lemma wr1_map : forall A B (g : A -> B) l i v, wr1 (map g l) i (g v) = mapr (map g) (wr1 l i v).
Proof.
  intros A B g l [|i] v; [reflexivity|]. cbn [wr1]. unfold wr. rewrite map_length. destruct (Nat.ltb i (length l)); [|reflexivity].
  cbn [mapr]. unfold upd. rewrite map_app. cbn [map]. now rewrite firstn_map, skipn_map.
Qed.
Lemma iter_map : forall S T (g : S -> T) (b : nat -> S -> res S) (b' : nat -> T -> res T) l s,
  (forall i s, b' i (g s) = mapr g (b i s)) -> iter l b' (g s) = mapr g (iter l b s).
Proof.
  intros S T g b b' l. induction l as [|i l IH]; intros s H; [reflexivity|]. cbn [iter]. rewrite H. destruct (b i s) as [s'|e]; [|reflexivity]. cbn [mapr]. now apply IH.
Qed.

Section Phi.
Variable phi : nat -> R.
Hypothesis mono : forall a b, (a < b)%nat -> phi a < phi b.

Lemma phi_leb : forall a b, Rleb (phi a) (phi b) = Nat.leb a b.
Proof.
  intros a b. destruct (Nat.leb_spec a b) as [H|H].
  - apply Rleb_spec. destruct (Nat.eq_dec a b) as [->|N]; [lra|]. apply Rlt_le, mono. lia.
  - assert (M := mono b a H). apply Rleb_false. lra.
Qed.
Lemma phi_ltb : forall a b, Rltb (phi a) (phi b) = Nat.ltb a b.
Proof.
  intros a b. destruct (Nat.ltb_spec a b) as [H|H].
  - apply Rltb_spec. now apply mono.
  - apply Rltb_false. destruct (Nat.eq_dec a b) as [->|N]; [lra|]. assert (M := mono b a ltac:(lia)). lra.
Qed.

Definition g3 (st : list nat * nat * option nat) : list R * nat * option nat := let '(m, a, b) := st in (map phi m, a, b).
Lemma turn_map : forall i x p, dfs_turn i (phi x) (map phi p) = mapr g3 (flsm_turn i x p).
Proof.
  intros i x p. unfold dfs_turn, flsm_turn. change (map phi p, (i - 1)%nat, @None nat) with (g3 (p, (i - 1)%nat, None)). apply iter_map.
  intros l [[m a] b]. cbn [g3]. rewrite rd1_map. destruct (rd1 m l) as [v|e]; [|reflexivity]. cbn [mapr]. rewrite rd1_map. destruct (rd1 m (i - l)) as [w|e]; [|reflexivity]. cbn [mapr].
  rewrite wr1_map. destruct (wr1 m l w) as [m'|e]; [|reflexivity]. cbn [mapr]. rewrite wr1_map. destruct (wr1 m' (i - l) v) as [m''|e]; [|reflexivity]. cbn [mapr g3].
  now rewrite phi_leb, phi_ltb.
Qed.
Lemma next_map : forall is p, dfs_next (map phi p) is = mapr (option_map (map phi)) (flsm_next p is).
Proof.
  induction is as [|i is IH]; intros p; [reflexivity|]. cbn [dfs_next flsm_next]. rewrite rd1_map. destruct (rd1 p (i - 1)) as [a|e] eqn:EA; [|reflexivity]. cbn [mapr].
  rewrite rd1_map. destruct (rd1 p i) as [x|e]; [|reflexivity]. cbn [mapr]. rewrite phi_ltb. destruct (Nat.ltb_spec x a) as [H|H]; destruct (Nat.leb_spec a x) as [H'|H']; try lia; [|apply IH].
  destruct (Nat.eqb_spec i 2) as [->|N].
  - assert (ET : dfs_turn 2 (phi x) (map phi p) = Ok (map phi p, 1%nat, None)) by reflexivity. rewrite ET.
    rewrite rd1_map. change (2 - 1)%nat with 1%nat in *. rewrite EA. cbn [mapr]. rewrite phi_leb. destruct (Nat.leb_spec a x); [lia|]. rewrite rd1_map, EA. cbn [mapr].
    rewrite wr1_map. destruct (wr1 p 2 a) as [p'|e]; [|reflexivity]. cbn [mapr]. rewrite wr1_map. destruct (wr1 p' 1 x) as [p''|e]; reflexivity.
  - rewrite turn_map. destruct (flsm_turn i x p) as [[[m ix] lx]|e]; [|reflexivity]. cbn [mapr g3]. rewrite rd1_map. destruct (rd1 m ix) as [b|e] eqn:EB; [|reflexivity]. cbn [mapr]. rewrite phi_leb.
    assert (Fin : forall k, (let! b0 := rd1 (map phi m) k in let! g := wr1 (map phi m) i b0 in let! g0 := wr1 g k (phi x) in Ok (Some g0)) =
      mapr (option_map (map phi)) (let! b0 := rd1 m k in let! mp := wr1 m i b0 in let! mp0 := wr1 mp k x in Ok (Some mp0))).
    { intros k. rewrite rd1_map. destruct (rd1 m k) as [c|e]; [|reflexivity]. cbn [mapr]. rewrite wr1_map. destruct (wr1 m i c) as [p'|e]; [|reflexivity]. cbn [mapr]. rewrite wr1_map. destruct (wr1 p' k x) as [p''|e]; reflexivity. }
    destruct (Nat.leb b x); [destruct lx as [l|]; [|reflexivity]|]; apply Fin.
Qed.

Hypothesis phi0 : phi 0 = 0.
Lemma phi_pos : forall j, j <> 0%nat -> 0 < phi j.
Proof. intros j H. rewrite <- phi0. apply mono. lia. Qed.

(** Generators with signs; points *)
Fixpoint gs (mp : list nat) (sg : list bool) : list R :=
  match mp, sg with j :: mp', b :: sg' => (if (b : bool) then - phi j else phi j) :: gs mp' sg' | _, _ => [] end.
Lemma gs_plus : forall mp, gs mp (repeat false (length mp)) = map phi mp.
Proof. induction mp as [|j mp IH]; [reflexivity|]. cbn [length repeat gs map]. now rewrite IH. Qed.
Lemma gs_len : forall mp sg, length sg = length mp -> length (gs mp sg) = length mp.
Proof. induction mp as [|j mp IH]; intros [|b sg] H; try discriminate; [reflexivity|]. cbn [length gs] in *. now rewrite IH by lia. Qed.
Fixpoint aff (c h u : list R) : list R :=
  match c, h, u with a :: c', b :: h', v :: u' => (a + v * b) :: aff c' h' u' | _, _, _ => [] end.
Lemma aff_len : forall c h u, length h = length c -> length u = length c -> length (aff c h u) = length c.
Proof. induction c as [|a c IH]; intros [|b h] [|v u] H1 H2; try discriminate; [reflexivity|]. cbn [length aff] in *. now rewrite IH by lia. Qed.
Lemma aff_nth : forall c h u i, length h = length c -> length u = length c -> (i < length c)%nat -> nth i (aff c h u) 0 = nth i c 0 + nth i u 0 * nth i h 0.
Proof. induction c as [|a c IH]; intros [|b h] [|v u] [|i] H1 H2 Hi; try discriminate; cbn [length] in *; try lia; [reflexivity|]. cbn [aff nth]. apply IH; lia. Qed.

Lemma dflip_from : forall mp2 c2 h2 s2, length c2 = length mp2 -> length h2 = length mp2 -> fits (mask mp2) s2 ->
  forall c1 h1 x1 w1 k, length c1 = k -> length h1 = k -> length x1 = k -> length w1 = k ->
  dfs_flip (c1 ++ c2) (h1 ++ h2) (seq (S k) (length mp2)) (w1 ++ gs mp2 s2) (x1 ++ aff c2 h2 (gs mp2 s2)) =
  let (b, t) := inc (mask mp2) s2 in Ok (b, w1 ++ gs mp2 t, x1 ++ aff c2 h2 (gs mp2 t)).
Proof.
  induction mp2 as [|j mp2 IH]; intros [|c c2] [|a h2] [|b s2] L1 L2 L3 c1 h1 x1 w1 k L4 L5 L6 L7; try discriminate; try contradiction; cbn [length seq dfs_flip mask map inc gs aff fits] in *; try contradiction; [reflexivity|].
  assert (LL : forall (u : list R) v w, length u = k -> rd1 (u ++ v :: w) (S k) = Ok v).
  { intros u v w E. rewrite (rd1_nth _ _ _ 0) by (rewrite app_length; cbn [length]; lia). rewrite Nat.sub_succ, Nat.sub_0_r, app_nth2 by lia. now rewrite E, Nat.sub_diag. }
  assert (LW : forall (u : list R) v w v', length u = k -> wr1 (u ++ v :: w) (S k) v' = Ok (u ++ v' :: w)).
  { intros u v w v' E. rewrite wr1_upd by (rewrite app_length; cbn [length]; lia). rewrite Nat.sub_succ, Nat.sub_0_r. f_equal. unfold upd.
    rewrite <- E, firstn_app, firstn_all, Nat.sub_diag, firstn_O, app_nil_r. f_equal. f_equal. rewrite skipn_app, skipn_all2 by lia. now replace (S (length u) - length u)%nat with 1%nat by lia. }
  rewrite (LL w1 _ _ L7). cbv beta iota. rewrite LW by exact L7. cbv beta iota. rewrite (LL c1 _ _ L4). cbv beta iota. rewrite (LL h1 _ _ L5). cbv beta iota. rewrite LW by exact L6. cbv beta iota.
  destruct L3 as [L3 L3'].
  assert (Next : forall v v',
    dfs_flip (c1 ++ c :: c2) (h1 ++ a :: h2) (seq (S (S k)) (length mp2)) (w1 ++ v' :: gs mp2 s2) (x1 ++ v :: aff c2 h2 (gs mp2 s2)) =
    let (b, t) := inc (mask mp2) s2 in Ok (b, w1 ++ v' :: gs mp2 t, x1 ++ v :: aff c2 h2 (gs mp2 t))).
  { intros v v'. specialize (IH c2 h2 s2 ltac:(lia) ltac:(lia) L3' (c1 ++ [c]) (h1 ++ [a]) (x1 ++ [v]) (w1 ++ [v']) (S k)). rewrite !app_length in IH. cbn [length] in IH.
    specialize (IH ltac:(lia) ltac:(lia) ltac:(lia) ltac:(lia)). rewrite <- !app_assoc in IH. cbn [app] in IH. rewrite IH.
    destruct (inc (mask mp2) s2) as [r t]. rewrite <- !app_assoc. reflexivity. }
  fold (mask mp2) in *.
  destruct (Nat.eqb_spec j 0) as [->|NJ]; cbn [negb] in *.
  - destruct b; [specialize (L3 eq_refl); discriminate|]. rewrite phi0. replace (Rltb _ _) with false; [|symmetry; apply Rltb_false; lra].
    rewrite Next. destruct (inc (mask mp2) s2) as [r t]. cbn [gs aff]. rewrite ?phi0, ?Ropp_0. reflexivity.
  - assert (P := phi_pos j NJ). destruct b.
    + rewrite Ropp_involutive. replace (Rltb _ _) with false; [|symmetry; apply Rltb_false; lra].
      rewrite Next. destruct (inc (mask mp2) s2) as [r t]. reflexivity.
    + replace (Rltb _ _) with true; [reflexivity|]. symmetry. apply Rltb_spec. lra.
Qed.

Section Loop.
Variables (f : list R -> vec) (n : nat) (c h : list R).
Hypothesis c_len : length c = n.
Hypothesis h_len : length h = n.

Lemma dflip_ok : forall mp sg, length mp = n -> fits (mask mp) sg ->
  dfs_flip c h (seq 1 n) (gs mp sg) (aff c h (gs mp sg)) = let (b, t) := inc (mask mp) sg in Ok (b, gs mp t, aff c h (gs mp t)).
Proof.
  intros mp sg L H. assert (E := dflip_from mp c h sg ltac:(lia) ltac:(lia) H [] [] [] [] 0%nat eq_refl eq_refl eq_refl eq_refl). rewrite L in E. exact E.
Qed.
Lemma dsigns_loop : forall mp, length mp = n -> forall sg ls, visits (mask mp) sg ls -> fits (mask mp) sg -> forall fuel v, (length ls <= fuel)%nat ->
  exists v', dfs_signs f n c h fuel (gs mp sg) (aff c h (gs mp sg)) v = Ok (map phi mp, v') /\
    forall j, v' j = v j + sumR (map (fun t => f (aff c h (gs mp t)) j) ls).
Proof.
  intros mp L sg ls H. assert (ML : length (mask mp) = n) by (unfold mask; now rewrite map_length).
  induction H as [sg E|sg sg' ls E H IH]; intros HF [|fuel] v Hf; cbn [length] in Hf; try lia; cbn [dfs_signs]; rewrite (dflip_ok mp sg L HF).
  - assert (B := inc_back (mask mp) sg (fits_len _ _ HF) E). destruct (inc (mask mp) sg) as [b t]. cbn [fst snd] in *. subst b t. rewrite ML, <- L, gs_plus.
    eexists. split; [reflexivity|]. intros j. cbn [map]. unfold sumR. cbn. ring.
  - assert (IF := inc_fits _ _ HF). rewrite E in IF |- *. cbn [snd] in IF. destruct (IH IF fuel (fun j => v j + f (aff c h (gs mp sg)) j) ltac:(lia)) as (v' & Q & J).
    rewrite Q. exists v'. split; [reflexivity|]. intros j. rewrite J. cbn [map]. unfold sumR. cbn [fold_right]. ring.
Qed.
Lemma dpoint_ok : forall g, length g = n -> dfs_point n c h g = Ok (aff c h g).
Proof.
  intros g L. unfold dfs_point.
  destruct (iter_up _ (fun i x => length x = n /\ forall j, (j < i - 1)%nat -> nth j x 0 = nth j (aff c h g) 0) n 1 (fun i x =>
    let! c0 := rd1 c i in
    let! gi := rd1 g i in
    let! h0 := rd1 h i in wr1 x i (c0 + gi * h0)) (repeat 0 n)) as (x & E & LX & N).
  - split; [apply repeat_length|intros; lia].
  - intros i x Hi [LX N]. rewrite (rd1_nth _ c i 0) by lia. rewrite (rd1_nth _ g i 0) by lia. rewrite (rd1_nth _ h i 0) by lia. rewrite wr1_upd by lia.
    eexists. split; [reflexivity|]. split; [now rewrite upd_len by lia|]. intros j Hj. rewrite nth_upd' by lia. destruct (Nat.eqb_spec j (i - 1)) as [->|NE]; [now rewrite aff_nth by lia|apply N; lia].
  - rewrite E. f_equal. apply (nth_ext _ _ 0 0); [rewrite aff_len; lia|]. intros j Hj. apply N. lia.
Qed.

(** The sum over the signs *)
Definition daround (j : nat) (mp : list nat) : R := sumR (map (fun t => f (aff c h (gs mp t)) j) (signs (mask mp))).
Lemma dperms_loop : forall p ls q, trip p ls q -> nxt q None -> (forall r, In r ls -> length r = n) -> forall fuel v, (length ls <= fuel)%nat ->
  exists v', dfs_perms f n c h fuel (map phi p) v = Ok (map phi q, v') /\ forall j, v' j = v j + sumR (map (daround j) ls).
Proof.
  intros p ls q H. induction H as [p|p p' ls q N H IH]; intros NN V [|fuel] v Hf; cbn [length] in Hf; try lia; cbn [dfs_perms];
    (assert (VL : length p = n) by (apply V; now left)); (rewrite dpoint_ok by now rewrite map_length);
    (assert (ML : length (mask p) = n) by (unfold mask; now rewrite map_length));
    (destruct (dsigns_loop p VL _ _ (visits_all (mask p)) (fits_plus _) (2 ^ n) v) as (v1 & SL & J1); [rewrite signs_count; rewrite <- ML; apply pow2_le|]);
    rewrite ML in SL; (assert (GP : gs p (repeat false n) = map phi p) by (rewrite <- VL; apply gs_plus)); rewrite GP in SL; rewrite SL; rewrite next_map.
  - unfold nxt in NN. rewrite VL in NN. rewrite NN. cbn [mapr option_map]. exists v1. split; [reflexivity|]. intros j. rewrite J1. cbn [map]. unfold daround, sumR. cbn [fold_right]. ring.
  - unfold nxt in N. rewrite VL in N. rewrite N. cbn [mapr option_map]. destruct (IH NN (fun r Hr => V r (or_intror Hr)) fuel v1 ltac:(lia)) as (v' & Q & J). exists v'. split; [exact Q|].
    intros j. rewrite J, J1. cbn [map]. unfold daround at 2, sumR. cbn [fold_right]. ring.
Qed.
Lemma dback_ok : forall g, length g = n -> dfs_back n g = Ok (rev g).
Proof.
  intros g L. unfold dfs_back.
  destruct (iter_up _ (fun i x => length x = n /\ forall j, (j < n)%nat -> nth j x 0 = if (j <? i - 1)%nat || (n - i <? j)%nat then nth (n - 1 - j) g 0 else nth j g 0) (n / 2) 1 (fun i g =>
    let! gi := rd1 g i in
    let! b := rd1 g (n - i + 1) in
    let! g := wr1 g i b in
    wr1 g (n - i + 1) gi) g) as (x & E & LX & N).
  - split; [exact L|]. intros j Hj. destruct (Nat.ltb_spec j (1 - 1)), (Nat.ltb_spec (n - 1) j); try lia. reflexivity.
  - intros i x Hi [LX N]. assert (D := Nat.div_mod n 2 ltac:(lia)). assert (D' := Nat.mod_upper_bound n 2 ltac:(lia)).
    rewrite (rd1_nth _ x i 0) by lia. rewrite (rd1_nth _ x (n - i + 1) 0) by lia. rewrite wr1_upd by lia. rewrite wr1_upd by (rewrite upd_len; lia).
    eexists. split; [reflexivity|]. split; [now rewrite !upd_len by (rewrite ?upd_len; lia)|]. intros j Hj. rewrite nth_upd' by (rewrite upd_len; lia). rewrite nth_upd' by lia.
    rewrite (N (i - 1)%nat) by lia. rewrite (N (n - i + 1 - 1)%nat) by lia. rewrite (N j) by lia.
    replace ((i - 1 <? i - 1)%nat || (n - i <? i - 1)%nat) with false by (symmetry; apply orb_false_intro; apply Nat.ltb_ge; lia).
    replace ((n - i + 1 - 1 <? i - 1)%nat || (n - i <? n - i + 1 - 1)%nat) with false by (symmetry; apply orb_false_intro; apply Nat.ltb_ge; lia).
    destruct (Nat.eqb_spec j (n - i + 1 - 1)) as [->|N1].
    + replace ((n - i + 1 - 1 <? S i - 1)%nat || (n - S i <? n - i + 1 - 1)%nat) with true; [f_equal; lia|]. symmetry. apply orb_true_intro. right. apply Nat.ltb_lt. lia.
    + destruct (Nat.eqb_spec j (i - 1)) as [->|N2].
      * replace ((i - 1 <? S i - 1)%nat || (n - S i <? i - 1)%nat) with true; [f_equal; lia|]. symmetry. apply orb_true_intro. left. apply Nat.ltb_lt. lia.
      * destruct (Nat.ltb_spec j (i - 1)), (Nat.ltb_spec (n - i) j), (Nat.ltb_spec j (S i - 1)), (Nat.ltb_spec (n - S i) j); cbn [orb]; try reflexivity; lia.
  - rewrite E. f_equal. apply (nth_ext _ _ 0 0); [rewrite rev_length; lia|]. intros j Hj. rewrite LX in Hj. rewrite N by exact Hj. rewrite rev_nth by lia. rewrite L.
    assert (D := Nat.div_mod n 2 ltac:(lia)). assert (D' := Nat.mod_upper_bound n 2 ltac:(lia)).
    destruct (Nat.ltb_spec j (1 + n / 2 - 1)), (Nat.ltb_spec (n - (1 + n / 2)) j); cbn [orb]; f_equal; lia.
Qed.

Lemma dfshre_is : forall m ls, length m = n -> (1 <= n)%nat -> desc m -> (forall j, In j m -> (j <= n)%nat) -> all_of ls (fun p => Permutation p m) ->
  exists v, dfshre f n c h (map phi m) = Ok (v, map phi m) /\ forall j, v j = sumR (map (daround j) ls).
Proof.
  intros m ls L S1 D HM [ND IN]. unfold dfshre.
  destruct (perms_all (n - 1) m ltac:(lia) D) as (ls' & T & ND' & IN').
  assert (PL : Permutation ls ls') by (apply NoDup_Permutation; [exact ND|exact ND'|]; intros p; now rewrite IN, IN').
  destruct (dperms_loop m ls' _ T (trip_end m D)) with (fuel := (S n ^ n)%nat) (v := fun _ : nat => 0) as (v & E & J).
  - intros r Hr. apply IN' in Hr. now rewrite (Permutation_length Hr).
  - rewrite <- vecs_lt_len. apply NoDup_incl_length; [exact ND'|]. intros p Hp. apply IN' in Hp. apply vecs_lt_in; [rewrite (Permutation_length Hp); exact L|].
    intros j Hj. apply (Permutation_in _ Hp) in Hj. specialize (HM j Hj). lia.
  - rewrite E. cbn [fst snd]. rewrite dback_ok by (rewrite map_length, rev_length; exact L). rewrite map_rev, rev_involutive. exists v. split; [reflexivity|].
    intros j. rewrite J, Rplus_0_l. apply sumR_perm, Permutation_map. now apply Permutation_sym.
Qed.
End Loop.
End Phi.

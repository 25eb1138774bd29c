(** The integrand is only evaluated inside the box *)

From Coq Require Import List Bool Arith ZArith Reals Permutation Lra Lia.
From Verif Require Import Exn Instances CountSpec McModel McLemmas5 BaModel BaLemmas ObsModel AdModel AdSpec AdLemmas AdLemmas2 AdLemmas3 AdLemmas4 AdLemmas5 AdLemmas6.
From Verif Require Import SyModel SyLemmas SyLemmas2 SyLemmas5 SyLemmas8 SyLemmas9 SySpec SyLemmas10 SyLemmas11 SyLemmas12.
Import ListNotations.
Open Scope R_scope.

Lemma gn_lt1 : forall j, (j < 12)%nat -> 0 <= gn j < 1.
Proof.
  intros j H. assert (C : forallb (fun j => Z.leb 0 (nth j g_num 0) && Z.ltb (nth j g_num 0) (nth j g_den 1))%Z (seq 0 12) = true) by (vm_compute; reflexivity).
  rewrite forallb_forall in C. specialize (C j ltac:(apply in_seq; lia)). apply andb_true_iff in C. destruct C as [C1 C2]. apply Z.leb_le in C1. apply Z.ltb_lt in C2. apply IZR_le in C1. apply IZR_lt in C2.
  rewrite (gn_frac j H). assert (D := IZR_lt _ _ (g_den_pos j)). split.
  - apply Rmult_le_pos; [exact C1|]. left. now apply Rinv_0_lt_compat.
  - apply Rmult_lt_reg_r with (IZR (nth j g_den 1%Z)); [exact D|]. unfold Rdiv. rewrite Rmult_assoc, Rinv_l by lra. lra.
Qed.

Lemma iter_each : forall S (body : nat -> S -> res S) n lo x y, iter (seq lo n) body x = Ok y -> forall i, (lo <= i < lo + n)%nat -> exists a b, body i a = Ok b.
Proof.
  intros S body n. induction n as [|n IH]; intros lo x y H i Hi; [lia|]. cbn [seq iter] in H. destruct (body lo x) as [z|e] eqn:E; [|discriminate].
  destruct (Nat.eq_dec i lo) as [->|N]; [now exists x, z|]. apply (IH (Datatypes.S lo) z y H). lia.
Qed.
Lemma wr1_len : forall A (l : list A) i v l', wr1 l i v = Ok l' -> length l' = length l.
Proof. intros A l [|i] v l' H; [discriminate|]. cbn [wr1] in H. unfold wr in H. destruct (Nat.ltb_spec i (length l)); [|discriminate]. injection H as <-. now apply upd_len. Qed.

(** The lists keep their length *)
Lemma iter_len : forall A B (p : A -> list B) (body : nat -> A -> res A) l x y, (forall i a b, body i a = Ok b -> length (p b) = length (p a)) -> iter l body x = Ok y -> length (p y) = length (p x).
Proof.
  intros A B p body l. induction l as [|i l IH]; intros x y H E; cbn [iter] in E; [now injection E as <-|]. destruct (body i x) as [z|e] eqn:E1; [|discriminate]. rewrite (IH z y H E). now apply H with i.
Qed.
Ltac step H := match type of H with (match ?m with Ok _ => _ | Err _ => _ end) = _ => let E := fresh "E" in destruct m eqn:E; [|discriminate H] end.
Lemma next_len : forall is mp mp', flsm_next mp is = Ok (Some mp') -> length mp' = length mp.
Proof.
  induction is as [|i is IH]; intros mp mp' H; cbn [flsm_next] in H; [discriminate|]. step H. step H. destruct (Nat.leb a a0); [now apply IH|].
  assert (K : forall (q : list nat * nat), (if Nat.eqb i 2 then Ok (mp, (i - 1)%nat)
                   else
                     let! r := flsm_turn i a0 mp in
                     let '(mp, ixchng, lxchng) := r in
                     let! b := rd1 mp ixchng in
                     if Nat.leb b a0 then match lxchng with Some l => Ok (mp, l) | None => Err BadMemory end
                     else Ok (mp, ixchng)) = Ok q -> length (fst q) = length mp).
  { intros q Q. destruct (Nat.eqb i 2); [now injection Q as <-|]. destruct (flsm_turn i a0 mp) as [[[mp1 ix] lx]|e] eqn:T; [|discriminate].
    assert (L1 : length mp1 = length mp).
    { unfold flsm_turn in T. apply (iter_len _ _ (fun st => fst (fst st))) in T; [exact T|]. intros j [[m1 i1] l1] b B. cbn [fst]. step B. step B. step B. step B. injection B as <-. cbn [fst]. apply wr1_len in E3, E4. congruence. }
    step Q. destruct (Nat.leb a1 a0); [destruct lx; [|discriminate]|]; injection Q as <-; exact L1. }
  destruct (if Nat.eqb i 2 then _ else _) as [[mp1 ix]|e]; [|discriminate]. specialize (K _ eq_refl). cbn [fst] in K. step H. step H. step H. injection H as <-. apply wr1_len in E2, E3. congruence.
Qed.
Lemma nxprt_loop_len : forall is m msum m', nxprt_loop m msum is = Ok m' -> length m' = length m.
Proof.
  induction is as [|i is IH]; intros m msum m' H; cbn [nxprt_loop] in H; [now apply wr1_len in H|]. step H. step H. destruct (Nat.leb a0 (a + 1)); step H.
  - apply IH in H. apply wr1_len in E1. congruence.
  - apply (iter_len _ _ (fun x => x)) in H; [apply wr1_len in E1; congruence|]. intros j x y X. now apply wr1_len in X.
Qed.
Lemma nxprt_len : forall s m m', nxprt s m = Ok m' -> length m' = length m.
Proof. intros s m m' H. unfold nxprt in H. step H. now apply nxprt_loop_len in H. Qed.

Section Agree.
Variables (f g : list R -> res R) (s : nat) (center h : list R).
Hypothesis agree : forall x, inside center h x -> f x = g x.
Hypothesis c_len : length center = s.
Hypothesis h_len : length h = s.
Hypothesis h_pos : forall a, In a h -> 0 < a.

Lemma point_comp : forall mp ce hh sg i, length mp = length ce -> length hh = length ce -> length sg = length ce -> (i < length ce)%nat ->
  nth i (point mp ce hh sg) 0 = nth i ce 0 + gn (nth i mp 0%nat) * (if nth i sg false then - nth i hh 0 else nth i hh 0).
Proof.
  induction mp as [|j mp IH]; intros [|c ce] [|a hh] [|b sg] i L1 L2 L3 Hi; try discriminate; cbn [length] in *; [lia|]. cbn [point]. destruct i as [|i]; [reflexivity|]. cbn [nth]. apply IH; lia.
Qed.
Lemma point_inside : forall mp sg, vecok s mp -> length sg = s -> inside center h (point mp center h sg).
Proof.
  intros mp sg [V1 V2] L. split; [rewrite point_len; lia|]. intros a Ha. unfold comp. rewrite point_comp by lia.
  assert (G := gn_lt1 (nth (a - 1) mp 0%nat) ltac:(apply V2, nth_In; lia)). assert (P := h_pos (nth (a - 1) h 0) ltac:(apply nth_In; lia)). set (u := gn _) in *. set (v := nth (a - 1) h 0) in *.
  replace (nth (a - 1) center 0 + u * (if nth (a - 1) sg false then - v else v) - nth (a - 1) center 0) with (u * (if nth (a - 1) sg false then - v else v)) by ring.
  apply Rabs_def1; destruct (nth (a - 1) sg false); nra.
Qed.
Lemma signs_agree : forall mp, vecok s mp -> forall sg ls, visits (mask mp) sg ls -> fits (mask mp) sg -> forall fuel sumcls intsum,
  flsm_signs f s center fuel mp (point mp center h sg) (widths h sg) sumcls intsum = flsm_signs g s center fuel mp (point mp center h sg) (widths h sg) sumcls intsum /\
  forall r, flsm_signs g s center fuel mp (point mp center h sg) (widths h sg) sumcls intsum = Ok r -> snd r = h.
Proof.
  intros mp V sg ls H. assert (V' := V). destruct V' as [V1 V2]. assert (ML : length (mask mp) = s) by (unfold mask; now rewrite map_length).
  induction H as [sg E|sg sg' ls E H IH]; intros HF [|fuel] sumcls intsum; cbn [flsm_signs]; try (split; [reflexivity|discriminate]);
    (assert (Q := fits_len _ _ HF)); (rewrite agree by (apply point_inside; [exact V|lia])); (destruct (g (point mp center h sg)) as [v|e]; [|split; [reflexivity|discriminate]]);
    rewrite (flip_ok s center h c_len h_len h_pos mp sg V HF).
  - assert (B := inc_back (mask mp) sg Q E). destruct (inc (mask mp) sg) as [b t]. cbn [fst snd] in *. subst b t. rewrite ML, <- h_len, widths_plus. split; [reflexivity|]. intros r X. injection X as <-. reflexivity.
  - assert (IF := inc_fits _ _ HF). rewrite E in IF |- *. cbn [snd] in IF. apply IH. exact IF.
Qed.
Lemma bad_start : forall mp, length mp = s -> ~ vecok s mp -> forall hw, exists e, flsm_start s center mp hw = Err e.
Proof.
  intros mp L NV hw. destruct (flsm_start s center mp hw) as [x|e] eqn:E; [|now exists e]. exfalso. apply NV. split; [exact L|]. intros j Hj. apply (In_nth _ _ 0%nat) in Hj. destruct Hj as (i & Hi & <-).
  unfold flsm_start in E. destruct (iter_each _ _ _ _ _ _ E (S i)) as (a & b & B); [lia|]. cbv beta in B. rewrite (rd1_nth _ mp (S i) 0%nat) in B by lia. rewrite Nat.sub_succ, Nat.sub_0_r in B.
  destruct (Nat.lt_ge_cases (nth i mp 0%nat) 12) as [Q|Q]; [exact Q|]. exfalso. rewrite Nat.add_1_r in B. cbn [rd1] in B. unfold rd in B. replace (nth_error g_table (nth i mp 0%nat)) with (@None R) in B by (symmetry; apply nth_error_None; rewrite g_len; exact Q). discriminate.
Qed.
Lemma vecok_dec : forall mp, length mp = s -> vecok s mp \/ ~ vecok s mp.
Proof.
  intros mp L. destruct (Forall_dec (fun j => (j < 12)%nat) (fun j => lt_dec j 12) mp) as [F|F].
  - left. split; [exact L|]. now apply Forall_forall.
  - right. intros [_ V]. apply F. now apply Forall_forall.
Qed.
Lemma perms_agree : forall fuel w mp sumcls v, length mp = s ->
  flsm_perms f s center fuel w mp h sumcls v = flsm_perms g s center fuel w mp h sumcls v /\
  forall r, flsm_perms g s center fuel w mp h sumcls v = Ok r -> snd r = h.
Proof.
  induction fuel as [|fuel IH]; intros w mp sumcls v L; cbn [flsm_perms]; [split; [reflexivity|discriminate]|].
  destruct (vecok_dec mp L) as [V|V]; [|destruct (bad_start mp L V h) as [e ->]; split; [reflexivity|discriminate]].
  assert (ML : length (mask mp) = s) by (unfold mask; now rewrite map_length).
  rewrite (start_ok s center h c_len h_len mp V).
  destruct (signs_agree mp V _ _ (visits_all (mask mp)) (fits_plus _) (2 ^ s) sumcls 0) as [A B]. rewrite ML in A, B. assert (WP : widths h (repeat false s) = h) by (rewrite <- h_len; apply widths_plus). rewrite WP in A, B.
  rewrite A. destruct (flsm_signs g s center (2 ^ s) mp (point mp center h (repeat false s)) h sumcls 0) as [[[sc si] h']|e]; [|split; [reflexivity|discriminate]].
  specialize (B _ eq_refl). cbn [snd] in B. subst h'. destruct (flsm_next mp (seq 2 (s - 1))) as [[mp'|]|e] eqn:E; [|split; [reflexivity|]; intros r X; injection X as <-; reflexivity|split; [reflexivity|discriminate]].
  apply IH. rewrite (next_len _ _ _ E). exact L.
Qed.
Lemma flsm_agree : forall m maxord, length m = s -> flsm f s center h m maxord = flsm g s center h m maxord /\ forall r, flsm g s center h m maxord = Ok r -> snd r = h.
Proof.
  intros m maxord L. unfold flsm. destruct (iter _ _ _) as [w|e]; [|split; [reflexivity|discriminate]]. now apply perms_agree.
Qed.
Lemma parts_agree : forall fuel maxord prd d prtcnt m modofm intval st, length m = s -> y_h st = h ->
  sym_parts f s center fuel maxord prd d prtcnt m modofm intval st = sym_parts g s center fuel maxord prd d prtcnt m modofm intval st /\
  forall r, sym_parts g s center fuel maxord prd d prtcnt m modofm intval st = Ok r -> y_h (snd r) = h.
Proof.
  induction fuel as [|fuel IH]; intros maxord prd d prtcnt m modofm intval st L H; cbn [sym_parts]; [split; [reflexivity|discriminate]|].
  destruct (Nat.ltb 200 prtcnt); [split; [reflexivity|discriminate]|].
  destruct (if Nat.eqb d modofm then wr1 (y_weghts st) prtcnt (Some 0) else Ok (y_weghts st)) as [wg|e]; [|split; [reflexivity|discriminate]].
  destruct (if Nat.eqb d modofm then wr1 (y_fulsms st) prtcnt (Some 0) else Ok (y_fulsms st)) as [fs|e]; [|split; [reflexivity|discriminate]].
  destruct (wht s m modofm d prd) as [fw|e]; [|split; [reflexivity|discriminate]]. destruct (rs1 wg prtcnt) as [w|e]; [|split; [reflexivity|discriminate]].
  rewrite H. destruct (flsm_agree m maxord L) as [A B]. rewrite A. clear A.
  assert (C : forall q, (if (Reqb w 0 && negb (Reqb fw 0))%bool then
                     let! r := flsm g s center h m maxord in
                     let '(v, sumcls, h) := r in
                     let! fulsms := wr1 fs prtcnt (Some v) in
                     Ok (fulsms, sumcls, h)
                   else Ok (fs, 0%Z, h)) = Ok q -> snd q = h).
  { intros q Q. destruct (Reqb w 0 && negb (Reqb fw 0))%bool; [|injection Q as <-; reflexivity]. destruct (flsm g s center h m maxord) as [[[v sc] h']|e]; [|discriminate]. specialize (B _ eq_refl). cbn [snd] in B. subst h'. step Q. injection Q as <-. reflexivity. }
  destruct (if (Reqb w 0 && negb (Reqb fw 0))%bool then _ else _) as [[[fs' sc] h']|e]; [|split; [reflexivity|discriminate]]. specialize (C _ eq_refl). cbn [snd] in C. subst h'.
  destruct (rs1 fs' prtcnt) as [v|e]; [|split; [reflexivity|discriminate]]. destruct (wr1 wg prtcnt (Some (w + fw))) as [wg'|e]; [|split; [reflexivity|discriminate]].
  destruct (nxprt s m) as [m'|e] eqn:N; [|split; [reflexivity|discriminate]]. destruct (rd1 m' 1) as [m0|e]; [|split; [reflexivity|discriminate]].
  destruct (Nat.leb _ d); [|split; [reflexivity|]; intros r X; injection X as <-; reflexivity].
  apply IH; [rewrite (nxprt_len _ _ _ N); exact L|reflexivity].
Qed.
Lemma order_agree : forall maxord prd d st, y_h st = h ->
  sym_order f s center maxord prd d st = sym_order g s center maxord prd d st /\ forall r, sym_order g s center maxord prd d st = Ok r -> y_h r = h.
Proof.
  intros maxord prd d st H. unfold sym_order. destruct (parts_agree 201 maxord prd d 1 (repeat 0%nat s) 0 0 st (repeat_length _ _) H) as [A B]. rewrite A.
  destruct (sym_parts g s center 201 maxord prd d 1 (repeat 0%nat s) 0 0 st) as [[iv st']|e]; [|split; [reflexivity|discriminate]]. specialize (B _ eq_refl). cbn [snd] in B.
  split; [reflexivity|]. intros r X. step X. step X. injection X as <-. exact B.
Qed.
Lemma iter_agree : forall A (P : A -> Prop) (b1 b2 : nat -> A -> res A) l x, P x -> (forall i a, P a -> b1 i a = b2 i a /\ forall r, b2 i a = Ok r -> P r) ->
  iter l b1 x = iter l b2 x /\ forall r, iter l b2 x = Ok r -> P r.
Proof.
  intros A P b1 b2 l. induction l as [|i l IH]; intros x Hx H; cbn [iter]; [split; [reflexivity|]; intros r X; injection X as <-; exact Hx|].
  destruct (H i x Hx) as [E Q]. rewrite E. destruct (b2 i x) as [y|e]; [|split; [reflexivity|discriminate]]. apply IH; [now apply Q|exact H].
Qed.
Lemma symrl_agree : forall minord maxord st, y_h st = h ->
  symrl f s center minord maxord st = symrl g s center minord maxord st /\ forall r, symrl g s center minord maxord st = Ok (Some r) -> y_h r = h.
Proof.
  intros minord maxord st H. unfold symrl. destruct (momprd maxord) as [[prd|]|e]; [|split; [reflexivity|discriminate]|split; [reflexivity|discriminate]].
  set (st1 := if Nat.eqb minord 0 then _ else _). assert (H1 : y_h st1 = h) by (unfold st1; destruct (Nat.eqb minord 0); exact H). clearbody st1.
  destruct (iter_agree _ (fun st => y_h st = h) (sym_order f s center maxord prd) (sym_order g s center maxord prd) (seq minord (maxord - minord)) st1 H1) as [A B]; [intros i a Ha; now apply order_agree|].
  rewrite A. split; [reflexivity|]. intros r X. step X. injection X as <-. now apply B.
Qed.
Lemma rule_agree : forall o, rule f center h o = rule g center h o.
Proof.
  intros o. unfold rule, sym_calls. rewrite c_len. destruct (symrl_agree 0 4 (Sym (repeat None 20) 0 (repeat None 200) (repeat None 200) h) eq_refl) as [A B]. rewrite A.
  destruct (symrl g s center 0 4 _) as [r|e]; [|reflexivity].
  destruct (iter_agree _ (fun r => forall st, r = Some st -> y_h st = h) (fun maxord r => match r with Some st => symrl f s center (maxord - 1) maxord st | None => Ok None end) (fun maxord r => match r with Some st => symrl g s center (maxord - 1) maxord st | None => Ok None end) (seq 5 (o - 4)) r) as [C _].
  - intros st ->. now apply B.
  - intros i [st|] Ha; [|split; [reflexivity|]; intros r' X st X'; congruence]. destruct (symrl_agree (i - 1) i st (Ha _ eq_refl)) as [D1 D2]. split; [exact D1|]. intros r' X st' ->. now apply D2.
  - rewrite C. reflexivity.
Qed.

(** BSRL *)
Lemma along_inside : forall a t, (1 <= a <= s)%nat -> Rabs t < 1 -> inside center h (along a (t * comp a h) center).
Proof.
  intros a t Ha Ht. split; [apply along_len|]. intros b Hb. rewrite comp_along by exact Hb. assert (P : 0 < comp b h) by (apply h_pos; unfold comp; apply nth_In; lia). apply Rabs_def2 in Ht.
  destruct (Nat.eqb_spec b a) as [Q|Q]; [rewrite <- Q|]; apply Rabs_def1; nra.
Qed.
Lemma centre_inside : inside center h center.
Proof. split; [reflexivity|]. intros b Hb. assert (P : 0 < comp b h) by (apply h_pos; unfold comp; apply nth_In; lia). apply Rabs_def1; lra. Qed.
Lemma bsrl_agree : forall mv em d, bsrl f (rule f) s center h mv em d = bsrl g (rule g) s center h mv em d.
Proof.
  intros mv em d. unfold bsrl.
  assert (O : forall k o, bsrl_orders (rule f) center h mv em o k = bsrl_orders (rule g) center h mv em o k).
  { induction k as [|k IH]; intros o; cbn [bsrl_orders]; rewrite !rule_agree; [reflexivity|]. now rewrite IH. }
  rewrite O, (agree center centre_inside). destruct (bsrl_orders (rule g) center h mv em 4 8) as [r|e]; [|reflexivity]. destruct (g center) as [sum0|e]; [|reflexivity].
  assert (X : bsrl_axes f center h sum0 s = bsrl_axes g center h sum0 s); [|now rewrite X].
  unfold bsrl_axes. cbv zeta. assert (In_ : forall i, In i (seq 1 s) -> (1 <= i <= s)%nat) by (intros i Hi; apply in_seq in Hi; lia). revert In_. generalize (-1, 0%nat). generalize (seq 1 s). intros l. induction l as [|i l IH]; intros st In_; [reflexivity|]. cbn [iter].
  assert (Hi : (1 <= i <= s)%nat) by (apply In_; now left). rewrite !rd1_comp by lia.
  rewrite (wr1_along center i _ (- (1 / 4) * comp i h)) by (lia || field). rewrite (wr1_along center i _ (1 / 4 * comp i h)) by (lia || field). rewrite (wr1_along center i _ (- (3 / 4) * comp i h)) by (lia || field). rewrite (wr1_along center i _ (3 / 4 * comp i h)) by (lia || field).
  rewrite !agree by (apply along_inside; [exact Hi|apply Rabs_def1; lra]).
  destruct (g (along i (- (1 / 4) * comp i h) center)) as [a1|e]; [|reflexivity]. destruct (g (along i (1 / 4 * comp i h) center)) as [a2|e]; [|reflexivity]. destruct (g (along i (- (3 / 4) * comp i h) center)) as [a3|e]; [|reflexivity]. destruct (g (along i (3 / 4 * comp i h) center)) as [a4|e]; [|reflexivity].
  cbv zeta. destruct (Rltb _ (fst st)); apply IH; intros j Hj; apply In_; now right.
Qed.
End Agree.

(** The whole *)
Lemma adapt_agree : forall f g lower upper relacc maxfac wrkfac, List.Forall2 Rlt lower upper ->
  (forall x, between lower upper x -> f x = g x) ->
  adapt f (rule f) lower upper relacc maxfac wrkfac = adapt g (rule g) lower upper relacc maxfac wrkfac.
Proof.
  intros f g lower upper relacc maxfac wrkfac LU AG. assert (LL := f2_len _ _ LU).
  destruct (le_lt_dec 2 (length lower)) as [G2|G2].
  2: { transitivity (Ok (@None (R * R * Z))); [|symmetry]; apply (proj2 (adapt_none _ _ lower upper _ _ _)); try exact LL; lia. }
  destruct (le_lt_dec (length lower) 20) as [G20|G20].
  2: { transitivity (Ok (@None (R * R * Z))); [|symmetry]; apply (proj2 (adapt_none _ _ lower upper _ _ _)); try exact LL; lia. }
  apply (adapt_cong g f (rule g) (rule f) (fun c h => (forall a, In a h -> 0 < a) /\ forall x, inside c h x -> f x = g x)).
  - lia.
  - exact LL.
  - intros a c h Lc Lh Ha [P A]. split; (split; [now apply half_pos|]; intros x Hx; apply A; apply (halves_in a c h x); [congruence|lia|auto]).
  - intros c h mv em d Lc Lh [P A]. now apply bsrl_agree.
  - split; [now apply half_of_pos|]. intros x [Lx Hx]. destruct (box_len lower upper LL) as [B1 B2]. rewrite B1 in Lx, Hx. apply AG; split;
    clear - LU Lx Hx LL; revert x Lx Hx; unfold centre_of, half_of; induction LU as [|l u lo up H HF IH]; intros [|v x] Lx Hx; try discriminate; constructor.
    + specialize (Hx 1%nat ltac:(cbn; lia)). unfold comp in Hx. cbn in Hx. apply Rabs_def2 in Hx. lra.
    + apply IH; [cbn in LL; lia|cbn in Lx; lia|]. intros a Ha. specialize (Hx (S a) ltac:(cbn [length]; lia)). cbn [combine map fst snd] in Hx. rewrite !comp_S in Hx by lia. exact Hx.
    + specialize (Hx 1%nat ltac:(cbn; lia)). unfold comp in Hx. cbn in Hx. apply Rabs_def2 in Hx. lra.
    + apply IH; [cbn in LL; lia|cbn in Lx; lia|]. intros a Ha. specialize (Hx (S a) ltac:(cbn [length]; lia)). cbn [combine map fst snd] in Hx. rewrite !comp_S in Hx by lia. exact Hx.
Qed.

(** Integrands that are polynomials inside the box *)
Section Inside.
Variables (f : list R -> res R) (p : list (R * list nat)) (lower upper : list R).
Hypothesis f_is : forall x, between lower upper x -> f x = Ok (poly p x).
Hypothesis in_order : List.Forall2 Rlt lower upper.
Variables (relacc : R) (maxfac wrkfac : Z).
Hypothesis p_ok : tame 1 (length lower) p.
Lemma as_poly : adapt f (rule f) lower upper relacc maxfac wrkfac = adapt (SyLemmas12.f p) (rule (SyLemmas12.f p)) lower upper relacc maxfac wrkfac.
Proof. apply adapt_agree; [exact in_order|exact f_is]. Qed.
Lemma inside_ok : (2 <= length lower <= 19)%nat -> integral lower upper (poly p) <> 0 -> 0 < relacc ->
  exists j, (1 <= j <= 50)%nat /\ let npts := ((2 * Z.of_nat j - 1) * (points (length lower) + 4 * Z.of_nat (length lower)))%Z in
    (rulcls (length lower) <= npts)%Z /\ adapt f (rule f) lower upper relacc maxfac wrkfac = Ok (Some (integral lower upper (poly p), 0, npts)).
Proof. intros Hn NZ Hr. rewrite as_poly. apply (poly_ok p (length lower) ltac:(lia) p_ok lower upper eq_refl in_order); [lia|exact NZ|exact Hr]. Qed.
Lemma inside_low : (2 <= length lower <= 9)%nat -> integral lower upper (poly p) <> 0 -> 0 < relacc ->
  adapt f (rule f) lower upper relacc maxfac wrkfac = Ok (Some (integral lower upper (poly p), 0, (points (length lower) + 4 * Z.of_nat (length lower))%Z)).
Proof. intros Hn NZ Hr. rewrite as_poly. apply (poly_low p (length lower) ltac:(lia) p_ok lower upper eq_refl in_order); [lia|exact NZ|exact Hr]. Qed.
Lemma inside_zero : (2 <= length lower <= 20)%nat -> integral lower upper (poly p) = 0 -> relacc <= 1 -> adapt f (rule f) lower upper relacc maxfac wrkfac = Err RuntimeError.
Proof. intros Hn Z Hr. rewrite as_poly. now apply (poly_zero p (length lower) Hn p_ok lower upper eq_refl in_order). Qed.
Lemma inside_20 : length lower = 20%nat -> adapt f (rule f) lower upper relacc maxfac wrkfac = Err RuntimeError.
Proof. intros Hn. rewrite as_poly. apply (poly_20 p (length lower) ltac:(lia) p_ok lower upper eq_refl in_order _ _ _ Hn). Qed.
End Inside.

Lemma few_big : forall d ks, (list_sum ks <= 2 * d + 1)%nat -> (length (filter (fun k => Nat.leb 2 k) ks) <= d)%nat.
Proof.
  intros d ks H. assert (Q : (2 * length (filter (fun k => Nat.leb 2 k) ks) <= list_sum ks)%nat); [|lia]. clear H. induction ks as [|k ks IH]; [cbn; lia|]. cbn [filter]. change (list_sum (k :: ks)) with (k + list_sum ks)%nat. destruct (Nat.leb_spec 2 k); cbn [length]; lia.
Qed.
Lemma in_sum : forall k ks, In k ks -> (k <= list_sum ks)%nat.
Proof. intros k ks. induction ks as [|j ks IH]; intros H; [destruct H|]. change (list_sum (j :: ks)) with (j + list_sum ks)%nat. destruct H as [->|H]; [lia|]. specialize (IH H). lia. Qed.
Lemma cubic_tame : forall n p, of_degree 3 n p -> tame 1 n p.
Proof. intros n p H c ks Hin. destruct (H c ks Hin) as [L D]. split; [exact L|]. split; [intros k Hk; apply in_sum in Hk; lia|]. apply few_big. lia. Qed.

(** The rule, for an integrand defined inside the box *)
Lemma inside_corners : forall c h x, length h = length c -> inside c h x -> between (low_corner c h) (high_corner c h) x.
Proof.
  unfold low_corner, high_corner. induction c as [|v c IH]; intros [|a h] x L [Lx H]; try discriminate; destruct x as [|y x]; try discriminate; [split; constructor|]. cbn [combine map fst snd].
  destruct (IH h x) as [B1 B2]; [now injection L|split; [now injection Lx|]; intros b Hb; specialize (H (S b) ltac:(cbn [length]; lia)); rewrite !comp_S in H by lia; exact H|].
  specialize (H 1%nat ltac:(cbn; lia)). unfold comp in H. cbn in H. apply Rabs_def2 in H. split; (constructor; [lra|assumption]).
Qed.
Lemma rule_inside : forall f p c h o, length h = length c -> (1 <= length c <= 20)%nat -> (forall a, In a h -> 0 < a) -> (1 <= o <= 12)%nat ->
  (forall x, between (low_corner c h) (high_corner c h) x -> f x = Ok (poly p x)) -> tame (o - 1) (length c) p ->
  exists z, rule f c h o = Ok (integral (low_corner c h) (high_corner c h) (poly p), z).
Proof.
  intros f p c h o Lh Hn Hp Ho Hf T. exists (sumZ (map (evs (length c)) (seq 0 (Nat.max 4 o)))).
  rewrite (rule_agree f (fun x => Ok (poly p x)) (length c) c h); [|intros x Hx; apply Hf; now apply inside_corners|reflexivity|exact Lh|exact Hp].
  apply rule_exact; try assumption; reflexivity.
Qed.
Lemma rule_points : forall f F c h o, length h = length c -> (1 <= length c <= 20)%nat -> (forall a, In a h -> 0 < a) -> (1 <= o <= 4)%nat ->
  (forall x, between (low_corner c h) (high_corner c h) x -> f x = Ok (F x)) -> exists v, rule f c h o = Ok (v, points (length c)).
Proof.
  intros f F c h o Lh Hn Hp Ho Hf. exists (sg (o - 1) (term F (length c) c h)).
  rewrite (rule_agree f (fun x => Ok (F x)) (length c) c h); [|intros x Hx; apply Hf; now apply inside_corners|reflexivity|exact Lh|exact Hp].
  rewrite (rule_is (fun x => Ok (F x)) F (length c) c h); try assumption; try reflexivity; [|lia]. replace (Nat.max 4 o) with 4%nat by lia. now rewrite points_is.
Qed.

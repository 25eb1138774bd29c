(** dcuhre in other units, continued *)

From Coq Require Import List Bool Arith ZArith Reals Lra Lia.
From Verif Require Import Exn Instances McModel BaModel BaLemmas ObsModel AdModel AdSpec CubModel DcModel DcScale.
Import ListNotations.
Open Scope R_scope.

Lemma lrel_le : forall A A' (P P' : nat -> A -> A' -> Prop) l l', (forall i x x', (1 <= i)%nat -> P i x x' -> P' i x x') -> lrel P l l' -> lrel P' l l'.
Proof. intros A A' P P' l l' H [L K]. split; [exact L|]. intros i x x' E E'. apply H; [lia|]. now apply K. Qed.
Lemma any_rd : forall A A' (P : nat -> A -> A' -> Prop) l l' i, lrel P l l' -> rrel (fun x x' => P i x x') (rd1 l i) (rd1 l' i).
Proof. intros. now apply rd1_rel. Qed.

Section Heap.
Variable AK : R.
Hypothesis AK_pos : 0 < AK.
Definition gr (c c' : column) : Prop := c_great c' = AK * c_great c.
Lemma gr_lt : forall a a' b b', gr a a' -> gr b b' -> Rltb (c_great a') (c_great b') = Rltb (c_great a) (c_great b).
Proof. intros a a' b b' A B. rewrite A, B. now apply ltb_scale. Qed.

Section Moves.
Variable m : nat.
Variable P : nat -> column -> column -> Prop.
Hypothesis uniform : forall i i' c c', (1 <= i <= m)%nat -> (1 <= i' <= m)%nat -> P i c c' -> P i' c c'.
Hypothesis great : forall i c c', (1 <= i <= m)%nat -> (2 <= m)%nat -> P i c c' -> gr c c'.
Definition mrel (p p' : nat * list column) : Prop := fst p' = fst p /\ (1 <= fst p)%nat /\ lrel P (snd p) (snd p').
Lemma wr_col : forall cs cs' i c c', lrel P cs cs' -> P i c c' -> rrel (lrel P) (wr1 cs i c) (wr1 cs' i c').
Proof. intros cs cs' i c c' H C. eapply rrel_le; [|apply (wr1_rel _ _ P cs cs' i c c' H C)]. intros x x' [X _]. exact X. Qed.
Lemma down_rel : forall fuel i r r' cs cs', (1 <= i)%nat -> ((1 <= m)%nat -> (i <= m)%nat) -> ((2 <= m)%nat -> gr r r') -> lrel P cs cs' -> rrel (fun p p' => mrel p p' /\ ((1 <= m)%nat -> (fst p <= m)%nat)) (dtr_down fuel m i r cs) (dtr_down fuel m i r' cs').
Proof.
  induction fuel as [|fuel IH]; intros i r r' cs cs' H1 Hi Hr Hc; cbn [dtr_down]; [reflexivity|]. cbv zeta.
  destruct (Nat.leb_spec (2 * i) m) as [L|L]; [|split; [split; [reflexivity|split; [exact H1|exact Hc]]|exact Hi]].
  eapply bind_rel; [apply (any_rd _ _ P); exact Hc|]. intros a a' Ha.
  eapply (bind_rel _ _ _ _ (fun q q' => q' = q /\ (1 <= q <= m)%nat)).
  - destruct (Nat.eqb_spec (2 * i) m); [split; [reflexivity|lia]|]. eapply bind_rel; [apply (any_rd _ _ P); exact Hc|]. intros b b' Hb. cbn [rrel]. rewrite (gr_lt a a' b b'); [|eapply great; [|lia|exact Ha]; lia|eapply great; [|lia|exact Hb]; lia]. split; [reflexivity|]. destruct (Rltb _ _); lia.
  - intros q ? [-> Hq]. eapply bind_rel; [apply (any_rd _ _ P); exact Hc|]. intros b b' Hb. rewrite (gr_lt r r' b b'); [|apply Hr; lia|eapply great; [|lia|exact Hb]; lia]. destruct (Rltb _ _).
    + eapply bind_rel; [apply (wr_col cs cs' i b b' Hc); eapply uniform; [| |exact Hb]; lia|]. intros d d' Hd. apply IH; [lia|lia|exact Hr|exact Hd].
    + split; [split; [reflexivity|split; [exact H1|exact Hc]]|exact Hi].
Qed.
Lemma up_rel : forall fuel i r r' cs cs', (1 <= i <= m)%nat -> ((2 <= m)%nat -> gr r r') -> lrel P cs cs' -> rrel (fun p p' => mrel p p' /\ (fst p <= m)%nat) (dtr_up fuel i r cs) (dtr_up fuel i r' cs').
Proof.
  induction fuel as [|fuel IH]; intros i r r' cs cs' Hi Hr Hc; cbn [dtr_up]; [reflexivity|]. cbv zeta.
  destruct (Nat.leb_spec 1 (i / 2)) as [L|L]; [|split; [split; [reflexivity|split; [exact (proj1 Hi)|exact Hc]]|exact (proj2 Hi)]].
  assert (B : (i / 2 < i)%nat) by (apply Nat.div_lt; lia). assert (2 <= i)%nat by (destruct (Nat.eq_dec i 1) as [->|]; [cbn in L|]; lia).
  eapply bind_rel; [apply (any_rd _ _ P); exact Hc|]. intros a a' Ha. rewrite (gr_lt a a' r r'); [|eapply great; [|lia|exact Ha]; lia|apply Hr; lia]. destruct (Rltb _ _).
  - eapply bind_rel; [apply (wr_col cs cs' i a a' Hc); eapply uniform; [| |exact Ha]; lia|]. intros d d' Hd. apply IH; [lia|exact Hr|exact Hd].
  - split; [split; [reflexivity|split; [exact (proj1 Hi)|exact Hc]]|exact (proj2 Hi)].
Qed.
Lemma insert_rel : forall i cs cs', (1 <= i <= m)%nat -> lrel P cs cs' -> rrel (lrel P) (dtr_insert i cs) (dtr_insert i cs').
Proof.
  intros i cs cs' Hi Hc. unfold dtr_insert. eapply bind_rel; [apply (any_rd _ _ P); exact Hc|]. intros r r' Hr.
  eapply bind_rel; [apply up_rel; [exact Hi|intros; eapply great; [|assumption|exact Hr]; lia|exact Hc]|]. intros [j d] [j' d'] [(E & J1 & D) J2]. cbn [fst snd] in *. subst j'. destruct (Nat.ltb 0 i); [|exact D]. apply wr_col; [exact D|]. eapply uniform; [| |exact Hr]; lia.
Qed.
End Moves.
(** The region at m goes into the place of the first one *)
Lemma remove_rel : forall m P cs cs', (1 <= m)%nat -> lrel P cs cs' ->
  (forall i i' c c', (1 <= i <= m)%nat -> (1 <= i' <= m)%nat -> P i c c' -> P i' c c') -> (forall i c c', (1 <= i <= m)%nat -> (2 <= m)%nat -> P i c c' -> gr c c') ->
  rrel (fun r r' => fst r' = fst r /\ fst r = (m - 1)%nat /\ lrel P (snd r) (snd r')) (dtr_remove m cs) (dtr_remove m cs').
Proof.
  intros m P cs cs' Hm Hc Un Gr. unfold dtr_remove. eapply bind_rel; [apply (any_rd _ _ P); exact Hc|]. intros r r' Hr. cbv zeta.
  eapply bind_rel; [apply (down_rel (m - 1) P); [intros i i' c c' A B; apply Un; lia|intros i c c' A B; apply Gr; lia|lia|lia|intros; eapply Gr; [| |exact Hr]; lia|exact Hc]|].
  intros [j d] [j' d'] [(E & J1 & D) J2]. cbn [fst snd] in *. subst j'. eapply (bind_rel _ _ _ _ (lrel P)).
  - destruct (Nat.ltb_spec 0 (m - 1)); [|exact D]. apply (wr_col P); [exact D|]. apply (Un m); [lia|lia|exact Hr].
  - intros u u' Hu. split; [reflexivity|split; [reflexivity|exact Hu]].
Qed.
End Heap.

Section Units.
Variable n : nat.
Variables s k : R.
Variable t : nat -> R.
Hypothesis s_pos : 0 < s.
Hypothesis k_not : k <> 0.
Variables f f' : list R -> vec.
Hypothesis same : forall x x', prel n s t x x' -> forall j, f' x' j = k * f x j.
Variable numfun : nat.
Variable tb : table.
Variable num : Z.
Let K := s ^ n * k.
Let AK := s ^ n * Rabs k.
Lemma AK_pos : 0 < AK.
Proof. apply Rmult_lt_0_compat; [now apply pow_lt|now apply Rabs_pos_lt]. Qed.
Lemma AK_is : Rabs K = AK.
Proof. unfold K, AK. rewrite Rabs_mult, Rabs_right; [reflexivity|]. apply Rle_ge, pow_le. lra. Qed.

Definition box (c c' : column) : Prop := prel n s t (c_cen c) (c_cen c') /\ hrel s (c_hw c) (c_hw c').
Definition val (c c' : column) : Prop := box c c' /\ vrel K (c_val c) (c_val c') /\ vrel AK (c_err c) (c_err c') /\ c_axis c' = c_axis c.
Definition col (b : bool) (c c' : column) : Prop := val c c' /\ (b = true -> gr AK c c').
Definition some (m : nat) (b : bool) (B V : nat -> Prop) (i : nat) (c c' : column) : Prop := ((1 <= i <= m)%nat -> col b c c') /\ (B i -> box c c') /\ (V i -> val c c').

Lemma rule_rel : forall m b (B V : nat -> Prop) i g g' cs cs', B i -> (m < i)%nat -> (forall l, g' l = g l) -> lrel (some m b B V) cs cs' ->
  rrel (fun r r' => lrel (some m b B (fun q => V q \/ q = i)) (fst r) (fst r') /\ forall l, snd r' l = snd r l) (dad_rule f n numfun tb i g cs) (dad_rule f' n numfun tb i g' cs').
Proof.
  intros m b B V i g g' cs cs' Bi Hi Hg Hc. unfold dad_rule. eapply bind_rel; [apply (any_rd _ _ (some m b B V)); exact Hc|]. intros c c' (_ & Q & _). destruct (Q Bi) as [Q1 Q2].
  eapply bind_rel; [apply (drl_rel n s k t s_pos k_not f f' same); eassumption|]. intros [[[v e] d] g1] [[[v' e'] d'] g1'] (Hv & He & -> & Hg1).
  eapply bind_rel; [apply (wr1_rel' _ _ (some m b B V) (some m b B (fun q => V q \/ q = i))); [exact Hc| |]|].
  - split; [lia|]. split; [intros _; split; assumption|]. intros _. split; [split; assumption|]. split; [exact Hv|]. split; [exact He|reflexivity].
  - intros q x x' N (X1 & X2 & X3). split; [exact X1|]. split; [exact X2|]. intros [A|A]; [now apply X3|contradiction].
  - intros x x' [X _]. split; [exact X|exact Hg1].
Qed.
Lemma two_rel : forall o o' v v' w w' e e' u u', vrel K o o' -> vrel K v v' -> vrel K w w' -> vrel AK e e' -> vrel AK u u' -> vrel AK (dad_error tb o v w e u) (dad_error tb o' v' w' e' u').
Proof.
  intros o o' v v' w w' e e' u u' Ho Hv Hw He Hu j. unfold dad_error. rewrite Ho, Hv, Hw, He, Hu. cbv zeta. replace (K * o j - (K * v j + K * w j)) with (K * (o j - (v j + w j))) by ring. rewrite Rabs_mult, AK_is. replace (AK * e j + AK * u j) with (AK * (e j + u j)) by ring. assert (P := AK_pos).
  replace (Rltb 0 (AK * (e j + u j))) with (Rltb 0 (e j + u j)) by (rewrite <- (ltb_scale AK 0 (e j + u j) P), Rmult_0_r; reflexivity). destruct (Rltb 0 (e j + u j)) eqn:Q; [|ring]. apply Rltb_spec in Q. field. split; lra.
Qed.
Lemma greatest_rel : forall e e', vrel AK e e' -> dad_greatest numfun e' = AK * dad_greatest numfun e.
Proof.
  intros e e' He. unfold dad_greatest. assert (X : forall l d d', d' = AK * d -> fold_left (fun g j => if Rltb g (e' j) then e' j else g) l d' = AK * fold_left (fun g j => if Rltb g (e j) then e j else g) l d); [|apply X; ring].
  induction l as [|j l IH]; intros d d' Hd; cbn [fold_left]; [exact Hd|]. apply IH. rewrite Hd, He, ltb_scale by apply AK_pos. now destruct (Rltb _ _).
Qed.

(** The states of the main loop; GREATE of the first region has no value yet *)
Definition strel (b : bool) (st st' : state) : Prop :=
  lrel (fun i c c' => (i <= sbrgns st)%nat -> col b c c') (cols st) (cols st') /\ sbrgns st' = sbrgns st /\ (1 <= sbrgns st)%nat /\
  vrel K (result st) (result st') /\ vrel AK (abserr st) (abserr st') /\ neval st' = neval st /\ (forall i, gcols st' i = gcols st i) /\ (b = true \/ sbrgns st = 1%nat).
Lemma pass_rel : forall b st st', strel b st st' -> rrel (strel true) (dad_pass f n numfun tb num st) (dad_pass f' n numfun tb num st').
Proof.
  intros b st st' (S1 & S2 & S3 & S4 & S5 & S6 & S7 & S8). unfold dad_pass. cbv zeta. rewrite S2, S6. set (m := sbrgns st) in *. assert (AP := AK_pos).
  eapply bind_rel; [apply (any_rd _ _ (fun i c c' => (i <= m)%nat -> col b c c')); exact S1|]. intros c c' Hc. specialize (Hc S3). destruct Hc as (((Bc & Bh) & Cv & Ce & Ca) & _). rewrite Ca. set (d := c_axis c).
  eapply bind_rel; [apply (hrd s); exact Bh|]. intros h h' Hh. eapply bind_rel; [apply (hwr s _ _ d (h / 2) (h' / 2) Bh); rewrite Hh; unfold Rdiv; ring|]. intros hw hw' Hw.
  eapply bind_rel; [apply (prd n s t); exact Bc|]. intros oc oc' Ho. eapply bind_rel; [apply (pwr n s t _ _ d (oc - h / 2) (oc' - h' / 2) Bc); rewrite Ho, Hh; unfold Rdiv; ring|]. intros low low' Hl.
  eapply bind_rel; [apply (any_rd _ _ (fun i c c' => (i <= m)%nat -> col b c c')); exact S1|]. intros p p' _.
  eapply bind_rel; [apply (wr1_rel' _ _ (fun i c c' => (i <= m)%nat -> col b c c') (some m b (fun i => i = (m + 1)%nat) (fun _ => False))); [exact S1| |]|].
  { split; [lia|]. split; [intros _; split; assumption|intros []]. }
  { intros i x x' N X. split; [intros I; apply X; lia|]. split; [intros E; contradiction|intros []]. }
  intros cs cs' [Hcs _].
  eapply bind_rel; [apply (remove_rel AK AP m _ cs cs' S3 Hcs)|].
  { intros i i' x x' I I' (X1 & X2 & X3). split; [intros _; apply X1; lia|]. split; [lia|intros []]. }
  { intros i x x' I M (X1 & _). destruct (X1 ltac:(lia)) as [_ X]. apply X. destruct S8; [assumption|lia]. }
  intros [sb cs2] [sb' cs2'] (E1 & E2 & H2). cbn [fst snd] in *. subst sb' sb. clear cs cs' Hcs.
  eapply bind_rel; [apply (any_rd _ _ (some m b (fun i => i = (m + 1)%nat) (fun _ => False))); exact H2|]. intros q q' _.
  eapply bind_rel; [apply (pwr n s t _ _ d (oc + h / 2) (oc' + h' / 2) Hl); rewrite Ho, Hh; unfold Rdiv; ring|]. intros high high' Hi.
  replace (m + 1 - 1)%nat with m by lia. replace (m - 1 + 1)%nat with m by lia. replace (m - 1 + 2)%nat with (m + 1)%nat by lia.
  eapply bind_rel; [apply (wr1_rel' _ _ (some m b (fun i => i = (m + 1)%nat) (fun _ => False)) (some (m - 1) b (fun i => i = m \/ i = (m + 1)%nat) (fun _ => False))); [exact H2| |]|].
  { split; [lia|]. split; [intros _; split; assumption|intros []]. }
  { intros i x x' N (X1 & X2 & _). split; [intros; apply X1; lia|]. split; [intros [E|E]; [contradiction|now apply X2]|intros []]. }
  intros cs3 cs3' [H3 _].
  eapply bind_rel; [apply (rule_rel (m - 1) b (fun i => i = m \/ i = (m + 1)%nat) (fun _ => False) m (gcols st) (gcols st') cs3 cs3' (or_introl eq_refl) ltac:(lia) S7 H3)|]. intros [cs4 g] [cs4' g'] [H4 Hg]. cbn [fst snd] in *.
  eapply bind_rel; [apply (rule_rel (m - 1) b (fun i => i = m \/ i = (m + 1)%nat) (fun q => False \/ q = m) (m + 1) (gcols st) (gcols st') cs4 cs4' (or_intror eq_refl) ltac:(lia) S7 H4)|]. intros [cs5 g5] [cs5' g5'] [H5 _]. cbn [fst snd] in *.
  eapply bind_rel; [apply (any_rd _ _ _ _ _ _ H5)|]. intros x x' (_ & _ & X). destruct (X (or_introl (or_intror eq_refl))) as (Xb & Xv & Xe & Xa). clear X.
  eapply bind_rel; [apply (any_rd _ _ _ _ _ _ H5)|]. intros y y' (_ & _ & Y). destruct (Y (or_intror eq_refl)) as (Yb & Yv & Ye & Ya). clear Y.
  assert (EA := two_rel _ _ _ _ _ _ _ _ _ _ Cv Xv Yv Xe Ye). assert (EB := two_rel _ _ _ _ _ _ _ _ _ _ Cv Xv Yv Ye Xe).
  eapply bind_rel; [eapply (wr1_rel' _ _ _ (fun i c c' => ((1 <= i <= m - 1)%nat -> col b c c') /\ (i = m -> col true c c'))); [exact H5| |]|].
  { split; [lia|]. intros _. split; [split; [exact Xb|split; [exact Xv|split; [exact EA|exact Xa]]]|]. intros _. unfold gr. cbn [c_great]. now apply greatest_rel. }
  { intros i z z' N (Z1 & _). split; [exact Z1|]. intros E. contradiction. }
  intros cs6 cs6' [H6 _].
  eapply bind_rel; [eapply (wr1_rel' _ _ _ (fun i c c' => (1 <= i <= m + 1)%nat -> col true c c')); [exact H6| |]|].
  { intros _. split; [split; [exact Yb|split; [exact Yv|split; [exact EB|exact Ya]]]|]. intros _. unfold gr. cbn [c_great]. now apply greatest_rel. }
  { intros i z z' N (Z1 & Z2) I. destruct (Nat.eq_dec i m) as [E|E]; [now apply Z2|]. destruct S8 as [-> |M1]; [apply Z1; lia|lia]. }
  intros cs7 cs7' [H7 _].
  assert (Un : forall i i' z z', (1 <= i <= m + 1)%nat -> (1 <= i' <= m + 1)%nat -> ((1 <= i <= m + 1)%nat -> col true z z') -> (1 <= i' <= m + 1)%nat -> col true z z') by auto.
  assert (Gr : forall i z z', (1 <= i <= m + 1)%nat -> (2 <= m + 1)%nat -> ((1 <= i <= m + 1)%nat -> col true z z') -> gr AK z z') by (intros i z z' I _ Z; destruct (Z I) as [_ Q]; now apply Q).
  eapply bind_rel; [apply (insert_rel AK AP (m + 1) (fun i c c' => (1 <= i <= m + 1)%nat -> col true c c') Un Gr m cs7 cs7' ltac:(lia) H7)|]. intros cs8 cs8' H8.
  eapply bind_rel; [apply (insert_rel AK AP (m + 1) (fun i c c' => (1 <= i <= m + 1)%nat -> col true c c') Un Gr (m + 1) cs8 cs8' ltac:(lia) H8)|]. intros cs9 cs9' H9.
  unfold strel. cbn [rrel cols sbrgns result abserr neval gcols]. split; [|split; [reflexivity|split; [lia|split; [|split; [|split; [reflexivity|split; [exact Hg|left; reflexivity]]]]]]].
  - eapply lrel_le; [|exact H9]. intros i z z' I Z J. apply Z. lia.
  - intros j. rewrite S4, Cv, Xv, Yv. ring.
  - intros j. rewrite S5, Ce, EA, EB. ring.
Qed.
Lemma loop_rel : forall minsub maxsub epsabs epsrel fuel b st st', strel b st st' ->
  rrel (fun r r' => fst r' = fst r /\ exists b, strel b (snd r) (snd r')) (dad_loop f n numfun tb num fuel minsub maxsub epsabs epsrel st) (dad_loop f' n numfun tb num fuel minsub maxsub (AK * epsabs) epsrel st').
Proof.
  intros minsub maxsub epsabs epsrel. induction fuel as [|fuel IH]; intros b st st' H; cbn [dad_loop]; [reflexivity|]. assert (E : sbrgns st' = sbrgns st) by apply H. rewrite E. destruct (Z.of_nat (sbrgns st) + 1 <=? maxsub)%Z; [|split; [reflexivity|exists b; exact H]].
  eapply bind_rel; [eapply pass_rel; exact H|]. clear b st st' H E. intros st st' H. assert (H' := H). destruct H' as (S1 & S2 & S3 & S4 & S5 & S6 & S7 & S8). rewrite S2. destruct (Z.of_nat (sbrgns st) <? minsub)%Z; [eapply IH; exact H|].
  replace (existsb (fun j => Rltb (epsrel * Rabs (result st' j)) (abserr st' j) && Rltb (AK * epsabs) (abserr st' j)) (seq 1 numfun)) with (existsb (fun j => Rltb (epsrel * Rabs (result st j)) (abserr st j) && Rltb epsabs (abserr st j)) (seq 1 numfun)).
  - destruct (existsb _ _); [eapply IH; exact H|]. split; [reflexivity|exists true; exact H].
  - induction (seq 1 numfun) as [|j l IHl]; [reflexivity|]. cbn [existsb]. rewrite IHl. f_equal. rewrite S4, S5, Rabs_mult, AK_is. rewrite ltb_scale by apply AK_pos. replace (epsrel * (AK * Rabs (result st j))) with (AK * (epsrel * Rabs (result st j))) by ring. now rewrite ltb_scale by apply AK_pos.
Qed.
Definition orel (o o' : output) : Prop := vrel K (o_result o) (o_result o') /\ vrel AK (o_abserr o) (o_abserr o') /\ o_neval o' = o_neval o /\ o_ifail o' = o_ifail o.
Lemma dad_rel : forall a b a' b' minsub maxsub epsabs epsrel junk junk', prel n s t a a' -> prel n s t b b' ->
  rrel orel (dadhre f n numfun tb num a b minsub maxsub epsabs epsrel junk) (dadhre f' n numfun tb num a' b' minsub maxsub (AK * epsabs) epsrel junk').
Proof.
  intros a b a' b' minsub maxsub epsabs epsrel junk junk' Ha Hb. unfold dadhre. cbv zeta.
  assert (Pab : lrel (fun i p p' => fst p' = t i + s * fst p /\ snd p' = t i + s * snd p) (combine a b) (combine a' b')).
  { destruct Ha as [La [La' Ha]], Hb as [Lb [Lb' Hb]]. split; [rewrite !combine_length; congruence|]. intros i [x y] [x' y'] E E'. cbn [fst snd].
    assert (X : forall (u w : list R) i p, nth_error (combine u w) i = Some p -> nth_error u i = Some (fst p) /\ nth_error w i = Some (snd p)).
    { clear. induction u as [|x u IH]; intros [|y w] [|i] p E; try discriminate; cbn in *; [injection E as <-; auto|]. now apply IH. }
    destruct (X _ _ _ _ E), (X _ _ _ _ E'). cbn [fst snd] in *. split; [eapply Ha; eassumption|eapply Hb; eassumption]. }
  assert (Cen : prel n s t (map (fun ab => (fst ab + snd ab) / 2) (combine a b)) (map (fun ab => (fst ab + snd ab) / 2) (combine a' b'))).
  { destruct Pab as [L Q]. split; [rewrite map_length, combine_length; destruct Ha as [-> _], Hb as [-> _]; lia|]. split; [rewrite !map_length; exact L|]. intros i x x' E E'. rewrite nth_error_map in E, E'. destruct (nth_error (combine a b) i) as [p|] eqn:F; [|discriminate]. destruct (nth_error (combine a' b') i) as [p'|] eqn:F'; [|discriminate]. injection E as <-. injection E' as <-. destruct (Q _ _ _ F F') as [-> ->]. field. }
  assert (Hw : hrel s (map (fun ab => Rabs (snd ab - fst ab) / 2) (combine a b)) (map (fun ab => Rabs (snd ab - fst ab) / 2) (combine a' b'))).
  { destruct Pab as [L Q]. split; [rewrite !map_length; exact L|]. intros i x x' E E'. rewrite nth_error_map in E, E'. destruct (nth_error (combine a b) i) as [p|] eqn:F; [|discriminate]. destruct (nth_error (combine a' b') i) as [p'|] eqn:F'; [|discriminate]. injection E as <-. injection E' as <-. destruct (Q _ _ _ F F') as [-> ->]. replace (t (S i) + s * snd p - (t (S i) + s * fst p)) with (s * (snd p - fst p)) by ring. rewrite Rabs_mult, (Rabs_right s) by lra. unfold Rdiv. ring. }
  eapply bind_rel; [apply (wr1_rel' _ _ (fun _ _ _ => True) (some 0 false (fun i => i = 1%nat) (fun _ => False))); [split; [now rewrite !repeat_length|intros; exact I]| |]|].
  { split; [lia|]. split; [intros _; split; assumption|intros []]. }
  { intros i x x' N _. split; [lia|]. split; [intros E; contradiction|intros []]. }
  intros cs1 cs1' [H1 _].
  eapply bind_rel; [apply (rule_rel 0 false (fun i => i = 1%nat) (fun _ => False) 1 (t_g tb) (t_g tb) cs1 cs1' eq_refl ltac:(lia) (fun _ => eq_refl) H1)|]. intros [cs2 g] [cs2' g'] [H2 Hg]. cbn [fst snd] in *.
  eapply bind_rel; [apply (any_rd _ _ _ _ _ _ H2)|]. intros c c' (_ & _ & C). destruct (C (or_intror eq_refl)) as (Cb & Cv & Ce & Ca).
  assert (H2' : lrel (fun i c c' => (1 <= i <= 1)%nat -> col false c c') cs2 cs2').
  { eapply lrel_le; [|exact H2]. intros i x x' _ (_ & _ & X) J. split; [apply X; right; lia|discriminate]. }
  assert (Un : forall i i' z z', (1 <= i <= 1)%nat -> (1 <= i' <= 1)%nat -> ((1 <= i <= 1)%nat -> col false z z') -> (1 <= i' <= 1)%nat -> col false z z') by auto.
  assert (Gr : forall i z z', (1 <= i <= 1)%nat -> (2 <= 1)%nat -> ((1 <= i <= 1)%nat -> col false z z') -> gr AK z z') by (intros; lia).
  eapply bind_rel; [apply (insert_rel AK AK_pos 1 (fun i c c' => (1 <= i <= 1)%nat -> col false c c') Un Gr 1 cs2 cs2' ltac:(lia) H2')|]. intros cs3 cs3' H3.
  eapply bind_rel; [apply (loop_rel minsub maxsub epsabs epsrel (Z.to_nat maxsub) false)|].
  { unfold strel. cbn [cols sbrgns result abserr neval gcols]. split; [|split; [reflexivity|split; [lia|split; [|split; [|split; [reflexivity|split; [exact Hg|right; reflexivity]]]]]]].
    - eapply lrel_le; [|exact H3]. intros i x x' I X J. apply X. lia.
    - intros j. rewrite Cv. ring.
    - intros j. rewrite Ce. ring. }
  intros [ifail st] [ifail' st'] [E [bb (S1 & S2 & S3 & S4 & S5 & S6 & _)]]. cbn [fst snd] in *. subst ifail'. rewrite S2.
  eapply bind_rel; [apply (iter_rel _ _ (fun r r' => vrel K (fst r) (fst r') /\ vrel AK (snd r) (snd r')))|].
  - intros i r r' Hi [R1 R2]. apply in_seq in Hi. eapply bind_rel; [apply (any_rd _ _ _ _ _ i S1)|]. intros x x' X. destruct (X ltac:(lia)) as ((_ & Xv & Xe & _) & _). split; intros j; cbn [fst snd]; [rewrite R1, Xv|rewrite R2, Xe]; unfold vec in *; ring.
  - split; intros j; cbn [fst snd]; ring.
  - intros r r' [R1 R2]. unfold orel. cbn [rrel o_result o_abserr o_neval o_ifail]. split; [|split; [exact R2|split; [exact S6|reflexivity]]].
    assert (SG : intsgn a' b' = intsgn a b).
    { clear -Pab s_pos. unfold intsgn. destruct Pab as [L Q]. revert L Q. generalize (combine a b) (combine a' b'). intros l l'. generalize 1. generalize t. revert l'. induction l as [|p l IH]; intros [|p' l'] tt z L Q; try discriminate; [reflexivity|]. cbn [fold_left].
      destruct (Q O p p' eq_refl eq_refl) as [E1 E2]. replace (Rltb (snd p') (fst p')) with (Rltb (snd p) (fst p)).
      - apply (IH l' (fun i => tt (S i))); [cbn in L; lia|]. intros i x x' X X'. exact (Q (S i) x x' X X').
      - rewrite E1, E2. unfold Rltb. destruct (Rlt_dec (snd p) (fst p)) as [A|A], (Rlt_dec _ _) as [B|B]; try reflexivity; exfalso; [apply B; apply Rplus_lt_compat_l; now apply Rmult_lt_compat_l|apply A; apply (Rmult_lt_reg_l s); [assumption|lra]]. }
    intros j. rewrite SG, R1. apply Rmult_assoc.
Qed.
End Units.

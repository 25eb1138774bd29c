(** The partially ordered list *)

From Coq Require Import List Bool Arith ZArith Reals Permutation Lra Lia.
From Verif Require Import Exn Instances McModel BaModel BaLemmas ObsModel ObsLemmas2 AdModel AdSpec AdLemmas.
Import ListNotations.
Open Scope nat_scope.

Definition dreg : region := Region 0 0 0 [] [].
(** The error of region m, counting from one *)
Definition er (rs : list region) (m : nat) : R := r_err (nth (m - 1) rs dreg).

(** Order with a gap at place p, to be filled with error e *)
Definition gap_order (rs : list region) (p : nat) : Prop :=
  (forall m, 2 <= m <= length rs -> m <> p -> m / 2 <> p -> (er rs m <= er rs (m / 2))%R) /\
  (forall m, 2 <= m <= length rs -> m / 2 = p -> 2 <= p -> (er rs m <= er rs (p / 2))%R).
Definition above (rs : list region) (p : nat) (e : R) : Prop := 2 <= p -> (e <= er rs (p / 2))%R.
Definition below (rs : list region) (p : nat) (e : R) : Prop := forall m, 2 <= m <= length rs -> m / 2 = p -> (er rs m <= e)%R.
Definition ordered (rs : list region) : Prop := forall m, 2 <= m <= length rs -> (er rs m <= er rs (m / 2))%R.

Lemma nth_upd' : forall A i (v d : A) p j, i < length p -> nth j (upd i v p) d = if Nat.eqb j i then v else nth j p d.
Proof.
  intros A i v d p j H. generalize (nth_upd A i v p j H). intros Q.
  destruct (Nat.eqb j i) eqn:X; [now apply nth_error_nth|].
  destruct (nth_error p j) eqn:Y; [rewrite (nth_error_nth _ _ _ Y); now apply nth_error_nth|].
  rewrite nth_overflow by (apply nth_error_None; exact Q). symmetry. apply nth_overflow. now apply nth_error_None.
Qed.
Lemma er_upd : forall rs p r m, 1 <= p <= length rs -> 1 <= m -> er (upd (p - 1) r rs) m = if Nat.eqb m p then r_err r else er rs m.
Proof.
  intros rs p r m Hp Hm. unfold er. rewrite nth_upd' by lia.
  destruct (Nat.eqb_spec (m - 1) (p - 1)), (Nat.eqb_spec m p); try reflexivity; lia.
Qed.

(** Filling the gap *)
Lemma fill : forall rs p r, 1 <= p <= length rs -> gap_order rs p -> above rs p (r_err r) -> below rs p (r_err r) -> ordered (upd (p - 1) r rs).
Proof.
  intros rs p r Hp [A B] C D m Hm. rewrite upd_len in Hm by lia.
  assert (1 <= m / 2) by (apply Nat.div_le_lower_bound; lia).
  assert (m / 2 < m) by (apply Nat.div_lt; lia).
  rewrite !er_upd by lia.
  destruct (Nat.eqb_spec m p) as [->|N].
  - destruct (Nat.eqb_spec (p / 2) p); [lia|]. apply C. lia.
  - destruct (Nat.eqb_spec (m / 2) p) as [E|N']; [now apply D|now apply A].
Qed.
Lemma top : forall rs m, ordered rs -> 1 <= m <= length rs -> (er rs m <= er rs 1)%R.
Proof.
  intros rs m H. induction m as [m IH] using lt_wf_ind. intros Hm.
  destruct (Nat.eq_dec m 1) as [->|N]; [apply Rle_refl|].
  assert (1 <= m / 2) by (apply Nat.div_le_lower_bound; lia).
  assert (m / 2 < m) by (apply Nat.div_lt; lia).
  apply Rle_trans with (er rs (m / 2)); [apply H; lia|]. apply IH; lia.
Qed.
(** A new order from an old one *)
Lemma open_top : forall rs, ordered rs -> gap_order rs 1.
Proof. intros rs H. split; [intros m Hm _ _; now apply H|]. intros; lia. Qed.
Lemma open_end : forall rs r, ordered rs -> gap_order (rs ++ [r]) (S (length rs)) /\ forall e, below (rs ++ [r]) (S (length rs)) e.
Proof.
  intros rs r H. assert (L : length (rs ++ [r]) = S (length rs)) by (rewrite app_length; cbn; lia).
  assert (X : forall m, 1 <= m <= length rs -> er (rs ++ [r]) m = er rs m) by (intros m Hm; unfold er; rewrite app_nth1 by lia; reflexivity).
  assert (Z : forall m, 2 <= m -> m / 2 < m) by (intros m Hm; apply Nat.div_lt; lia).
  assert (Z' : forall m, 2 <= m -> 1 <= m / 2) by (intros m Hm; apply Nat.div_le_lower_bound; lia).
  split; [split|].
  - intros m Hm N N'. specialize (Z m). specialize (Z' m). rewrite !X by lia. apply H. lia.
  - intros m Hm E _. specialize (Z m). lia.
  - intros e m Hm E. specialize (Z m). lia.
Qed.

(** Moving a region into the gap *)
Lemma swap_perm : forall (rs : list region) p q x, 1 <= p <= length rs -> 1 <= q <= length rs -> p <> q ->
  Permutation (upd (p - 1) x rs) (upd (q - 1) x (upd (p - 1) (nth (q - 1) rs dreg) rs)).
Proof.
  intros rs p q x Hp Hq N.
  assert (L : length (upd (p - 1) x rs) = length rs) by (apply upd_len; lia).
  assert (L1 : length (upd (p - 1) (nth (q - 1) rs dreg) rs) = length rs) by (apply upd_len; lia).
  assert (L2 : length (upd (q - 1) x (upd (p - 1) (nth (q - 1) rs dreg) rs)) = length rs) by (rewrite upd_len by lia; exact L1).
  apply (Permutation_nth _ _ dreg). split; [congruence|].
  exists (fun k => if Nat.eqb k (p - 1) then q - 1 else if Nat.eqb k (q - 1) then p - 1 else k).
  split; [|split].
  - intros k Hk. destruct (Nat.eqb_spec k (p - 1)); [lia|]. destruct (Nat.eqb_spec k (q - 1)); lia.
  - intros a b Ha Hb. destruct (Nat.eqb_spec a (p - 1)), (Nat.eqb_spec b (p - 1)), (Nat.eqb_spec a (q - 1)), (Nat.eqb_spec b (q - 1)); lia.
  - intros k Hk. rewrite !nth_upd' by lia.
    destruct (Nat.eqb_spec k (p - 1)) as [->|N1].
    + destruct (Nat.eqb_spec (p - 1) (q - 1)); [lia|]. destruct (Nat.eqb_spec (q - 1) (p - 1)); [lia|]. reflexivity.
    + destruct (Nat.eqb_spec k (q - 1)) as [->|N2]; [rewrite Nat.eqb_refl; reflexivity|].
      destruct (Nat.eqb_spec k (p - 1)); [lia|]. reflexivity.
Qed.
Lemma gap_down : forall rs p c e, 1 <= p <= length rs -> 2 <= c <= length rs -> c / 2 = p -> gap_order rs p -> (e <= er rs c)%R ->
  (forall m, 2 <= m <= length rs -> m / 2 = p -> (er rs m <= er rs c)%R) ->
  gap_order (upd (p - 1) (nth (c - 1) rs dreg) rs) c /\ above (upd (p - 1) (nth (c - 1) rs dreg) rs) c e.
Proof.
  intros rs p c e Hp Hc E [A B] He M. fold (er rs c) in *.
  assert (Z : forall m, 2 <= m -> m / 2 < m) by (intros m Hm; apply Nat.div_lt; lia).
  assert (Z' : forall m, 2 <= m -> 1 <= m / 2) by (intros m Hm; apply Nat.div_le_lower_bound; lia).
  assert (Zc := Z c). assert (X : r_err (nth (c - 1) rs dreg) = er rs c) by reflexivity.
  split; [split|].
  - rewrite upd_len by lia. intros m Hm N N'. specialize (Z m). specialize (Z' m). rewrite !er_upd, X by lia.
    destruct (Nat.eqb_spec m p) as [->|N1].
    + destruct (Nat.eqb_spec (p / 2) p); [lia|]. apply B; [lia|exact E|lia].
    + destruct (Nat.eqb_spec (m / 2) p) as [E2|N2]; [now apply M|now apply A].
  - rewrite upd_len by lia. intros m Hm Em _. specialize (Z m). rewrite E. rewrite !er_upd, X by lia. rewrite Nat.eqb_refl.
    destruct (Nat.eqb_spec m p); [lia|]. rewrite <- Em. apply A; lia.
  - intros _. rewrite E, er_upd, X by lia. now rewrite Nat.eqb_refl.
Qed.
Lemma gap_up : forall rs p e, 2 <= p <= length rs -> gap_order rs p -> below rs p e -> (er rs (p / 2) <= e)%R ->
  gap_order (upd (p - 1) (nth (p / 2 - 1) rs dreg) rs) (p / 2) /\ below (upd (p - 1) (nth (p / 2 - 1) rs dreg) rs) (p / 2) e.
Proof.
  intros rs p e Hp [A B] D He.
  assert (Z : forall m, 2 <= m -> m / 2 < m) by (intros m Hm; apply Nat.div_lt; lia).
  assert (Z' : forall m, 2 <= m -> 1 <= m / 2) by (intros m Hm; apply Nat.div_le_lower_bound; lia).
  assert (Zp := Z p). assert (Zp' := Z' p).
  assert (X : r_err (nth (p / 2 - 1) rs dreg) = er rs (p / 2)) by reflexivity.
  split; [split|].
  - rewrite upd_len by lia. intros m Hm N N'. specialize (Z m). specialize (Z' m). rewrite !er_upd, X by lia.
    destruct (Nat.eqb_spec m p) as [->|N1]; [lia|].
    destruct (Nat.eqb_spec (m / 2) p) as [E2|N2]; [apply B; lia|now apply A].
  - rewrite upd_len by lia. intros m Hm Em Hq. assert (Zq := Z (p / 2) Hq). assert (Zq' := Z' (p / 2) Hq). rewrite !er_upd, X by lia.
    assert (U : (er rs (p / 2) <= er rs (p / 2 / 2))%R) by (apply A; lia).
    destruct (Nat.eqb_spec (p / 2 / 2) p); [lia|].
    destruct (Nat.eqb_spec m p) as [->|N1]; [exact U|]. apply Rle_trans with (er rs (p / 2)); [|exact U]. rewrite <- Em. apply A; lia.
  - unfold below. rewrite upd_len by lia. intros m Hm Em. specialize (Z m). rewrite !er_upd, X by lia.
    destruct (Nat.eqb_spec m p) as [->|N1]; [exact He|]. apply Rle_trans with (er rs (p / 2)); [|exact He]. rewrite <- Em. apply A; lia.
Qed.

(** The copy, for the list of regions *)
Lemma copy_listed : forall n w rs p q, 1 <= p <= length rs -> 1 <= q <= length rs -> p <> q -> length rs * (2 * n + 3) <= length w ->
  listed n w rs (Some (p - 1)) ->
  exists w', copy_region (2 * n + 3) (p * (2 * n + 3)) (q * (2 * n + 3)) w = Ok w' /\ length w' = length w /\
    listed n w' (upd (p - 1) (nth (q - 1) rs dreg) rs) (Some (q - 1)) /\
    forall k, length rs * (2 * n + 3) <= k -> cell w' k = cell w k.
Proof.
  intros n w rs p q Hp Hq N L H.
  destruct (copy_ok (2 * n + 3) (p - 1) (q - 1) w) as (w' & E & L' & C); [lia|nia|nia|].
  replace (p - 1 + 1) with p in * by lia. replace (q - 1 + 1) with q in * by lia.
  exists w'. split; [exact E|]. split; [exact L'|]. split.
  - intros i r Ni Hr t Ht. assert (Ni' : i <> q - 1) by congruence. rewrite nth_upd in Hr by lia. rewrite C.
    destruct (Nat.eqb_spec i (p - 1)) as [->|N'].
    + destruct (Nat.leb_spec ((p - 1) * (2 * n + 3)) ((p - 1) * (2 * n + 3) + t)), (Nat.ltb_spec ((p - 1) * (2 * n + 3) + t) (p * (2 * n + 3))); cbn [andb]; try nia.
      replace ((p - 1) * (2 * n + 3) + t - (p - 1) * (2 * n + 3) + (q - 1) * (2 * n + 3)) with ((q - 1) * (2 * n + 3) + t) by lia.
      apply H; [intros X; injection X; lia| |exact Ht]. injection Hr as <-. apply nth_error_nth'. lia.
    + assert (Hi : i < length rs) by (apply nth_error_Some; congruence).
      assert (Q : (((p - 1) * (2 * n + 3) <=? i * (2 * n + 3) + t) && (i * (2 * n + 3) + t <? p * (2 * n + 3)))%bool = false).
      { destruct (Nat.leb_spec ((p - 1) * (2 * n + 3)) (i * (2 * n + 3) + t)), (Nat.ltb_spec (i * (2 * n + 3) + t) (p * (2 * n + 3))); cbn [andb]; try reflexivity. exfalso. nia. }
      rewrite Q. apply H; [congruence|exact Hr|exact Ht].
  - intros k Hk. rewrite C. destruct (Nat.ltb_spec k (p * (2 * n + 3))); [nia|]. now rewrite andb_false_r.
Qed.

Lemma listed_err : forall n w rs p m, listed n w rs (Some (p - 1)) -> 1 <= p -> 1 <= m <= length rs -> m <> p -> rs1 w (m * (2 * n + 3)) = Ok (er rs m).
Proof.
  intros n w rs p m H Hp Hm N. replace m with (m - 1 + 1) at 1 by lia. apply holds_err. apply H; [intros X; injection X; lia|]. apply nth_error_nth'. lia.
Qed.

(** What the two searches give *)
Definition placed (n : nat) (w : list (option R)) (rs : list region) (p : nat) (e : R) (out : nat * list (option R)) : Prop :=
  exists q rs', fst out = q * (2 * n + 3) /\ 1 <= q <= length rs /\ length rs' = length rs /\ length (snd out) = length w /\
    listed n (snd out) rs' (Some (q - 1)) /\ (forall k, length rs * (2 * n + 3) <= k -> cell (snd out) k = cell w k) /\
    (forall x, Permutation (upd (p - 1) x rs) (upd (q - 1) x rs')) /\ gap_order rs' q /\ above rs' q e /\ below rs' q e.

Lemma two_children : forall m p, m / 2 = p -> m = 2 * p \/ m = 2 * p + 1.
Proof. intros m p H. generalize (Nat.div_mod m 2). generalize (Nat.mod_upper_bound m 2). lia. Qed.
Lemma down_ok : forall fuel n e rs p w, 1 <= p <= length rs -> length rs < fuel + p -> length rs * (2 * n + 3) <= length w ->
  listed n w rs (Some (p - 1)) -> gap_order rs p -> above rs p e ->
  exists out, move_down fuel (2 * n + 3) (length rs * (2 * n + 3)) e (p * (2 * n + 3)) w = Ok out /\ placed n w rs p e out.
Proof.
  induction fuel as [|fuel IH]; intros n e rs p w Hp Hf L H G A; [lia|]. cbn [move_down].
  assert (B1 : (length rs * (2 * n + 3) <? 2 * (p * (2 * n + 3))) = (length rs <? 2 * p)) by (destruct (Nat.ltb_spec (length rs * (2 * n + 3)) (2 * (p * (2 * n + 3)))), (Nat.ltb_spec (length rs) (2 * p)); try reflexivity; nia).
  rewrite B1. destruct (Nat.ltb_spec (length rs) (2 * p)) as [H1|H1].
  { eexists. split; [reflexivity|]. exists p, rs. cbn [fst snd]. split; [reflexivity|]. split; [lia|]. split; [reflexivity|]. split; [reflexivity|].
    split; [exact H|]. split; [reflexivity|]. split; [reflexivity|]. split; [exact G|]. split; [exact A|].
    intros m Hm E. apply two_children in E. lia. }
  (* the larger child *)
  assert (CH : exists c, (c = 2 * p \/ c = 2 * p + 1) /\ c <= length rs /\
    (forall m, 2 <= m <= length rs -> m / 2 = p -> (er rs m <= er rs c)%R) /\
    (if Nat.eqb (2 * (p * (2 * n + 3))) (length rs * (2 * n + 3)) then Ok (2 * (p * (2 * n + 3)))
     else let! a := rs1 w (2 * (p * (2 * n + 3))) in let! b := rs1 w (2 * (p * (2 * n + 3)) + (2 * n + 3)) in
          Ok (if Rltb a b then 2 * (p * (2 * n + 3)) + (2 * n + 3) else 2 * (p * (2 * n + 3)))) = Ok (c * (2 * n + 3))).
  { destruct (Nat.eqb_spec (2 * (p * (2 * n + 3))) (length rs * (2 * n + 3))) as [E|NE].
    - exists (2 * p). split; [now left|]. split; [lia|]. split.
      + intros m Hm E2. apply two_children in E2. destruct E2 as [->| ->]; [apply Rle_refl|nia].
      + f_equal. lia.
    - assert (S2 : 2 * p + 1 <= length rs) by nia.
      replace (2 * (p * (2 * n + 3)) + (2 * n + 3)) with ((2 * p + 1) * (2 * n + 3)) by lia. replace (2 * (p * (2 * n + 3))) with (2 * p * (2 * n + 3)) by lia.
      rewrite (listed_err n w rs p (2 * p) H) by lia. rewrite (listed_err n w rs p (2 * p + 1) H) by lia.
      destruct (Rltb (er rs (2 * p)) (er rs (2 * p + 1))) eqn:Q.
      + apply Rltb_spec in Q. exists (2 * p + 1). split; [now right|]. split; [lia|]. split; [|reflexivity].
        intros m Hm E2. apply two_children in E2. destruct E2 as [->| ->]; [now apply Rlt_le|apply Rle_refl].
      + apply Rltb_false in Q. exists (2 * p). split; [now left|]. split; [lia|]. split; [|reflexivity].
        intros m Hm E2. apply two_children in E2. destruct E2 as [->| ->]; [apply Rle_refl|lra]. }
  destruct CH as (c & Hc & Lc & M & ->).
  assert (Ec : c / 2 = p) by (destruct Hc as [->| ->]; [apply half_even|apply half_odd]).
  rewrite (listed_err n w rs p c H) by lia.
  destruct (Rleb (er rs c) e) eqn:Q.
  { apply Rleb_spec in Q. eexists. split; [reflexivity|]. exists p, rs. cbn [fst snd]. split; [reflexivity|]. split; [lia|]. split; [reflexivity|]. split; [reflexivity|].
    split; [exact H|]. split; [reflexivity|]. split; [reflexivity|]. split; [exact G|]. split; [exact A|].
    intros m Hm E. apply Rle_trans with (er rs c); [now apply M|exact Q]. }
  apply Rleb_false in Q.
  destruct (copy_listed n w rs p c) as (w' & -> & L' & H' & T'); [lia|lia|lia|exact L|exact H|].
  destruct (gap_down rs p c e) as [G' A']; [lia|lia|exact Ec|exact G|lra|exact M|].
  set (rs' := upd (p - 1) (nth (c - 1) rs dreg) rs) in *.
  assert (Lr : length rs' = length rs) by (apply upd_len; lia).
  rewrite <- Lr.
  destruct (IH n e rs' c w') as (out & -> & q & rs2 & F & Hq & Lq & Lw & Hl & T & P & G2 & A2 & B2); [lia|lia|lia|exact H'|exact G'|exact A'|].
  exists out. split; [reflexivity|]. exists q, rs2. split; [exact F|]. split; [lia|]. split; [lia|]. split; [congruence|]. split; [exact Hl|].
  split; [intros k Hk; rewrite T by lia; apply T'; lia|]. split; [|split; [exact G2|split; [exact A2|exact B2]]].
  intros x. eapply Permutation_trans; [|apply P]. apply swap_perm; lia.
Qed.

Lemma up_ok : forall fuel n e rs p w, 1 <= p <= length rs -> p <= fuel -> length rs * (2 * n + 3) <= length w ->
  listed n w rs (Some (p - 1)) -> gap_order rs p -> below rs p e ->
  exists out, move_up fuel (2 * n + 3) e (p * (2 * n + 3)) w = Ok out /\ placed n w rs p e out.
Proof.
  induction fuel as [|fuel IH]; intros n e rs p w Hp Hf L H G B; [lia|]. cbn [move_up].
  replace (p * (2 * n + 3) / ((2 * n + 3) * 2)) with (p / 2) by (rewrite (Nat.mul_comm (2 * n + 3) 2), Nat.div_mul_cancel_r by lia; reflexivity).
  assert (B1 : (p / 2 * (2 * n + 3) <? 2 * n + 3) = (p / 2 <? 1)) by (destruct (Nat.ltb_spec (p / 2 * (2 * n + 3)) (2 * n + 3)), (Nat.ltb_spec (p / 2) 1); try reflexivity; nia).
  rewrite B1. destruct (Nat.ltb_spec (p / 2) 1) as [H1|H1].
  { eexists. split; [reflexivity|]. exists p, rs. cbn [fst snd]. split; [reflexivity|]. split; [lia|]. split; [reflexivity|]. split; [reflexivity|].
    split; [exact H|]. split; [reflexivity|]. split; [reflexivity|]. split; [exact G|]. split; [|exact B].
    intros Hp2. assert (1 <= p / 2) by (apply Nat.div_le_lower_bound; lia). lia. }
  assert (P2 : 2 <= p) by (destruct p as [|[|p]]; [lia|cbn in H1; lia|lia]).
  assert (P3 : p / 2 < p) by (apply Nat.div_lt; lia).
  rewrite (listed_err n w rs p (p / 2) H) by lia.
  destruct (Rleb e (er rs (p / 2))) eqn:Q.
  { apply Rleb_spec in Q. eexists. split; [reflexivity|]. exists p, rs. cbn [fst snd]. split; [reflexivity|]. split; [lia|]. split; [reflexivity|]. split; [reflexivity|].
    split; [exact H|]. split; [reflexivity|]. split; [reflexivity|]. split; [exact G|]. split; [|exact B]. intros _. exact Q. }
  apply Rleb_false in Q.
  destruct (copy_listed n w rs p (p / 2)) as (w' & -> & L' & H' & T'); [lia|lia|lia|exact L|exact H|].
  destruct (gap_up rs p e) as [G' B']; [lia|exact G|exact B|lra|].
  set (rs' := upd (p - 1) (nth (p / 2 - 1) rs dreg) rs) in *.
  assert (Lr : length rs' = length rs) by (apply upd_len; lia).
  destruct (IH n e rs' (p / 2) w') as (out & -> & q & rs2 & F & Hq & Lq & Lw & Hl & T & P & G2 & A2 & B2); [lia|lia|lia|exact H'|exact G'|exact B'|].
  exists out. split; [reflexivity|]. exists q, rs2. split; [exact F|]. split; [lia|]. split; [lia|]. split; [congruence|]. split; [exact Hl|].
  split; [intros k Hk; rewrite T by lia; apply T'; lia|]. split; [|split; [exact G2|split; [exact A2|exact B2]]].
  intros x. eapply Permutation_trans; [|apply P]. apply swap_perm; lia.
Qed.

(** Storing in the gap that was found *)
Lemma store_placed : forall n rs p w b c h out, placed n w rs p (b_errest b) out -> length c = n -> length h = n -> length rs * (2 * n + 3) <= length w ->
  let r := Region (b_errest b) (b_basest b) (b_divaxn b) c h in
  exists w' rs', store n (fst out) b c h (snd out) = Ok w' /\ length w' = length w /\ length rs' = length rs /\ listed n w' rs' None /\
    (forall k, length rs * (2 * n + 3) <= k -> cell w' k = cell w k) /\ Permutation (upd (p - 1) r rs) rs' /\ ordered rs'.
Proof.
  intros n rs p w b c h out (q & rs1 & F & Hq & L1 & Lw & Hl & T & P & G & A & B) Lc Lh L r. rewrite F.
  destruct (store_ok n (q - 1) b c h (snd out) Lc Lh) as (w' & E & L' & Hr & O); [replace (q - 1 + 1) with q by lia; nia|].
  replace (q - 1 + 1) with q in * by lia. fold r in Hr.
  exists w', (upd (q - 1) r rs1). split; [exact E|]. split; [congruence|]. split; [rewrite upd_len; lia|]. split.
  - intros i r' _ Hi. rewrite nth_upd in Hi by lia. destruct (Nat.eqb_spec i (q - 1)) as [->|N].
    + injection Hi as <-. exact Hr.
    + intros t Ht. assert (Hi' : i < length rs1) by (apply nth_error_Some; congruence). rewrite O; [apply (Hl i r'); [congruence|exact Hi|exact Ht]|]. nia.
  - split; [intros k Hk; rewrite O; [now apply T|nia]|]. split; [apply P|]. apply fill; [lia|exact G|exact A|exact B].
Qed.

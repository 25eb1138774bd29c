(** The rules are exact for polynomials *)

From Coq Require Import List Bool Arith ZArith Reals Permutation Lra Lia.
From Coquelicot Require Import Coquelicot.
From Verif Require CubLemmas2.
From Verif Require Import Exn Instances CountSpec McModel McLemmas5 BaModel BaLemmas ObsModel AdModel AdLemmas AdLemmas2 SyModel SyLemmas SyLemmas2 SyLemmas3 SyLemmas4 SyLemmas5 SyLemmas6 SyLemmas7 SyLemmas8 SyLemmas9 SySpec.
Import ListNotations.
Open Scope R_scope.

Lemma W_perm : forall p m d, Permutation p m -> W p d = W m d.
Proof. intros p m d H. unfold W. rewrite (list_sum_perm _ _ H). apply conv_perm. now apply Permutation_map. Qed.
Lemma term_msum : forall F s center h d, term F s center h d = sg d (fun q => msum s q (fun p => full F center h p * conv (map (fun j k => wt j (j + k)%nat) p) (d - q))).
Proof.
  intros F s center h d. unfold term, upto_sum. rewrite sumR_flat, sg_sumR. f_equal. apply map_ext. intros q. rewrite msum_parts. f_equal. apply map_ext_in. intros m Hm. apply parts_all in Hm. destruct Hm as (L & D & S).
  unfold Psi. rewrite sumR_mul. f_equal. apply map_ext_in. intros p Hp. apply (permsof_all m D) in Hp. rewrite <- (W_perm p m d Hp). unfold W. rewrite (list_sum_perm _ _ Hp), S. ring.
Qed.
Lemma term_prod : forall fl s center h d, length fl = s -> length center = s -> length h = s ->
  term (prodf fl) s center h d = conv (map (fun C j => sg j (fun p => wt p j * C p)) (cells fl center h)) d.
Proof.
  intros fl s center h d L1 L2 L3. rewrite term_msum, <- smolyak. assert (CL : length (cells fl center h) = s).
  { clear d. revert fl center h L1 L2 L3. induction s as [|s IH]; intros [|g fl] [|c center] [|a h] L1 L2 L3; try discriminate; [reflexivity|]. cbn [cells length] in *. now rewrite IH by lia. }
  rewrite CL. apply sg_ext. intros q _. apply msum_ext. intros p Lp _. now rewrite full_prod by lia.
Qed.
Lemma term_lin : forall F G a b s center h d, term (fun x => a * F x + b * G x) s center h d = a * term F s center h d + b * term G s center h d.
Proof.
  intros F G a b s center h d. rewrite !term_msum, !sg_mul, sg_plus. apply sg_ext. intros q _. rewrite !msum_mul, msum_plus. apply msum_ext. intros p _ _. rewrite full_lin. ring.
Qed.
Lemma term_ext : forall F G s center h d, length center = s -> length h = s -> (forall x, length x = s -> F x = G x) -> term F s center h d = term G s center h d.
Proof.
  intros F G s center h d L1 L2 H. rewrite !term_msum. apply sg_ext. intros q _. apply msum_ext. intros p Lp _. rewrite (full_ext F G) by (rewrite ?Lp; assumption). reflexivity.
Qed.

Lemma conv_ext_le : forall l l' r, Forall2 (fun a b => forall k, (k <= r)%nat -> a k = b k) l l' -> conv l r = conv l' r.
Proof.
  intros l l' r H. enough (Q : forall q, (q <= r)%nat -> conv l q = conv l' q) by (apply Q; lia). induction H as [|a b l l' E H IH]; intros q Hq; [reflexivity|]. cbn [conv]. apply sg_ext. intros i Hi. rewrite E, IH by lia. reflexivity.
Qed.

(** One coordinate *)
Definition part1 (k : nat) (c a : R) : R := ((c + a) ^ S k - (c - a) ^ S k) / INR (S k).
Definition sums (k : nat) (c a : R) (j : nat) : R :=
  match k, j with
  | O, O => 2 * a | 1%nat, O => 2 * a * c | 2%nat, O => 2 * a * c ^ 2 | 3%nat, O => 2 * a * c ^ 3
  | 2%nat, 1%nat => 2 / 3 * a ^ 3 | 3%nat, 1%nat => 2 / 3 * a ^ 3 * (3 * c)
  | _, _ => 0
  end.
Lemma row_mono : forall k c a j, (k <= 3)%nat -> (j < 12)%nat -> sg j (fun p => wt p j * cell (fun x => x ^ k) c a p) = sums k c a j.
Proof.
  intros k c a j Hk Hj.
  assert (G : forall e0 e1 e2 e3, (forall x, x ^ k = e0 + e1 * x + e2 * x ^ 2 + e3 * x ^ 3) ->
    sg j (fun p => wt p j * cell (fun x => x ^ k) c a p) = match j with O => 2 * a * (e0 + e1 * c + e2 * c ^ 2 + e3 * c ^ 3) | S O => 2 / 3 * a ^ 3 * (e2 + 3 * e3 * c) | _ => 0 end).
  { intros e0 e1 e2 e3 E. rewrite <- (row_sums c a e0 e1 e2 e3 j Hj). apply sg_ext. intros p _. unfold cell. now rewrite !E. }
  destruct k as [|[|[|[|k]]]]; [rewrite (G 1 0 0 0) by (intros; cbn; ring)|rewrite (G 0 1 0 0) by (intros; cbn; ring)|rewrite (G 0 0 1 0) by (intros; cbn; ring)|rewrite (G 0 0 0 1) by (intros; cbn; ring)|lia]; destruct j as [|[|j]]; cbn [sums]; ring.
Qed.
Definition above1 (k : nat) : nat := if Nat.leb 2 k then 1%nat else 0%nat.
Lemma sums_whole : forall k c a, (k <= 3)%nat -> sg (above1 k) (sums k c a) = part1 k c a.
Proof. intros k c a Hk. destruct k as [|[|[|[|k]]]]; [| | | |lia]; unfold above1, part1; cbn [Nat.leb]; rewrite ?sg_S, ?sg_0; cbn [sums]; rewrite !S_INR; cbn [INR]; field. Qed.
Lemma sums_ends : forall k c a j, (above1 k < j)%nat -> sums k c a j = 0.
Proof. intros k c a j H. destruct k as [|[|[|[|k]]]], j as [|[|j]]; unfold above1 in H; cbn in H |- *; (reflexivity || lia). Qed.

Fixpoint parts1 (ks : list nat) (c h : list R) : R := match ks, c, h with k :: ks', x :: c', a :: h' => part1 k x a * parts1 ks' c' h' | _, _, _ => 1 end.
Lemma mono_prodf : forall ks x, monomial ks x = prodf (map (fun k v => v ^ k) ks) x.
Proof. induction ks as [|k ks IH]; intros [|v x]; try reflexivity. cbn [monomial map prodf]. now rewrite IH. Qed.

Lemma rule_mono : forall ks s center h D, length ks = s -> length center = s -> length h = s -> (forall k, In k ks -> (k <= 3)%nat) -> (length (filter (fun k => Nat.leb 2 k) ks) <= D)%nat -> (D < 12)%nat ->
  sg D (term (monomial ks) s center h) = parts1 ks center h.
Proof.
  intros ks s center h D L1 L2 L3 HK HF HD.
  set (bl := (fix go (ks : list nat) (c h : list R) := match ks, c, h with k :: ks', x :: c', a :: h' => sums k x a :: go ks' c' h' | _, _, _ => [] end) ks center h).
  rewrite (sg_ext _ _ (conv bl)).
  - rewrite (conv_sum bl (map above1 ks)).
    + unfold bl. clear - L1 L2 L3 HK. revert center h L1 L2 L3. revert s. induction ks as [|k ks IH]; intros s [|c center] [|a h] L1 L2 L3; cbn [length] in *; subst s; try discriminate; [reflexivity|].
      cbn [map whole_sums parts1]. rewrite sums_whole by (apply HK; now left). f_equal. apply (IH ltac:(intros; apply HK; now right) (length ks)); lia.
    + unfold bl. clear - L1 L2 L3. revert center h L1 L2 L3. revert s. induction ks as [|k ks IH]; intros s [|c center] [|a h] L1 L2 L3; cbn [length] in *; subst s; try discriminate; [exact I|].
      cbn [map ends]. split; [intros j Hj; now apply sums_ends|]. apply (IH (length ks)); lia.
    + enough (E : list_sum (map above1 ks) = length (filter (fun k => Nat.leb 2 k) ks)) by lia. clear. induction ks as [|k ks IH]; [reflexivity|]. cbn [map list_sum fold_right filter]. unfold list_sum in IH. rewrite IH. unfold above1. destruct (Nat.leb 2 k); reflexivity.
  - intros d Hd. rewrite (term_ext _ (prodf (map (fun k v => v ^ k) ks))) by (auto; intros; apply mono_prodf). rewrite term_prod by (rewrite ?map_length; assumption). apply conv_ext_le.
    unfold bl. clear - L1 L2 L3 HK HD Hd. revert center h L1 L2 L3. revert s. induction ks as [|k ks IH]; intros s [|c center] [|a h] L1 L2 L3; cbn [length] in *; subst s; try discriminate; [constructor|].
    cbn [map cells]. constructor; [intros j Hj; apply row_mono; [apply HK; now left|lia]|]. apply (IH ltac:(intros; apply HK; now right) (length ks)); lia.
Qed.

(** The integral of a polynomial *)
Lemma RInt_sum : forall (p : list (R * nat)) l u, RInt (fun v => fold_right Rplus 0 (map (fun t => fst t * v ^ snd t) p)) l u = fold_right Rplus 0 (map (fun t => fst t * ((u ^ S (snd t) - l ^ S (snd t)) / INR (S (snd t)))) p).
Proof.
  intros p l u. apply (is_RInt_unique (V := R_CompleteNormedModule)). induction p as [|[c k] p IH]; cbn [map fold_right fst snd].
  - apply (CubLemmas2.is_RInt_eq (fun v => 0 * v ^ 0)); [intros; ring|]. assert (Z := CubLemmas2.is_RInt_cst _ _ _ _ 0 (CubLemmas2.is_RInt_pow 0 l u)). rewrite Rmult_0_l in Z. exact Z.
  - apply (is_RInt_plus (V := R_NormedModule) (fun v => c * v ^ k)); [|exact IH]. apply CubLemmas2.is_RInt_cst, CubLemmas2.is_RInt_pow.
Qed.
Lemma integral_ext : forall lower upper F G, (forall x, length x = length lower -> F x = G x) -> length upper = length lower -> integral lower upper F = integral lower upper G.
Proof.
  induction lower as [|l lower IH]; intros [|u upper] F G H L; try discriminate; cbn [integral]; [now apply H|]. apply RInt_ext. intros v _. apply IH; [|now injection L]. intros x Hx. apply H. cbn. now rewrite Hx.
Qed.
Definition span (k : nat) (l u : R) : R := (u ^ S k - l ^ S k) / INR (S k).
Fixpoint spans (ks : list nat) (lower upper : list R) : R := match ks, lower, upper with k :: ks', l :: lower', u :: upper' => span k l u * spans ks' lower' upper' | _, _, _ => 1 end.
Lemma integral_poly : forall lower upper p, length upper = length lower -> (forall c ks, In (c, ks) p -> length ks = length lower) ->
  integral lower upper (poly p) = fold_right Rplus 0 (map (fun t => fst t * spans (snd t) lower upper) p).
Proof.
  induction lower as [|l lower IH]; intros [|u upper] p L H; try discriminate; cbn [integral].
  - unfold poly. f_equal. apply map_ext_in. intros [c ks] Hin. cbn [fst snd]. specialize (H c ks Hin). now destruct ks.
  - set (q := fun v => map (fun t : R * list nat => (fst t * v ^ hd 0%nat (snd t), tl (snd t))) p).
    rewrite (RInt_ext _ (fun v => fold_right Rplus 0 (map (fun t => fst t * v ^ snd t) (map (fun t : R * list nat => (fst t * spans (tl (snd t)) lower upper, hd 0%nat (snd t))) p)))).
    + rewrite RInt_sum, map_map. f_equal. apply map_ext_in. intros [c ks] Hin. cbn [fst snd]. specialize (H c ks Hin). destruct ks as [|k ks]; [discriminate|]. cbn [hd tl spans]. unfold span. ring.
    + intros v _. rewrite (integral_ext lower upper _ (poly (q v))).
      * rewrite IH; [|now injection L|].
        -- unfold q. rewrite !map_map. f_equal. apply map_ext. intros [c ks]. cbn [fst snd]. ring.
        -- intros c ks Hin. unfold q in Hin. apply in_map_iff in Hin. destruct Hin as ([c' ks'] & E & Hin). cbn [fst snd] in E. injection E as <- <-. specialize (H c' ks' Hin). destruct ks'; [discriminate|]. cbn in *. lia.
      * intros x Hx. unfold poly, q. rewrite map_map. f_equal. apply map_ext_in. intros [c ks] Hin. specialize (H c ks Hin). destruct ks as [|k ks]; [discriminate|]. cbn [fst snd hd tl monomial]. ring.
      * now injection L.
Qed.

(** The rules *)
Lemma sg_lin : forall D F G a b s center h, sg D (term (fun x => a * F x + b * G x) s center h) = a * sg D (term F s center h) + b * sg D (term G s center h).
Proof. intros. rewrite !sg_mul, sg_plus. apply sg_ext. intros. apply term_lin. Qed.
Lemma rule_poly_sum : forall p s center h D, length center = s -> length h = s -> tame D s p -> (D < 12)%nat ->
  sg D (term (poly p) s center h) = fold_right Rplus 0 (map (fun t => fst t * parts1 (snd t) center h) p).
Proof.
  intros p s center h D L2 L3 T HD. induction p as [|[c ks] p IH].
  - cbn [map fold_right]. rewrite (sg_ext _ _ (term (fun x => 0 * 1 + 0 * 1) s center h)); [rewrite (sg_lin D (fun _ => 1) (fun _ => 1)); ring|]. intros i _. apply term_ext; [assumption|assumption|]. intros x _. unfold poly. cbn. ring.
  - cbn [map fold_right fst snd]. rewrite (sg_ext _ _ (term (fun x => c * monomial ks x + 1 * poly p x) s center h)).
    + rewrite sg_lin, IH by (intros c' ks' Hin; apply T with c'; now right). destruct (T c ks (or_introl eq_refl)) as (T1 & T2 & T3). rewrite (rule_mono ks s center h D) by assumption. ring.
    + intros i _. apply term_ext; [assumption|assumption|]. intros x _. unfold poly. cbn [map fold_right fst snd]. ring.
Qed.
Lemma parts1_spans : forall ks c h, length h = length c -> parts1 ks c h = spans ks (low_corner c h) (high_corner c h).
Proof. induction ks as [|k ks IH]; intros [|x c] [|a h] L; try discriminate; try reflexivity. cbn [parts1]. unfold low_corner, high_corner in *. cbn [combine map spans fst snd]. rewrite IH by (cbn in L; lia). reflexivity. Qed.
Lemma rule_exact : forall f p s center h o, length center = s -> length h = s -> (1 <= s <= 20)%nat -> (forall a, In a h -> 0 < a) -> (1 <= o <= 12)%nat ->
  (forall x, length x = s -> f x = Ok (poly p x)) -> tame (o - 1) s p ->
  rule f center h o = Ok (integral (low_corner center h) (high_corner center h) (poly p), sumZ (map (evs s) (seq 0 (Nat.max 4 o)))).
Proof.
  intros f p s center h o L1 L2 S1 HP Ho Hf T. rewrite (rule_is f (poly p) s center h Hf L1 L2 HP S1 o Ho). do 2 f_equal.
  rewrite (rule_poly_sum p s center h (o - 1)) by (assumption || lia). rewrite integral_poly.
  - f_equal. apply map_ext. intros [c ks]. cbn [fst snd]. f_equal. apply parts1_spans. lia.
  - unfold low_corner, high_corner. now rewrite !map_length.
  - intros c ks Hin. destruct (T c ks Hin) as (T1 & _). unfold low_corner. rewrite map_length, combine_length. lia.
Qed.

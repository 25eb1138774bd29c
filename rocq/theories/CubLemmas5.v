(** The class NormWtCub2D. *)

From Coq Require Import List Bool Arith ZArith Reals Lra Lia String.
From Verif Require Import Exn Instances CountSpec CountLemmas McModel BaModel BaLemmas CubTables CubModel CubSpec CubLemmas CubLemmas2 CubLemmas3 CubLemmas4.
Import ListNotations.
Open Scope R_scope.

(** Later stores only have more arrays. *)
Definition extends (s s' : store) : Prop := exists a w, st_absc s' = st_absc s ++ a /\ st_wts s' = st_wts s ++ w.
Lemma ext_refl : forall s, extends s s.
Proof. intros s. exists [], []. now rewrite !app_nil_r. Qed.
Lemma ext_trans : forall a b c, extends a b -> extends b c -> extends a c.
Proof. intros a b c [x [y [A1 A2]]] [x' [y' [B1 B2]]]. exists (x ++ x'), (y ++ y'). rewrite B1, B2, A1, A2, !app_assoc. now split. Qed.
Lemma ext_absc : forall s s' i a, extends s s' -> rd (st_absc s) i = Ok a -> rd (st_absc s') i = Ok a.
Proof.
  intros s s' i a [x [w [-> _]]] H. unfold rd in *. destruct (nth_error (st_absc s) i) eqn:E; [|discriminate]. rewrite nth_error_app1 by (apply nth_error_Some; rewrite E; discriminate). now rewrite E.
Qed.
Lemma ext_wts : forall s s' i a, extends s s' -> rd (st_wts s) i = Ok a -> rd (st_wts s') i = Ok a.
Proof.
  intros s s' i a [x [w [_ ->]]] H. unfold rd in *. destruct (nth_error (st_wts s) i) eqn:E; [|discriminate]. rewrite nth_error_app1 by (apply nth_error_Some; rewrite E; discriminate). now rewrite E.
Qed.
Lemma rd_last : forall {A} (l : list A) x, rd (l ++ [x]) (List.length l) = Ok x.
Proof. intros A l x. unfold rd. rewrite nth_error_app2, Nat.sub_diag by lia. reflexivity. Qed.
Lemma wr_last : forall {A} (l : list A) x y, wr (l ++ [x]) (List.length l) y = Ok (l ++ [y]).
Proof.
  intros A l x y. unfold wr. rewrite app_length. cbn [List.length]. replace (Nat.ltb (List.length l) (List.length l + 1)) with true by (symmetry; apply Nat.ltb_lt; lia).
  f_equal. unfold upd. rewrite firstn_app, Nat.sub_diag, firstn_all, skipn_app. cbn [firstn]. rewrite app_nil_r. rewrite skipn_all2 by lia. replace (S (List.length l) - List.length l)%nat with 1%nat by lia. reflexivity.
Qed.

(** What __init__ does *)
Definition placed (l0 l1 s0 s1 : R) (a : list (R * R)) : list (R * R) := map (fun p => (l0 + rt2 * s0 * fst p, l1 + rt2 * s1 * snd p)) a.
Lemma init_ok : forall l0 l1 s0 s1 rule s i a w, rule_dict rule = Ok i -> rd (st_absc s) i = Ok a -> rd (st_wts s) i = Ok w ->
  norm_init [l0; l1] [s0; s1] rule s =
    (Store (st_absc s ++ [placed l0 l1 s0 s1 a]) ((st_wts s ++ [w]) ++ [map (fun x => x / np_pi) w]), Ok (Ncub (List.length (st_absc s)) (List.length (st_wts s ++ [w])))).
Proof.
  intros l0 l1 s0 s1 rule s i a w Hi Ha Hw. unfold norm_init, lifted, get, bind, ret. rewrite Hi. rewrite Ha. rewrite Hw. unfold new_absc, new_wts. cbn [st_absc st_wts].
  rewrite rd_last. unfold set_absc. cbn [st_absc st_wts]. rewrite wr_last. cbn [st_absc st_wts]. rewrite rd_last. rewrite wr_last. cbn [st_absc st_wts]. rewrite rd_last. rewrite map_map. reflexivity.
Qed.
Lemma init_extends : forall locn scale rule s, extends s (fst (norm_init locn scale rule s)).
Proof.
  intros locn scale rule s. unfold norm_init, lifted, get, bind, ret. destruct (rule_dict rule) as [i|e]; [|apply ext_refl]. destruct (rd (st_absc s) i) as [a|e]; [|apply ext_refl]. destruct (rd (st_wts s) i) as [w|e]; [|apply ext_refl].
  unfold new_absc, new_wts. cbn [st_absc st_wts].
  assert (B : extends s (Store (st_absc s ++ [a]) (st_wts s ++ [w]))) by (exists [a], [w]; now split).
  destruct locn as [|l0 [|l1 [|l2 locn]]]; try exact B; destruct scale as [|s0 [|s1 [|s2 scale]]]; try exact B.
  cbn [st_absc st_wts]. rewrite rd_last. unfold set_absc. cbn [st_absc st_wts]. rewrite wr_last. cbn [st_absc st_wts]. rewrite rd_last, wr_last. cbn [st_absc st_wts fst]. rewrite rd_last.
  eexists _, ([w] ++ [_]). cbn [fst st_absc st_wts]. split; [reflexivity|]. rewrite app_assoc. reflexivity.
Qed.
Lemma call_same : forall o f s, fst (norm_call o f s) = s.
Proof. intros o f s. unfold norm_call, lifted, get, bind. destruct (rd (st_absc s) (nc_absc o)) as [a|e]; [|reflexivity]. destruct (rd (st_wts s) (nc_wts o)) as [w|e]; reflexivity. Qed.
Lemma used_extends : forall l s, extends s (used l s).
Proof.
  induction l as [|[locn scale rule|o f] l IH]; intros s; cbn [used]; [apply ext_refl| |rewrite call_same; apply IH].
  eapply ext_trans; [apply init_extends|apply IH].
Qed.
Lemma norm_sum_ok : forall f p l s, (forall x y, f x y = Ok (p x y)) -> norm_sum f l s = Ok (s + rule_sum l p).
Proof.
  intros f p l. induction l as [|[[u v] w] l IH]; intros s H; cbn [norm_sum rule_sum fst snd]; [f_equal; ring|]. rewrite H, IH by exact H. f_equal. ring.
Qed.

(** The nodes of an object made with a table *)
Lemma rule_placed : forall l0 l1 s0 s1 (zl : list (Z * Z)) (wl : list Z) (p : R -> R -> R),
  rule_sum (combine (placed l0 l1 s0 s1 (map (fun q => (fx (fst q), fx (snd q))) zl)) (map (fun x => x / np_pi) (map fx wl))) p
  = rule_sum (map nnode (combine zl wl)) (fun u v => p (l0 + s0 * u) (l1 + s1 * v)).
Proof.
  intros l0 l1 s0 s1 zl. induction zl as [|[u v] zl IH]; intros wl p; [reflexivity|]. destruct wl as [|w wl]; [reflexivity|].
  cbn [map placed combine rule_sum nnode fst snd]. unfold placed in IH. rewrite IH. do 3 f_equal; ring.
Qed.
Lemma imported_absc : forall i t, nth_error tables i = Some t -> rd (st_absc imported) i = Ok (map (fun q => (fx (fst q), fx (snd q))) (fst (snd t))).
Proof. intros i t H. unfold rd, imported. cbn [st_absc]. rewrite nth_error_map, H. reflexivity. Qed.
Lemma imported_wts : forall i t, nth_error tables i = Some t -> rd (st_wts imported) i = Ok (map fx (snd (snd t))).
Proof. intros i t H. unfold rd, imported. cbn [st_wts]. rewrite nth_error_map, H. reflexivity. Qed.

Lemma norm_value : forall before after rule i t f p l0 l1 s0 s1, rule_dict rule = Ok i -> nth_error tables i = Some t -> (forall x y, f x y = Ok (p x y)) ->
  exists o s1', norm_init [l0; l1] [s0; s1] rule (used before imported) = (s1', Ok o) /\
    norm_call o f (used after s1') = (used after s1', Ok (rule_sum (map nnode (combine (fst (snd t)) (snd (snd t)))) (fun u v => p (l0 + s0 * u) (l1 + s1 * v)))).
Proof.
  intros before after rule i t f p l0 l1 s0 s1 Hi Ht Hf. assert (X := used_extends before imported).
  assert (A := ext_absc _ _ _ _ X (imported_absc i t Ht)). assert (W := ext_wts _ _ _ _ X (imported_wts i t Ht)). set (s := used before imported) in *.
  rewrite (init_ok l0 l1 s0 s1 rule s i _ _ Hi A W). eexists _, _. split; [reflexivity|].
  match goal with |- context [used after ?q] => set (s1' := q) end. assert (Y := used_extends after s1').
  unfold norm_call, lifted, get, bind. cbn [nc_absc nc_wts].
  rewrite (ext_absc s1' _ (List.length (st_absc s)) _ Y (rd_last (st_absc s) _)). rewrite (ext_wts s1' _ (List.length (st_wts s ++ [map fx (snd (snd t))])) _ Y (rd_last _ _)).
  rewrite (norm_sum_ok f p) by exact Hf. rewrite rule_placed. do 2 f_equal. ring.
Qed.

Definition heavy := [("e2r2_3_4a", (10 ^ 16)%Z, (10 ^ 17)%Z, 3%nat, 15%nat); ("e2_r2_3_4b", (10 ^ 16)%Z, (10 ^ 17)%Z, 3%nat, 15%nat); ("e2r2_5_9a", (10 ^ 16)%Z, (10 ^ 17)%Z, 5%nat, 15%nat); ("e2r2_5_9b", (10 ^ 16)%Z, (10 ^ 17)%Z, 5%nat, 14%nat);
   ("e2r2_7_12", (10 ^ 16)%Z, (10 ^ 17)%Z, 7%nat, 14%nat); ("e2r2_9_21", (10 ^ 16)%Z, (10 ^ 17)%Z, 9%nat, 13%nat); ("e2r2_11_28a", (10 ^ 16)%Z, (10 ^ 17)%Z, 11%nat, 12%nat); ("e2r2_13_36", (10 ^ 16)%Z, (10 ^ 17)%Z, 13%nat, 11%nat);
   ("e2r2_13_41", 1%Z, (10 ^ 33)%Z, 5%nat, 14%nat); ("e2r2_9_19a", 1%Z, (10 ^ 33)%Z, 5%nat, 14%nat); ("e2r2_11_28c", 1%Z, (10 ^ 33)%Z, 3%nat, 15%nat)]%string.
Lemma heavy_ok : forallb (fun h => match h with (n, K, V, d, e) => (if (K =? 1)%Z then check_plane else check_sym) K V (table n) d (10 ^ Z.of_nat e)%Z end) heavy = true.
Proof. vm_cast_no_check (eq_refl true). Qed.
Lemma find_table : forall rule i t, rule_dict rule = Ok i -> nth_error tables i = Some t -> table rule = combine (fst (snd t)) (snd (snd t)).
Proof.
  intros rule i t. unfold rule_dict, table. assert (G : forall l k, find_rule rule l k = Ok i -> nth_error l (i - k) = Some t -> (k <= i)%nat /\ match find (fun t => String.eqb rule (fst t)) l with Some t => combine (fst (snd t)) (snd (snd t)) | None => [] end = combine (fst (snd t)) (snd (snd t))).
  { induction l as [|x l IH]; intros k Hf Hn; cbn [find_rule find] in *; [discriminate|]. destruct (String.eqb rule (fst x)).
    - injection Hf as ->. rewrite Nat.sub_diag in Hn. cbn in Hn. injection Hn as ->. now split.
    - destruct (Nat.eq_dec i k) as [->|NE].
      + exfalso. assert (M : forall l k j, find_rule rule l k = Ok j -> (k <= j)%nat). { clear. induction l as [|x l IH]; intros k j H; cbn [find_rule] in H; [discriminate|]. destruct (String.eqb rule (fst x)); [injection H; lia|]. apply IH in H. lia. }
        apply M in Hf. lia.
      + assert (M : (S k <= i)%nat). { clear - Hf. revert Hf. generalize (S k). clear k. intros k. revert k. induction l as [|x' l IH']; intros k H; cbn [find_rule] in H; [discriminate|]. destruct (String.eqb rule (fst x')); [injection H; lia|]. apply IH' in H. lia. }
        replace (i - k)%nat with (S (i - S k)) in Hn by lia. cbn [nth_error] in Hn. destruct (IH (S k) Hf Hn) as [_ E]. split; [lia|exact E]. }
  intros H1 H2. apply (G tables 0%nat H1). now rewrite Nat.sub_0_r.
Qed.
Lemma norm_accuracy : forall rule K V d e, In (rule, K, V, d, e) heavy -> forall before after c f l0 l1 s0 s1, (forall x y, f x y = Ok (poly d c x y)) ->
  exists o st v m, norm_init [l0; l1] [s0; s1] rule (used before imported) = (st, Ok o) /\ norm_call o f (used after st) = (used after st, Ok v) /\
    normal_mean (poly d c) l0 l1 s0 s1 m /\ Rabs (v - m) <= / 10 ^ e * size d c (Rabs l0 + Rabs s0) (Rabs l1 + Rabs s1).
Proof.
  intros rule K V d e Hin before after c f l0 l1 s0 s1 Hf.
  assert (Hr : exists i t, rule_dict rule = Ok i /\ nth_error tables i = Some t).
  { unfold heavy in Hin. cbn [In] in Hin. repeat (destruct Hin as [Hin|Hin]; [injection Hin; intros _ _ _ _ <-; eexists _, _; split; reflexivity|]). contradiction. }
  destruct Hr as [i [t [Hi Ht]]]. destruct (norm_value before after rule i t f (poly d c) l0 l1 s0 s1 Hi Ht Hf) as [o [st [I1 I2]]].
  exists o, st. eexists. exists (sum_over 0 (S d) (fun a => sum_over 0 (S d - a) (fun b => c a b * (spread nm l0 s0 a * spread nm l1 s1 b)))).
  split; [exact I1|]. split; [exact I2|]. split; [apply mean_poly|].
  assert (Ck := proj1 (forallb_forall _ _) heavy_ok _ Hin). cbn beta iota in Ck.
  assert (EE : / IZR (10 ^ Z.of_nat e) = / 10 ^ e) by (rewrite <- pow_IZR; reflexivity). rewrite <- EE.
  rewrite <- (find_table rule i t Hi Ht). assert (PE : (0 < 10 ^ Z.of_nat e)%Z) by (apply Z.pow_pos_nonneg; lia). apply rule_poly.
  destruct (K =? 1)%Z; [exact (plane_moments K V _ d _ Ck PE)|exact (sym_moments K V _ d _ Ck PE)].
Qed.

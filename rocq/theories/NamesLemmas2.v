(** Proofs about names: what a class statement does. *)

From Coq Require Import List Bool Arith Ascii Sorting.Sorted Permutation Lia.
From Verif Require Import Exn NamesModel NamesSpec NamesLemmas.
Import ListNotations.

Definition sep (w : world) : Prop := forall c d a, own Params (classes w c) = Some a ->
  own Preds (classes w d) <> Some a.
Lemma sep_own : forall w f g c d a, sep w -> f <> g -> own f (classes w c) = Some a ->
  own g (classes w d) <> Some a.
Proof.
  intros w [] [] c d a S Hf H K; try congruence.
  - exact (S c d a H K).
  - exact (S d c a K H).
Qed.

Lemma listed_app : forall f d1 d2, listed f (d1 ++ d2) = listed f d1 ++ listed f d2.
Proof. intros. unfold listed. now rewrite filter_app, map_app. Qed.
Lemma listed_same : forall f n, listed f [(f, n)] = [n].
Proof. now intros []. Qed.
Lemma listed_other : forall f g n, f <> g -> listed f [(g, n)] = [].
Proof. intros [] [] n H; try reflexivity; congruence. Qed.
Lemma field_dec : forall f g : field, f = g \/ f <> g.
Proof. intros [] []; auto; right; discriminate. Qed.

Lemma find_own : forall f w cs a, find_attr f w cs = Some a -> exists c, own f (classes w c) = Some a.
Proof.
  intros f w cs a. induction cs as [|c cs IH]; cbn; [discriminate|].
  destruct (own f (classes w c)) as [b|] eqn:E; [|exact IH]. intros H. injection H as <-. eauto.
Qed.

Section Class.
Variables (w0 : world) (c : nat) (mro : list nat).
Hypothesis B0 : bounded w0.
Hypothesis S0 : sep w0.
Hypothesis Hm : Forall (fun d => d < c) mro.

Record T (done : list (field * text)) (w : world) : Prop := {
  t_mid : Mid w0 c mro w;
  t_sep : sep w;
  t_names : forall f, match find_attr f w0 mro with
    | Some a => own f (classes w c) = None /\ lists w a = lists w0 a ++ listed f done
    | None => match own f (classes w c) with
              | None => listed f done = []
              | Some b => lists w b = listed f done
              end
    end;
  t_rest : forall b, b < nextl w0 -> (forall f, find_attr f w0 mro <> Some b) -> lists w b = lists w0 b
}.

Lemma T_step : forall done w g n, T done w -> T (done ++ [(g, n)]) (report_name g c n w).
Proof.
  intros done w g n [Mi S Nm R].
  pose proof (mid_step w0 c mro w g n Mi) as Mi'.
  destruct (report_spec g c n w (m_bound _ _ _ _ Mi)) as (_ & _ & O & _ & G & X).
  assert (Bf : forall f a, find_attr f w0 mro = Some a -> a < nextl w0).
  { intros f a H. eapply find_bounded; eauto. }
  assert (Own : forall f b, own f (classes w c) = Some b -> nextl w0 <= b) by (intros; eapply (m_new _ _ _ _ Mi); eauto).
  rewrite (lookup_mid w0 c mro w g Mi Hm) in X.
  destruct (own g (classes w c)) as [b|] eqn:Eo.
  - (* its own list *)
    destruct X as (X1 & X2 & X3). pose proof (Own g b Eo) as Lb.
    constructor; auto.
    + intros d e a. rewrite X3. apply S.
    + intros f. rewrite X3, listed_app. specialize (Nm f).
      destruct (find_attr f w0 mro) as [a|] eqn:Ef.
      * destruct Nm as [N1 N2]. pose proof (Bf f a Ef). split; [exact N1|]. rewrite X2 by lia.
        assert (f <> g) by congruence. rewrite listed_other by assumption. now rewrite app_nil_r.
      * destruct (field_dec f g) as [->|Hf].
        -- rewrite Eo in *. rewrite X1, Nm, listed_same. reflexivity.
        -- rewrite listed_other, app_nil_r by assumption.
           destruct (own f (classes w c)) as [b'|] eqn:E'; [|exact Nm].
           rewrite X2; [exact Nm|]. intros ->. exact (sep_own w f g c c b S Hf E' Eo).
    + intros a Ha Hf. rewrite X2 by lia. auto.
  - pose proof (Nm g) as Ng. destruct (find_attr g w0 mro) as [a|] eqn:Eg.
    + (* the list of a base *)
      destruct X as (X1 & X2 & X3). pose proof (Bf g a Eg) as La. destruct Ng as [_ Ng].
      destruct (find_own _ _ _ _ Eg) as (cg & Hcg).
      constructor; auto.
      * intros d e a'. rewrite X3. apply S.
      * intros f. rewrite X3, listed_app. destruct (field_dec f g) as [->|Hf].
        -- rewrite Eg. split; [exact Eo|]. rewrite X1, Ng, listed_same. now rewrite <- app_assoc.
        -- rewrite listed_other, app_nil_r by assumption. specialize (Nm f).
           destruct (find_attr f w0 mro) as [a'|] eqn:Ef.
           ++ destruct Nm as [N1 N2]. split; [exact N1|]. rewrite X2; [exact N2|]. intros ->.
              destruct (find_own _ _ _ _ Ef) as (cf & Hcf). exact (sep_own w0 f g cf cg a S0 Hf Hcf Hcg).
           ++ destruct (own f (classes w c)) as [b'|] eqn:E'; [|exact Nm].
              pose proof (Own f b' E'). rewrite X2 by lia. exact Nm.
      * intros b Hb Hf. rewrite X2; [now apply R|]. intros ->. now apply (Hf g).
    + (* a new list *)
      destruct X as (X1 & X2 & X3). pose proof (m_nextl _ _ _ _ Mi) as Nl.
      pose proof (m_bound _ _ _ _ Mi) as Bw.
      assert (Lt : forall f d e, own f (classes w d) = Some e -> e <> nextl w).
      { intros f d e H. specialize (Bw f d e H). lia. }
      constructor; auto.
      * intros d e a Hd He.
        assert (K : forall f x, own f (classes (report_name g c n w) x) = Some a ->
                    (own f (classes w x) = Some a) \/ (f = g /\ x = c /\ a = nextl w)).
        { intros f x Hx. destruct (Nat.eq_dec x c) as [->|Hx'].
          - destruct (field_dec f g) as [->|Hf].
            + rewrite X1 in Hx. injection Hx as <-. right. auto.
            + left. rewrite G in Hx; auto.
          - left. now rewrite O in Hx by assumption. }
        destruct (K _ _ Hd) as [K1|(K1 & _ & K3)]; destruct (K _ _ He) as [J1|(J1 & _ & J3)].
        -- exact (S d e a K1 J1).
        -- subst a. exact (Lt _ _ _ K1 eq_refl).
        -- subst a. exact (Lt _ _ _ J1 eq_refl).
        -- congruence.
      * intros f. rewrite listed_app. destruct (field_dec f g) as [->|Hf].
        -- rewrite Eg, X1, X2. rewrite Eo in Ng. rewrite Ng, listed_same. reflexivity.
        -- rewrite G, listed_other, app_nil_r by assumption. specialize (Nm f).
           destruct (find_attr f w0 mro) as [a|] eqn:Ef.
           ++ destruct Nm as [N1 N2]. pose proof (Bf f a Ef). split; [exact N1|]. rewrite X3 by lia. exact N2.
           ++ destruct (own f (classes w c)) as [b'|] eqn:E'; [|exact Nm].
              rewrite X3 by (eapply Lt; eauto). exact Nm.
      * intros b Hb Hf. rewrite X3 by lia. auto.
Qed.

Lemma T_fold : forall dict done w, T done w ->
  T (done ++ dict) (fold_left (fun w d => report_name (fst d) c (snd d) w) dict w).
Proof.
  induction dict as [|[g n] dict IH]; intros done w H; cbn [fold_left]; [now rewrite app_nil_r|].
  replace (done ++ (g, n) :: dict) with ((done ++ [(g, n)]) ++ dict) by (now rewrite <- app_assoc).
  apply IH. now apply T_step.
Qed.
End Class.

Lemma T_start : forall w mro, bounded w -> sep w -> (forall c, nextc w <= c -> classes w c = Cls [] None None) ->
  T w (nextc w) mro []
    (World (lists w) (nextl w) (upd (classes w) (nextc w) (Cls mro None None)) (S (nextc w))).
Proof.
  intros w mro B S Nw. constructor.
  - now apply mid_start.
  - intros d e a. cbn. unfold upd. destruct (Nat.eqb d _), (Nat.eqb e _); cbn; try discriminate. apply S.
  - intros f. cbn. unfold upd. rewrite Nat.eqb_refl. destruct (find_attr f w mro).
    + split; [now destruct f|]. unfold listed. cbn. now rewrite app_nil_r.
    + now destruct f.
  - reflexivity.
Qed.

Lemma reachable_sep : forall w, reachable w -> sep w.
Proof.
  induction 1 as [|w mro dict R IH F]; [intros c d a K; discriminate|].
  pose proof (reachable_inv w R) as [B Nw _]. unfold define_class. cbn [fst].
  apply (t_sep w (nextc w) mro ([] ++ dict)).
  apply T_fold; auto. now apply T_start.
Qed.

(** The names every class has after a class statement. *)
Lemma class_names : forall w mro dict f, reachable w -> Forall (fun d => d < nextc w) mro ->
  let w' := fst (define_class mro dict w) in let c := snd (define_class mro dict w) in
  match find_attr f w mro with
  | None => names_of f w' c = listed f dict
            /\ forall d, d < nextc w -> names_of f w' d = names_of f w d
  | Some a => names_of f w' c = lists w a ++ listed f dict
            /\ forall d, d < nextc w ->
                 names_of f w' d = if match lookup f w d with Some b => Nat.eqb b a | None => false end
                                   then names_of f w d ++ listed f dict else names_of f w d
  end.
Proof.
  intros w mro dict f R F. cbn zeta. unfold define_class. cbn [fst snd].
  pose proof (reachable_inv w R) as [B Nw Mr]. pose proof (reachable_sep w R) as S.
  pose proof (T_fold w (nextc w) mro B S F dict [] _ (T_start w mro B S Nw)) as [Mi S' Nm Rest].
  cbn [app] in *.
  set (w' := fold_left _ dict _) in *.
  assert (Old : forall d, d < nextc w -> lookup f w' d = lookup f w d).
  { intros d Hd. eapply lookup_mid_old; eauto. }
  assert (Sp : forall d b g a, lookup f w d = Some b -> find_attr g w mro = Some a -> b = a -> f = g).
  { intros d b g a H1 H2 ->. destruct (field_dec f g) as [->|Hf]; [reflexivity|].
    apply find_own in H1. apply find_own in H2. destruct H1 as (x & Hx). destruct H2 as (y & Hy).
    elim (sep_own w f g x y a S Hf Hx Hy). }
  pose proof (Nm f) as Nf. unfold names_of. rewrite (lookup_mid w (nextc w) mro w' f Mi F).
  destruct (find_attr f w mro) as [a|] eqn:Ea.
  - destruct Nf as [N1 N2]. rewrite N1, N2. split; [reflexivity|]. intros d Hd. rewrite Old by assumption.
    destruct (lookup f w d) as [b|] eqn:Eb; [|reflexivity].
    destruct (Nat.eqb b a) eqn:Eq; [apply Nat.eqb_eq in Eq; now subst|]. apply Nat.eqb_neq in Eq.
    apply Rest; [eapply find_bounded; eauto|]. intros g Hg.
    pose proof (Sp d b g b Eb Hg eq_refl). subst g. congruence.
  - split.
    + now destruct (own f (classes w' (nextc w))).
    + intros d Hd. rewrite Old by assumption. destruct (lookup f w d) as [b|] eqn:Eb; [|reflexivity].
      apply Rest; [eapply find_bounded; eauto|]. intros g Hg.
      pose proof (Sp d b g b Eb Hg eq_refl). subst g. congruence.
Qed.

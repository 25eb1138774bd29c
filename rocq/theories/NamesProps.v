(** Property theorems about names (C12, C13). *)

From Coq Require Import List Bool Arith Ascii String Sorting.Sorted Permutation Lia.
From Verif Require Import Exn NamesModel NamesSpec NamesLemmas NamesLemmas2 NamesFinal.
Import ListNotations.
Local Open Scope nat_scope.
Local Open Scope list_scope.

(** ** C12 *)

(** With the sources at hand and every name assigned somewhere in them, the
    parameters of an inference are those of its signal class and then those of
    its predictor class, each in the order of first assignment. *)
Theorem C12_source_order : forall (source : nat -> option (list text)) w s p src psrc,
  reachable w ->
  sourced source w Params s src -> sourced source w Params p psrc -> sourced source w Preds p psrc ->
  lookup Preds w p <> None ->
  (forall n, In n (names_of Params w s) -> ~ In n (names_of Params w p)) ->
  exists w' a preds o po, init source (Some s) (Some p) w = (w', Ok (a, preds))
    /\ lists w' a = o ++ po /\ source_order src (names_of Params w s) o
    /\ source_order psrc (names_of Params w p) po /\ source_order psrc (names_of Preds w p) preds.
Proof. exact order. Qed.
Print Assumptions C12_source_order.

(** So the order in which the class dictionaries listed the names is
    immaterial. *)
Theorem C12_dictionary_order_irrelevant : forall (source : nat -> option (list text))
  w1 w2 s p src psrc w1' w2' a1 a2 q1 q2,
  reachable w1 -> reachable w2 ->
  sourced source w1 Params s src -> sourced source w1 Params p psrc -> sourced source w1 Preds p psrc ->
  sourced source w2 Params s src -> sourced source w2 Params p psrc -> sourced source w2 Preds p psrc ->
  Permutation (names_of Params w1 s) (names_of Params w2 s) ->
  Permutation (names_of Params w1 p) (names_of Params w2 p) ->
  Permutation (names_of Preds w1 p) (names_of Preds w2 p) ->
  (forall n, In n (names_of Params w1 s) -> ~ In n (names_of Params w1 p)) ->
  init source (Some s) (Some p) w1 = (w1', Ok (a1, q1)) ->
  init source (Some s) (Some p) w2 = (w2', Ok (a2, q2)) ->
  lists w1' a1 = lists w2' a2 /\ q1 = q2.
Proof. exact any_dict_order. Qed.
Print Assumptions C12_dictionary_order_irrelevant.

(** One signal parameter that is not assigned in the source, and all signal
    parameters are gone, without an exception. *)
Theorem C12_missing_name_drops_all : forall (source : nat -> option (list text)) w s p src psrc,
  reachable w ->
  source s = Some src -> NoDup (names_of Params w s) -> Forall identifier (names_of Params w s) ->
  Exists (fun n => ~ declared n src) (names_of Params w s) ->
  sourced source w Params p psrc -> sourced source w Preds p psrc -> lookup Preds w p <> None ->
  exists w' a preds po, init source (Some s) (Some p) w = (w', Ok (a, preds))
    /\ lists w' a = po /\ source_order psrc (names_of Params w p) po.
Proof. exact dropped. Qed.
Print Assumptions C12_missing_name_drops_all.

(** A signal class whose dictionary lists ab, b, a, with names that are
    prefixes of each other, a comment and a comparison in the source; and a
    predictor class with a parameter of its own. *)
Definition t (s : string) : text := list_ascii_of_string s.
Definition sig_src : list text :=
  [t "class Sig(SignalModel):"; t "    # b = nothing"; t "    a = RealParam(1.)";
   t "    ab= RealParam(2.)"; t "    a = RealParam(3.)"; t "    b = RealParam(ab)"].
Definition pred_src : list text :=
  [t "class Data(PredictorSet):"; t "    d2 = SampledGaussian(x)"; t "    scale = RealParam(1.)"; t "    d1 =SampledGaussian(y)"].
Definition sources (c : nat) : option (list text) :=
  match c with 0 => Some sig_src | 1 => Some pred_src | _ => None end.
Definition program (dict : list (field * text)) : world :=
  fst (define_class [] [(Preds, t "d1"); (Params, t "scale"); (Preds, t "d2")]
    (fst (define_class [] dict world0))).
Definition dict1 := [(Params, t "ab"); (Params, t "b"); (Params, t "a")].

Local Lemma program_reachable : forall dict, reachable (program dict).
Proof. intros. unfold program. repeat (apply r_class; [|constructor]). apply r_start. Qed.

Example C12_example :
  reachable (program dict1)
  /\ sourced sources (program dict1) Params 0 sig_src
  /\ sourced sources (program dict1) Params 1 pred_src /\ sourced sources (program dict1) Preds 1 pred_src
  /\ lookup Preds (program dict1) 1 <> None
  /\ (exists w' a, init sources (Some 0) (Some 1) (program dict1) = (w', Ok (a, [t "d2"; t "d1"]))
      /\ lists w' a = [t "a"; t "ab"; t "b"; t "scale"])
  /\ (exists w' a, init sources (Some 0) (Some 1) (program (rev dict1)) = (w', Ok (a, [t "d2"; t "d1"]))
      /\ lists w' a = [t "a"; t "ab"; t "b"; t "scale"])
  /\ (exists w' a, init sources (Some 0) (Some 1) (program ((Params, t "zz") :: dict1)) = (w', Ok (a, [t "d2"; t "d1"]))
      /\ lists w' a = [t "scale"]).
Proof.
  assert (D : forall n line k, declares n line -> nth_error sig_src k = Some line -> declared n sig_src).
  { intros n line k Hd Hk. apply Exists_exists. exists line. split; [eapply nth_error_In; eauto|exact Hd]. }
  assert (D2 : forall n line k, declares n line -> nth_error pred_src k = Some line -> declared n pred_src).
  { intros n line k Hd Hk. apply Exists_exists. exists line. split; [eapply nth_error_In; eauto|exact Hd]. }
  split; [apply program_reachable|].
  assert (As : forall n line, identifier n -> assigns n (strip line) = true -> declares n line).
  { intros n line Hi Ha. now apply assigns_spec. }
  split; [|split; [|split; [|split; [|split; [|split]]]]].
  - repeat split; [repeat constructor; vm_compute; intuition discriminate| |].
    + repeat constructor; vm_compute; try discriminate; intuition discriminate.
    + repeat (apply Forall_cons || apply Forall_nil).
      * apply (D _ (t "    ab= RealParam(2.)") 3); [|reflexivity]. apply As; [|reflexivity].
        repeat constructor; vm_compute; try discriminate; intuition discriminate.
      * apply (D _ (t "    b = RealParam(ab)") 5); [|reflexivity]. apply As; [|reflexivity].
        repeat constructor; vm_compute; try discriminate; intuition discriminate.
      * apply (D _ (t "    a = RealParam(1.)") 2); [|reflexivity]. apply As; [|reflexivity].
        repeat constructor; vm_compute; try discriminate; intuition discriminate.
  - repeat split; [repeat constructor; vm_compute; intuition discriminate| |].
    + repeat constructor; vm_compute; try discriminate; intuition discriminate.
    + repeat (apply Forall_cons || apply Forall_nil).
      apply (D2 _ (t "    scale = RealParam(1.)") 2); [|reflexivity]. apply As; [|reflexivity].
      repeat constructor; vm_compute; try discriminate; intuition discriminate.
  - repeat split; [repeat constructor; vm_compute; intuition discriminate| |].
    + repeat constructor; vm_compute; try discriminate; intuition discriminate.
    + repeat (apply Forall_cons || apply Forall_nil).
      * apply (D2 _ (t "    d1 =SampledGaussian(y)") 3); [|reflexivity]. apply As; [|reflexivity].
        repeat constructor; vm_compute; try discriminate; intuition discriminate.
      * apply (D2 _ (t "    d2 = SampledGaussian(x)") 1); [|reflexivity]. apply As; [|reflexivity].
        repeat constructor; vm_compute; try discriminate; intuition discriminate.
  - vm_compute. discriminate.
  - destruct (init sources (Some 0) (Some 1) (program dict1)) as [w' r] eqn:E.
    assert (R : snd (init sources (Some 0) (Some 1) (program dict1)) = Ok (3, [t "d2"; t "d1"])) by (vm_compute; reflexivity).
    assert (L : lists (fst (init sources (Some 0) (Some 1) (program dict1))) 3 = [t "a"; t "ab"; t "b"; t "scale"]) by (vm_compute; reflexivity).
    rewrite E in R, L. cbn [fst snd] in R, L. subst r. eauto.
  - destruct (init sources (Some 0) (Some 1) (program (rev dict1))) as [w' r] eqn:E.
    assert (R : snd (init sources (Some 0) (Some 1) (program (rev dict1))) = Ok (3, [t "d2"; t "d1"])) by (vm_compute; reflexivity).
    assert (L : lists (fst (init sources (Some 0) (Some 1) (program (rev dict1)))) 3 = [t "a"; t "ab"; t "b"; t "scale"]) by (vm_compute; reflexivity).
    rewrite E in R, L. cbn [fst snd] in R, L. subst r. eauto.
  - destruct (init sources (Some 0) (Some 1) (program ((Params, t "zz") :: dict1))) as [w' r] eqn:E.
    assert (R : snd (init sources (Some 0) (Some 1) (program ((Params, t "zz") :: dict1))) = Ok (3, [t "d2"; t "d1"])) by (vm_compute; reflexivity).
    assert (L : lists (fst (init sources (Some 0) (Some 1) (program ((Params, t "zz") :: dict1)))) 3 = [t "scale"]) by (vm_compute; reflexivity).
    rewrite E in R, L. cbn [fst snd] in R, L. subst r. eauto.
Qed.

(** ** C13 *)

(** What a class statement really does to the names of every class: without
    inherited names only the new class is affected; otherwise the new names
    also go to every class that uses the inherited list. *)
Theorem C13_class_statement : forall w mro dict f,
  reachable w -> Forall (fun d => d < nextc w) mro ->
  let w' := fst (define_class mro dict w) in let c := snd (define_class mro dict w) in
  match find_attr f w mro with
  | None => names_of f w' c = listed f dict
            /\ forall d, d < nextc w -> names_of f w' d = names_of f w d
  | Some a => names_of f w' c = lists w a ++ listed f dict
            /\ forall d, d < nextc w ->
                 names_of f w' d = if match lookup f w d with Some b => Nat.eqb b a | None => false end
                                   then names_of f w d ++ listed f dict else names_of f w d
  end.
Proof. exact class_names. Qed.
Print Assumptions C13_class_statement.

(** With the source of the signal class at hand, making instances never
    changes the names of any class. *)
Theorem C13_instances_with_source : forall (source : nat -> option (list text)) w sig pred,
  reachable w -> (forall s, sig = Some s -> source s <> None) ->
  forall f c, names_of f (fst (init source sig pred w)) c = names_of f w c.
Proof. exact instances_keep. Qed.
Print Assumptions C13_instances_with_source.

Example C13_example : forall f c,
  names_of f (fst (init sources (Some 0) (Some 1) (program dict1))) c = names_of f (program dict1) c.
Proof.
  apply C13_instances_with_source; [apply program_reachable|]. intros s H. injection H as <-. discriminate.
Qed.

(** A subclass with a parameter of its own adds it to its base class. *)
Theorem C13_subclass_refuted : exists w base dict, reachable w /\ base < nextc w /\
  names_of Params (fst (define_class [base] dict w)) base <> names_of Params w base.
Proof.
  exists (program dict1), 0, [(Params, t "c")]. split; [apply program_reachable|].
  split; [vm_compute; lia|]. vm_compute. discriminate.
Qed.
Print Assumptions C13_subclass_refuted.

(** Without source (classes defined interactively) the first instance adds
    the predictor's parameter to the signal class, and the second instance
    fails. *)
Theorem C13_instances_refuted : exists (source : nat -> option (list text)) w s p w' r,
  reachable w /\ init source (Some s) (Some p) w = (w', Ok r)
  /\ names_of Params w' s <> names_of Params w s
  /\ snd (init source (Some s) (Some p) w') = Err InferenceError.
Proof.
  exists (fun _ => None), (program dict1), 0, 1.
  destruct (init (fun _ => None) (Some 0) (Some 1) (program dict1)) as [w' r] eqn:E.
  assert (X : (exists q, snd (init (fun _ => None) (Some 0) (Some 1) (program dict1)) = Ok q)
     /\ names_of Params (fst (init (fun _ => None) (Some 0) (Some 1) (program dict1))) 0
        <> names_of Params (program dict1) 0
     /\ snd (init (fun _ => None) (Some 0) (Some 1)
               (fst (init (fun _ => None) (Some 0) (Some 1) (program dict1)))) = Err InferenceError).
  { split; [eexists; vm_compute; reflexivity|]. split; vm_compute; [discriminate|reflexivity]. }
  rewrite E in X. cbn [fst snd] in X. destruct X as ((q & ->) & X1 & X2).
  exists w', q. split; [apply program_reachable|]. auto.
Qed.
Print Assumptions C13_instances_refuted.

From Coq Require Import ZArith String List Bool Arith Lia.
From Verif Require Import Exn McModel IoModel IoSpec IoLemmas IoLemmas2.
Import ListNotations.
Open Scope string_scope.

Section Stores.
Variable V : Type.
Variable is_array : V -> bool.
Variable picklable : V -> bool.

(** A store over the archive m whose attributes should be those of e. *)
Record holds (m e : dict V) (st : store V) : Prop := {
  h_arch : st_archive st = Some (Some m) \/ (st_archive st = Some None /\ m = []);
  h_e : forall n, lookup n e = match lookup n (st_new st) with Some v => Some v | None => lookup n m end;
  h_pulled : forall n v, lookup n (st_pulled st) = Some v -> lookup n m = Some v;
  h_some : forall n v, private n = false -> lookup n (st_dict st) = Some v -> lookup n e = Some v;
  h_none : forall n, lookup n (st_dict st) = None -> lookup n (st_new st) = None;
  h_keys1 : NoDup (map fst (st_pulled st));
  h_keys2 : NoDup (map fst (st_new st)) }.

Lemma holds_fresh : forall m a f, (a = Some m \/ (a = None /\ m = [])) -> holds m m (Store (Some a) f [] [] []).
Proof.
  intros m a f H. constructor; cbn; try discriminate; try reflexivity; try apply NoDup_nil.
  destruct H as [->|[-> ->]]; [now left|right; now split].
Qed.

Lemma holds_read : forall m e st n, holds m e st -> holds m e (fst (get_attr n st)).
Proof.
  intros m e st n H. destruct st as [ar fn pu ne di]. unfold get_attr. cbn [st_archive st_dict st_pulled st_new st_fname].
  destruct (lookup n di) as [v|] eqn:D; [exact H|]. destruct (String.eqb n "save" || String.eqb n "contents")%bool; [exact H|].
  destruct ar as [[m'|]|]; try exact H. destruct (lookup n m') as [v|] eqn:L; [|exact H].
  destruct H as [HA HE HP HS HN K1 K2]. cbn in HA, HE, HP, HS, HN, K1, K2. assert (M : m' = m) by (destruct HA as [HA|[HA _]]; congruence). subst m'.
  cbn [fst]. constructor; cbn [st_archive st_dict st_pulled st_new st_fname].
  - now left.
  - exact HE.
  - intros n' v'. rewrite lookup_store. destruct (String.eqb n n') eqn:E; [|apply HP]. apply String.eqb_eq in E. subst n'. congruence.
  - intros n' v' P. rewrite lookup_store. destruct (String.eqb n n') eqn:E; [|now apply HS]. apply String.eqb_eq in E. subst n'. intro Q. injection Q as <-. rewrite HE, (HN n D). exact L.
  - intros n'. rewrite lookup_store. destruct (String.eqb n n') eqn:E; [discriminate|]. apply HN.
  - now apply store_keys.
  - exact K2.
Qed.

Lemma holds_assign : forall k m e st n v, holds m e st -> holds m (if accepts is_array k n v then (n, v) :: e else e) (fst (set_attr V is_array k n v st)).
Proof.
  intros k m e st n v H. destruct st as [ar fn pu ne di].
  assert (New : private n = false -> holds m ((n, v) :: e) (Store ar fn pu (store_at n v ne) (store_at n v di))).
  { intro P. destruct H as [HA HE HP HS HN K1 K2]. cbn in HA, HE, HP, HS, HN, K1, K2. constructor; cbn [st_archive st_dict st_pulled st_new st_fname].
    - exact HA.
    - intro n'. cbn [lookup]. rewrite lookup_store. destruct (String.eqb n n'); [reflexivity|apply HE].
    - exact HP.
    - intros n' v' P'. cbn [lookup]. rewrite lookup_store. destruct (String.eqb n n'); [exact (fun x => x)|now apply HS].
    - intros n'. rewrite !lookup_store. destruct (String.eqb n n'); [discriminate|apply HN].
    - exact K1.
    - now apply store_keys. }
  unfold set_attr, accepts. cbn [st_archive st_dict st_pulled st_new st_fname]. destruct (private n) eqn:P; cbn [negb andb fst].
  - destruct H as [HA HE HP HS HN K1 K2]. cbn in HA, HE, HP, HS, HN, K1, K2. constructor; cbn [st_archive st_dict st_pulled st_new st_fname]; try assumption.
    + intros n' v' P'. rewrite lookup_store. destruct (String.eqb n n') eqn:E; [|now apply HS]. apply String.eqb_eq in E. congruence.
    + intros n'. rewrite lookup_store. destruct (String.eqb n n') eqn:E; [discriminate|apply HN].
  - destruct k; [destruct (is_array v)|]; cbn [fst]; [now apply New|exact H|now apply New].
Qed.

Lemma expected_ext : forall k acts m m' n, (forall x, lookup x m = lookup x m') -> expected is_array k m acts n = expected is_array k m' acts n.
Proof.
  intros k acts. induction acts as [|a acts IH]; intros m m' n H; cbn; [apply H|]. destruct a as [x|x v]; [now apply IH|]. apply IH. intro y. destruct (accepts is_array k x v); [|apply H]. cbn. destruct (String.eqb x y); [reflexivity|apply H].
Qed.
Lemma holds_use : forall k acts m e st, holds m e st -> exists e', holds m e' (use is_array k acts st) /\ forall n, lookup n e' = expected is_array k e acts n.
Proof.
  intros k acts. induction acts as [|a acts IH]; intros m e st H; cbn; [exists e; now split|]. destruct a as [x|x v].
  - apply IH. now apply holds_read.
  - apply IH. now apply holds_assign.
Qed.

(** Reading *)
Lemma read_holds : forall m e st n, holds m e st -> private n = false -> ~ reserved n ->
  snd (get_attr n st) = match lookup n e with Some v => Ok (Val v) | None => Err AttributeError end.
Proof.
  intros m e [ar fn pu ne di] n [HA HE HP HS HN K1 K2] P R. cbn in HA, HE, HP, HS, HN, K1, K2. unfold get_attr. cbn [st_archive st_dict st_pulled st_new st_fname].
  destruct (lookup n di) as [v|] eqn:D; [cbn; now rewrite (HS n v P D)|].
  assert (B : (String.eqb n "save" || String.eqb n "contents")%bool = false).
  { apply orb_false_iff. split; apply String.eqb_neq; intro Q; apply R; [now left|now right]. }
  rewrite B, HE, (HN n D). destruct HA as [->|[-> ->]]; [|reflexivity]. destruct (lookup n m); reflexivity.
Qed.

(** What is saved *)
Lemma gather_holds : forall m e st, NoDup (map fst m) -> holds m e st -> exists g, gather st = Ok g /\ NoDup (map fst g) /\ forall n, lookup n g = lookup n e.
Proof.
  intros m e [ar fn pu ne di] N [HA HE HP HS HN K1 K2]. cbn in HA, HE, HP, HS, HN, K1, K2. unfold gather. cbn [st_archive st_dict st_pulled st_new st_fname].
  assert (P : forall n, lookup n (fold_left (fun a nv => store_at (fst nv) (snd nv) a) pu []) = lookup n pu) by (intro n; rewrite lookup_fold by exact K1; now destruct (lookup n pu)).
  assert (Kp : NoDup (map fst (fold_left (fun a nv => store_at (fst nv) (snd nv) a) pu []))) by (apply keys_fold; constructor).
  destruct HA as [->|[-> ->]]; eexists; (split; [reflexivity|]); (split; [apply keys_fold; try apply keys_fold_but; exact Kp|]); intro n; rewrite lookup_fold by exact K2; rewrite HE; destruct (lookup n ne); try reflexivity.
  - rewrite lookup_fold_but by exact N. rewrite P. unfold has. destruct (lookup n pu) as [v|] eqn:L; [now rewrite (HP n v L)|]. now destruct (lookup n m).
  - rewrite P. destruct (lookup n pu) as [v|] eqn:L; [|reflexivity]. now apply HP in L.
Qed.

Lemma all_picklable_lookup : forall g, NoDup (map fst g) -> (forall n v, lookup n g = Some v -> picklable v = true) -> all_picklable V picklable g = true.
Proof.
  intros g N H. unfold all_picklable. apply forallb_forall. intros [n v] I. apply (H n). now apply in_lookup.
Qed.

(** Stores that are made *)
Lemma kwds_set : forall k kwds st, k = Attrs ->
  for_each kwds (fun nv => set_attr V is_array k (fst nv) (snd nv)) st = (use is_array k (map (fun nv => Assign (fst nv) (snd nv)) kwds) st, Ok tt).
Proof.
  intros k kwds st ->. revert st. induction kwds as [|[n v] kwds IH]; intro st; [reflexivity|]. cbn [for_each map]. unfold bind. unfold use in *. cbn [fold_left fst snd].
  assert (E : exists st', set_attr V is_array Attrs n v st = (st', Ok tt)) by (unfold set_attr; destruct (private n); eexists; reflexivity). destruct E as [st' E]. rewrite E. cbn [fst]. apply IH.
Qed.

Lemma new_store_holds : forall k fname kwds d m, source k fname d m -> (k = Arrays -> kwds = []) ->
  exists st e, new_store V is_array k fname kwds d = (d, Ok st) /\ holds m e st /\ (forall n, lookup n e = expected is_array k m (map (fun nv => Assign (fst nv) (snd nv)) kwds) n) /\
  st_fname st = match fname with Some f => Some (f ++ ext k) | None => None end.
Proof.
  intros k fname kwds d m S KW. unfold new_store.
  assert (G : forall a f, (a = Some m \/ (a = None /\ m = [])) -> exists st e,
    match for_each kwds (fun nv => set_attr V is_array k (fst nv) (snd nv)) (Store (Some a) f [] [] []) with (st, Ok _) => @ret (disk V) (store V) st | (_, Err e) => raise e end d = (d, Ok st) /\
    holds m e st /\ (forall n, lookup n e = expected is_array k m (map (fun nv => Assign (fst nv) (snd nv)) kwds) n) /\ st_fname st = f).
  { intros a f A. pose proof (holds_fresh m a f A) as H0.
    assert (F : for_each kwds (fun nv => set_attr V is_array k (fst nv) (snd nv)) (Store (Some a) f [] [] []) = (use is_array k (map (fun nv => Assign (fst nv) (snd nv)) kwds) (Store (Some a) f [] [] []), Ok tt)).
    { destruct k; [rewrite (KW eq_refl); reflexivity|now apply kwds_set]. }
    rewrite F. destruct (holds_use k (map (fun nv => Assign (fst nv) (snd nv)) kwds) m m _ H0) as [e [H1 H2]].
    eexists; exists e; split; [reflexivity|]. split; [exact H1|]. split; [exact H2|].
    assert (FN : forall acts st, st_fname (use is_array k acts st) = st_fname st).
    { clear. intro acts. induction acts as [|x acts IH]; intro st; [reflexivity|]. unfold use in *. cbn [fold_left]. rewrite IH. destruct x as [n|n v].
      - unfold get_attr. destruct (lookup n (st_dict st)); [reflexivity|]. destruct (String.eqb n "save" || String.eqb n "contents")%bool; [reflexivity|]. destruct (st_archive st) as [[m|]|]; try reflexivity. destruct (lookup n m); reflexivity.
      - unfold set_attr. destruct (private n); [reflexivity|]. destruct k; [destruct (is_array v)|]; reflexivity. }
    apply FN. }
  destruct fname as [f|]; cbn in S.
  - destruct S as [NE [NX F]]. destruct f as [|c f]; [congruence|]. rewrite NX. cbn [negb]. unfold bind at 1, bind at 1, load. rewrite F.
    assert (L : match archive k m with Npz m0 => match k with Arrays => Ok m0 | Attrs => Err ValueError end | Pkl m0 => match k with Arrays => Err ValueError | Attrs => Ok m0 end | _ => Err ValueError end = Ok m) by (destruct k; reflexivity).
    rewrite L. unfold ret at 1. cbn [fst snd]. apply (G (Some m)). now left.
  - subst m. unfold bind, ret at 1. cbn [fst snd]. apply (G None). right. now split.
Qed.

(** The name a store is saved under *)
Lemma name_ext : forall k f, exists g, (if negb (ends_with f (ext k)) then @ret (disk V) string (f ++ ext k) else ret f) = ret g /\ g <> "" /\ ends_with g (ext k) = true /\ (ends_with f (ext k) = false -> g = f ++ ext k) /\ (ends_with f (ext k) = true -> g = f).
Proof.
  intros k f. destruct (ends_with f (ext k)) eqn:E; cbn [negb]; eexists; (split; [reflexivity|]).
  - split; [intro Q; subst f; destruct k; discriminate E|]. split; [exact E|]. split; [discriminate|reflexivity].
  - split; [intro Q; apply (f_equal String.length) in Q; rewrite app_len in Q; destruct k; cbn in Q; lia|]. split; [apply ends_app|]. split; [reflexivity|discriminate].
Qed.

(** Saving with a disk that does as it is told *)
Lemma save_fine : forall k st f g d arr, ends_with f (ext k) = false -> g = f ++ ext k -> fates d = [] -> gather st = Ok arr -> all_picklable V picklable arr = true -> (k = Arrays -> lookup "file" arr = None) ->
  exists fs, save V picklable k st (Some f) d = (Disk fs [], Ok tt) /\ fs g = Some (archive k arr).
Proof.
  intros k st f g d arr X -> FT G A F. unfold save. rewrite X. cbn [negb]. unfold bind at 1, ret at 1. rewrite G.
  assert (NE : f ++ ext k <> "") by (intro Q; apply (f_equal String.length) in Q; rewrite app_len in Q; destruct k; cbn in Q; lia).
  destruct k.
  - unfold bind at 1. destruct (backup_fine V (f ++ ext Arrays) d FT) as [fs1 E1]. rewrite E1. unfold savez, has. rewrite (F eq_refl). rewrite (ends_app f ".npz" : ends_with (f ++ ext Arrays) ".npz" = true). rewrite A. unfold bind. rewrite create_fine by exact NE. rewrite write_fine. eexists. split; [reflexivity|apply put_same].
  - unfold bind. destruct (safe_open_fine V (f ++ ext Attrs) true d NE FT) as [fs1 E1]. rewrite E1, A. rewrite write_fine. eexists. split; [reflexivity|apply put_same].
Qed.

(** Saving, whatever happens *)
Lemma save_cases : forall k st f g d d' r, (if ends_with f (ext k) then g = f else g = f ++ ext k) -> save V picklable k st (Some f) d = (d', r) ->
  kept g (files d) (files d') /\
  (r = Ok tt -> shifted g (files d) (files d') /\ exists m, files d' g = Some (archive k m) /\ gather st = Ok m).
Proof.
  intros k st f g d d' r GN. unfold save. destruct (name_ext k f) as [g' [E [NE [EX [G1 G2]]]]]. assert (GG : g' = g) by (destruct (ends_with f (ext k)); [rewrite G2 by reflexivity|rewrite G1 by reflexivity]; now symmetry). subst g'. clear G1 G2 GN.
  rewrite E. unfold bind at 1, ret at 1. destruct (gather st) as [arr|e] eqn:GA.
  2:{ intro Q. injection Q as <- <-. split; [apply kept_refl|discriminate]. }
  destruct k.
  - unfold bind at 1. destruct (backup g d) as [d1 r1] eqn:E1. destruct (backup_cases V g d d1 r1 E1) as [K [H _]]. destruct r1 as [[]|e].
    2:{ intro Q. injection Q as <- <-. split; [exact K|discriminate]. }
    destruct (H tt eq_refl) as [S0 _]. unfold savez. destruct (has "file" arr); [intro Q; injection Q as <- <-; split; [exact K|discriminate]|]. cbn [ext] in EX. rewrite EX.
    unfold bind at 1. destruct (create g d1) as [d2 r2] eqn:E2. destruct (create_cases V g d1 d2 r2 NE E2) as [[-> W]|[R2 W]].
    2:{ destruct r2 as [[]|e]; [destruct R2; discriminate|]. intro Q. injection Q as <- <-. rewrite W. split; [exact K|discriminate]. }
    destruct (kept_put V g _ _ (Some (Bytes [])) K S0) as [K2 S2]. destruct (all_picklable V picklable arr).
    2:{ intro Q. injection Q as <- <-. rewrite W. split; [exact K2|discriminate]. }
    intro Q. destruct (write_cases V g (Npz arr) d2 d' r Q) as [[-> W3]|[R3 W3]].
    + destruct (kept_put V g _ _ (Some (Npz arr)) K2 S2) as [K3 S3]. rewrite W3, W. split; [exact K3|]. intros _. split; [exact S3|]. exists arr. split; [apply put_same|reflexivity].
    + rewrite W3, W. split; [exact K2|]. destruct R3; congruence.
  - unfold bind at 1. destruct (safe_open g true None [] [] d) as [d1 r1] eqn:E1. destruct (safe_open_cases V g true d d1 r1 NE E1) as [K [_ H]]. destruct r1 as [o|e].
    2:{ intro Q. injection Q as <- <-. split; [exact K|discriminate]. }
    destruct (H o eq_refl) as [_ [S0 _]]. destruct (all_picklable V picklable arr).
    2:{ intro Q. injection Q as <- <-. split; [exact K|discriminate]. }
    intro Q. destruct (write_cases V g (Pkl arr) d1 d' r Q) as [[-> W3]|[R3 W3]].
    + destruct (kept_put V g _ _ (Some (Pkl arr)) K S0) as [K3 S3]. rewrite W3. split; [exact K3|]. intros _. split; [exact S3|]. exists arr. split; [apply put_same|reflexivity].
    + rewrite W3. split; [exact K|]. destruct R3; congruence.
Qed.

(** The round trip *)
Lemma round_trip : forall k fname0 kwds m d0 acts f d,
  source k fname0 d0 m -> NoDup (map fst m) -> (k = Arrays -> kwds = []) -> f <> "" -> ends_with f (ext k) = false -> fates d = [] ->
  let hist := (map (fun nv => Assign (fst nv) (snd nv)) kwds ++ acts)%list in
  (forall n v, expected is_array k m hist n = Some v -> picklable v = true) -> (k = Arrays -> expected is_array k m hist "file" = None) ->
  exists st0 st1 d1 m1, new_store V is_array k fname0 kwds d0 = (d0, Ok st0) /\
  save V picklable k (use is_array k acts st0) (Some f) d = (d1, Ok tt) /\ files d1 (f ++ ext k) = Some (archive k m1) /\ NoDup (map fst m1) /\
  (forall n, lookup n m1 = expected is_array k m hist n) /\
  new_store V is_array k (Some f) [] d1 = (d1, Ok st1) /\
  forall acts1 n, private n = false -> ~ reserved n ->
    snd (get_attr n (use is_array k acts1 st1)) = match expected is_array k m (hist ++ acts1)%list n with Some v => Ok (Val v) | None => Err AttributeError end.
Proof.
  intros k fname0 kwds m d0 acts f d SO ND KW NE NX FT hist PK FI.
  assert (EA : forall a b m n, expected is_array k m (a ++ b)%list n = expected is_array k (fold_left (fun m x => match x with Read _ => m | Assign n' v => if accepts is_array k n' v then (n', v) :: m else m end) a m) b n).
  { clear. intro a. induction a as [|x a IH]; intros b m n; [reflexivity|]. cbn [app expected fold_left]. destruct x as [y|y v]; apply IH. }
  assert (EA0 : forall a m n, expected is_array k m a n = lookup n (fold_left (fun m x => match x with Read _ => m | Assign n' v => if accepts is_array k n' v then (n', v) :: m else m end) a m)).
  { intros a m' n. rewrite <- (app_nil_r a) at 1. rewrite EA. reflexivity. }
  destruct (new_store_holds k fname0 kwds d0 m SO KW) as [st0 [e0 [N0 [H0 [L0 _]]]]].
  destruct (holds_use k acts m e0 st0 H0) as [e1 [H1 L1]].
  assert (L : forall n, lookup n e1 = expected is_array k m hist n).
  { intro n. rewrite L1. unfold hist. rewrite EA. apply expected_ext. intro x. rewrite L0. apply EA0. }
  destruct (gather_holds m e1 _ ND H1) as [g [G1 [G2 G3]]].
  assert (AP : all_picklable V picklable g = true) by (apply all_picklable_lookup; [exact G2|]; intros n v Q; apply (PK n v); rewrite <- L, <- G3; exact Q).
  assert (AF : k = Arrays -> lookup "file" g = None) by (intro Q; rewrite G3, L; now apply FI).
  destruct (save_fine k _ f _ d g NX eq_refl FT G1 AP AF) as [fs [SV FS]].
  assert (SO1 : source k (Some f) (Disk fs []) g) by (split; [exact NE|split; [exact NX|exact FS]]).
  destruct (new_store_holds k (Some f) [] (Disk fs []) g SO1 (fun _ => eq_refl)) as [st1 [e2 [N1 [H2 [L2 _]]]]].
  exists st0, st1, (Disk fs []), g. split; [exact N0|]. split; [exact SV|]. split; [exact FS|]. split; [exact G2|]. split; [intro n; rewrite G3; apply L|]. split; [exact N1|].
  intros acts1 n P R. destruct (holds_use k acts1 g e2 st1 H2) as [e3 [H3 L3]]. rewrite (read_holds g e3 _ n H3 P R), L3, EA.
  rewrite (expected_ext k acts1 e2 (fold_left (fun m x => match x with Read _ => m | Assign n' v => if accepts is_array k n' v then (n', v) :: m else m end) hist m) n); [reflexivity|].
  intro x. rewrite L2. cbn [map expected]. rewrite G3, L. apply EA0.
Qed.

Lemma use_fname : forall k acts (st : store V), st_fname (use is_array k acts st) = st_fname st.
Proof.
  intros k acts. induction acts as [|x acts IH]; intro st; [reflexivity|]. unfold use in *. cbn [fold_left]. rewrite IH. destruct x as [n|n v].
  - unfold get_attr. destruct (lookup n (st_dict st)); [reflexivity|]. destruct (String.eqb n "save" || String.eqb n "contents")%bool; [reflexivity|]. destruct (st_archive st) as [[m|]|]; try reflexivity. destruct (lookup n m); reflexivity.
  - unfold set_attr. destruct (private n); [reflexivity|]. destruct k; [destruct (is_array v)|]; reflexivity.
Qed.
(** Saving under the store's own name *)
Lemma save_own : forall k st f d, st_fname st = Some (f ++ ext k) -> ends_with f (ext k) = false -> save V picklable k st None d = save V picklable k st (Some f) d.
Proof. intros k st f d H X. unfold save. rewrite H, X. reflexivity. Qed.

(** Stores made from a name with the extension *)
Lemma with_extension : forall k f kwds d, f <> "" -> ends_with f (ext k) = true -> (k = Arrays -> kwds = []) ->
  exists st, new_store V is_array k (Some f) kwds d = (d, Ok st) /\ st_archive st = None.
Proof.
  intros k f kwds d NE X KW. unfold new_store. destruct f as [|c f]; [congruence|]. rewrite X. cbn [negb]. unfold bind, ret at 1. cbn [fst snd].
  assert (AR : forall acts st, st_archive st = None -> st_archive (use is_array k acts st) = None).
  { clear. intro acts. induction acts as [|x acts IH]; intros st H; [exact H|]. unfold use in *. cbn [fold_left]. apply IH. destruct x as [n|n v].
    - unfold get_attr. rewrite H. destruct (lookup n (st_dict st)); [exact H|]. destruct (String.eqb n "save" || String.eqb n "contents")%bool; exact H.
    - unfold set_attr. destruct (private n); [exact H|]. destruct k; [destruct (is_array v)|]; exact H. }
  assert (F : for_each kwds (fun nv => set_attr V is_array k (fst nv) (snd nv)) (Store None (Some (String c f)) [] [] []) = (use is_array k (map (fun nv => Assign (fst nv) (snd nv)) kwds) (Store None (Some (String c f)) [] [] []), Ok tt)).
  { destruct k; [rewrite (KW eq_refl); reflexivity|now apply kwds_set]. }
  rewrite F. eexists. split; [reflexivity|]. now apply AR.
Qed.
Lemma no_archive_use : forall k acts (st : store V), st_archive st = None -> st_archive (use is_array k acts st) = None.
Proof.
  intros k acts. induction acts as [|x acts IH]; intros st H; [exact H|]. unfold use in *. cbn [fold_left]. apply IH. destruct x as [n|n v].
  - unfold get_attr. rewrite H. destruct (lookup n (st_dict st)); [exact H|]. destruct (String.eqb n "save" || String.eqb n "contents")%bool; exact H.
  - unfold set_attr. destruct (private n); [exact H|]. destruct k; [destruct (is_array v)|]; exact H.
Qed.
Lemma no_archive_dict : forall k acts n (st : store V), lookup n (st_dict st) = None -> (forall v, ~ In (Assign n v) acts) -> st_archive st = None -> lookup n (st_dict (use is_array k acts st)) = None.
Proof.
  intros k acts n. induction acts as [|x acts IH]; intros st H NA AR; [exact H|]. unfold use in *. cbn [fold_left]. apply IH.
  - destruct x as [y|y v].
    + unfold get_attr. rewrite AR. destruct (lookup y (st_dict st)); [exact H|]. destruct (String.eqb y "save" || String.eqb y "contents")%bool; exact H.
    + assert (E : String.eqb y n = false) by (apply String.eqb_neq; intro Q; subst y; apply (NA v); now left).
      unfold set_attr. destruct (private y); cbn [fst st_dict]; [now rewrite lookup_store, E|]. destruct k; [destruct (is_array v)|]; cbn [fst st_dict]; [now rewrite lookup_store, E|exact H|now rewrite lookup_store, E].
  - intros v Q. apply (NA v). now right.
  - apply (no_archive_use k [x] st AR).
Qed.
Lemma no_archive_fails : forall k (st : store V) d fname, st_archive st = None -> (fname <> None \/ st_fname st <> None) ->
  (forall n, lookup n (st_dict st) = None -> ~ reserved n -> get_attr n st = (st, Err RecursionError)) /\
  save V picklable k st fname d = (d, Err RecursionError) /\ contents st = Err RecursionError.
Proof.
  intros k st d fname AR NF. split; [|split].
  - intros n L R. unfold get_attr. rewrite L, AR. assert (B : (String.eqb n "save" || String.eqb n "contents")%bool = false) by (apply orb_false_iff; split; apply String.eqb_neq; intro Q; apply R; [now left|now right]). now rewrite B.
  - unfold save, gather. rewrite AR. destruct fname as [f|].
    + destruct (negb (ends_with f (ext k))); reflexivity.
    + destruct (st_fname st); [reflexivity|]. destruct NF; congruence.
  - unfold contents. now rewrite AR.
Qed.
End Stores.

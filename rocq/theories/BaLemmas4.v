From Coq Require Import List Bool Arith Reals Lia Lra Psatz.
From Verif Require Import Exn Instances McModel CountSpec CountLemmas BaModel BaSpec BaLemmas BaLemmas2 BaLemmas3.
Import ListNotations.
Open Scope R_scope.

Section Covar.
Variable n : nat.
Variable L : nat -> nat -> R.
Hypothesis diag0 : forall i, (i < n)%nat -> L i i <> 0.
Definition kd (i j : nat) : R := if Nat.eqb i j then 1 else 0.

(** Columns before a hold the inverse; the others the factor. *)
Definition inv_out (a : nat) (cv : list R) : Prop := exists F, mrep n cv F /\
  (forall i j, (j < a)%nat -> (j <= i < n)%nat -> sum_over j (S i - j) (fun m => L i m * F m j) = kd i j) /\
  (forall i j, (a <= j)%nat -> (j <= i < n)%nat -> F i j = L i j).
Definition inv_in (a b : nat) (cv : list R) : Prop := exists F, mrep n cv F /\
  (forall i j, (j < a)%nat -> (j <= i < n)%nat -> sum_over j (S i - j) (fun m => L i m * F m j) = kd i j) /\
  (forall i j, (a < j)%nat -> (j <= i < n)%nat -> F i j = L i j) /\
  (forall i, (a <= i < b)%nat -> sum_over a (S i - a) (fun m => L i m * F m a) = kd i a) /\
  (forall i, (b <= i < n)%nat -> F i a = L i a).

Lemma invert_is : forall cv, mrep n cv L -> exists cv', c_invert n cv = Ok cv' /\ inv_out n cv'.
Proof.
  intros cv HL. unfold c_invert. cbv zeta. refine (iter_up (list R) inv_out n 0 _ cv _ _).
  - exists L. split; [exact HL|]. split; [intros; lia|]. reflexivity.
  - clear cv HL. intros a cv A [F [[LF HF] [H1 H2]]]. rewrite HF by lia. rewrite H2 by lia.
    destruct (mrep_wr n cv F a a (1 / L a a) (conj LF HF) ltac:(lia) ltac:(lia)) as [cv1 [-> M1]]. set (F1 := fun i j => if (Nat.eqb i a && Nat.eqb j a)%bool then 1 / L a a else F i j) in *.
    assert (E1 : forall i j, j <> a -> F1 i j = F i j) by (intros i j N; unfold F1; rewrite (proj2 (Nat.eqb_neq j a) N); now rewrite andb_false_r).
    assert (I0 : inv_in a (a + 1) cv1).
    { exists F1. split; [exact M1|]. split; [|split; [|split]].
      - intros i j J I. rewrite <- (H1 i j J I). apply so_ext. intros m Hm. rewrite E1 by lia. reflexivity.
      - intros i j J I. rewrite E1 by lia. apply H2; lia.
      - intros i I. assert (i = a) by lia. subst i. replace (S a - a)%nat with 1%nat by lia. rewrite so_front, so_0. unfold F1, kd. rewrite !Nat.eqb_refl. cbn [andb]. field. apply diag0. lia.
      - intros i I. unfold F1. rewrite (proj2 (Nat.eqb_neq i a)) by lia. cbn [andb]. apply H2; lia. }
    match goal with |- exists s', iter _ ?f _ = _ /\ _ => destruct (iter_up (list R) (inv_in a) (n - (a + 1)) (a + 1) f cv1 I0) as [cv' [E [K [MK [K1 [K2 [K3 K4]]]]]]] end.
    + clear - A diag0. intros b cv B [F [[LF HF] [H1 [H2 [H3 H4]]]]].
      rewrite (sub_loop (b - a) a cv cv (fun m => b * n + m)%nat (fun m => m * n + a)%nat (fun m => L b m) (fun m => F m a)).
      2:{ intros m Hm. split; [|apply HF; lia]. rewrite HF by lia. f_equal. destruct (Nat.eq_dec m a) as [->|N]; [apply H4; lia|apply H2; lia]. }
      rewrite HF by lia. rewrite (H2 b b) by lia.
      destruct (mrep_wr n cv F b a ((0 - sum_over a (b - a) (fun m => L b m * F m a)) / L b b) (conj LF HF) ltac:(lia) ltac:(lia)) as [cv1 [-> M1]]. exists cv1. split; [reflexivity|].
      set (v := (0 - sum_over a (b - a) (fun m => L b m * F m a)) / L b b) in *. set (F1 := fun i j => if (Nat.eqb i b && Nat.eqb j a)%bool then v else F i j) in *.
      assert (E1 : forall i j, j <> a -> F1 i j = F i j) by (intros i j N; unfold F1; rewrite (proj2 (Nat.eqb_neq j a) N); now rewrite andb_false_r).
      assert (E2 : forall i j, i <> b -> F1 i j = F i j) by (intros i j N; unfold F1; now rewrite (proj2 (Nat.eqb_neq i b) N)).
      exists F1. split; [exact M1|]. split; [|split; [|split]].
      * intros i j J I. rewrite <- (H1 i j J I). apply so_ext. intros m Hm. rewrite E1 by lia. reflexivity.
      * intros i j J I. rewrite E1 by lia. apply H2; lia.
      * intros i I. destruct (Nat.eq_dec i b) as [->|N].
        -- replace (S b - a)%nat with (S (b - a)) by lia. rewrite so_end. replace (a + (b - a))%nat with b by lia. rewrite (so_ext (b - a) a _ (fun m => L b m * F m a)) by (intros m Hm; rewrite E2 by lia; reflexivity).
           unfold F1 at 1. rewrite !Nat.eqb_refl. cbn [andb]. unfold kd. rewrite (proj2 (Nat.eqb_neq b a)) by lia. unfold v. field. apply diag0. lia.
        -- rewrite <- (H3 i) by lia. apply so_ext. intros m Hm. rewrite E2 by lia. reflexivity.
      * intros i I. rewrite E2 by lia. apply H4. lia.
    + exists cv'. split; [exact E|]. exists K. split; [exact MK|]. split; [|intros; apply K2; lia].
      intros i j J I. destruct (Nat.eq_dec j a) as [->|N]; [apply K3; lia|apply K1; lia].
Qed.

Variable X : nat -> nat -> R.
Definition cov (i j : nat) : R := sum_over j (n - j) (fun m => X m i * X m j).
Lemma square_is : forall cv F, mrep n cv F -> (forall i j, (j <= i < n)%nat -> F i j = X i j) -> exists cv' C, c_square n cv = Ok cv' /\ mrep n cv' C /\ forall i j, (i <= j < n)%nat -> C i j = cov i j.
Proof.
  intros cv F HF H0. unfold c_square. cbv zeta.
  match goal with |- exists cv' C, iter _ ?f _ = _ /\ _ => destruct (iter_up (list R) (fun a cv => exists C, mrep n cv C /\ (forall i j, (i < a)%nat -> (i <= j < n)%nat -> C i j = cov i j) /\ (forall i j, (j < i < n)%nat -> C i j = X i j) /\ forall i, (a <= i < n)%nat -> C i i = X i i) n 0 f cv) as [cv' [E [C [MC [C1 _]]]]] end.
  - exists F. split; [exact HF|]. split; [intros; lia|]. split; intros; apply H0; lia.
  - clear cv F HF H0. intros a cv A [C [MC [C1 [C2 C3]]]].
    match goal with |- exists s', iter _ ?f _ = _ /\ _ => destruct (iter_up (list R) (fun b cv => exists C, mrep n cv C /\ (forall i j, (i < a)%nat -> (i <= j < n)%nat -> C i j = cov i j) /\ (forall i j, (j < i < n)%nat -> C i j = X i j) /\ (forall i, (a < i < n)%nat -> C i i = X i i) /\ (b = a -> C a a = X a a) /\ forall j, (a <= j < b)%nat -> C a j = cov a j) (n - a) a f cv) as [cv' [E [K [MK [K1 [K2 [K3 [_ K4]]]]]]]] end.
    + exists C. split; [exact MC|]. split; [exact C1|]. split; [exact C2|]. split; [intros; apply C3; lia|]. split; [intros; apply C3; lia|intros; lia].
    + clear cv C MC C1 C2 C3. intros b cv B [C [[LC HC] [C1 [C2 [C3 [C4 C5]]]]]].
      rewrite (add_loop (n - b) b cv cv (fun m => m * n + a)%nat (fun m => m * n + b)%nat (fun m => X m a) (fun m => X m b)).
      2:{ intros m Hm. rewrite !HC by lia. split; f_equal.
          - destruct (Nat.eq_dec m a) as [->|N]; [apply C4; lia|apply C2; lia].
          - destruct (Nat.eq_dec m b) as [->|N]; [|apply C2; lia]. destruct (Nat.eq_dec b a) as [->|N2]; [now apply C4|apply C3; lia]. }
      destruct (mrep_wr n cv C a b (0 + sum_over b (n - b) (fun m => X m a * X m b)) (conj LC HC) ltac:(lia) ltac:(lia)) as [cv1 [-> M1]]. exists cv1. split; [reflexivity|]. eexists. split; [exact M1|]. cbn beta. split; [|split; [|split; [|split]]].
      * intros i j I J. rewrite (proj2 (Nat.eqb_neq i a)) by lia. cbn [andb]. now apply C1.
      * intros i j I. destruct (Nat.eqb_spec i a) as [->|]; cbn [andb]; [|now apply C2]. rewrite (proj2 (Nat.eqb_neq j b)) by lia. now apply C2.
      * intros i I. rewrite (proj2 (Nat.eqb_neq i a)) by lia. cbn [andb]. now apply C3.
      * intros; lia.
      * intros j J. rewrite Nat.eqb_refl. cbn [andb]. destruct (Nat.eqb_spec j b) as [->|N]; [unfold cov; ring|apply C5; lia].
    + exists cv'. split; [exact E|]. exists K. split; [exact MK|]. split; [|split; [exact K2|intros; apply K3; lia]].
      intros i j I J. destruct (Nat.eq_dec i a) as [->|N]; [apply K4; lia|apply K1; lia].
  - exists cv', C. split; [exact E|]. split; [exact MC|]. intros i j I. apply C1; lia.
Qed.
Lemma mirror_is : forall cv F, mrep n cv F -> (forall i j, (i <= j < n)%nat -> F i j = cov i j) -> exists cv' C, c_mirror n cv = Ok cv' /\ mrep n cv' C /\ forall i j, (i <= j < n)%nat -> C i j = cov i j /\ C j i = cov i j.
Proof.
  intros cv F HF H0. unfold c_mirror. cbv zeta.
  match goal with |- exists cv' C, iter _ ?f _ = _ /\ _ => destruct (iter_up (list R) (fun a cv => exists C, mrep n cv C /\ (forall i j, (i <= j < n)%nat -> C i j = cov i j) /\ forall i j, (i < a)%nat -> (i <= j < n)%nat -> C j i = cov i j) n 0 f cv) as [cv' [E [C [MC [C1 C2]]]]] end.
  - exists F. split; [exact HF|]. split; [exact H0|intros; lia].
  - clear cv F HF H0. intros a cv A [C [MC [C1 C2]]].
    match goal with |- exists s', iter _ ?f _ = _ /\ _ => destruct (iter_up (list R) (fun b cv => exists C, mrep n cv C /\ (forall i j, (i <= j < n)%nat -> C i j = cov i j) /\ (forall i j, (i < a)%nat -> (i <= j < n)%nat -> C j i = cov i j) /\ forall j, (a <= j < b)%nat -> C j a = cov a j) (n - (a + 1)) (a + 1) f cv) as [cv' [E [K [MK [K1 [K2 K3]]]]]] end.
    + exists C. split; [exact MC|]. split; [exact C1|]. split; [exact C2|]. intros j J. assert (j = a) by lia. subst j. apply C1. lia.
    + clear cv C MC C1 C2. intros b cv B [C [[LC HC] [C1 [C2 C3]]]]. rewrite HC by lia. rewrite C1 by lia.
      destruct (mrep_wr n cv C b a (cov a b) (conj LC HC) ltac:(lia) ltac:(lia)) as [cv1 [-> M1]]. exists cv1. split; [reflexivity|]. eexists. split; [exact M1|]. cbn beta. split; [|split].
      * intros i j I. destruct (Nat.eqb_spec i b) as [->|]; cbn [andb]; [|now apply C1]. rewrite (proj2 (Nat.eqb_neq j a)) by lia. now apply C1.
      * intros i j I J. rewrite (proj2 (Nat.eqb_neq i a)) by lia. rewrite andb_false_r. now apply C2.
      * intros j J. rewrite Nat.eqb_refl. rewrite andb_true_r. destruct (Nat.eqb_spec j b) as [->|N]; [reflexivity|apply C3; lia].
    + exists cv'. split; [exact E|]. exists K. split; [exact MK|]. split; [exact K1|]. intros i j I J. destruct (Nat.eq_dec i a) as [->|N]; [apply K3; lia|apply K2; lia].
  - exists cv', C. split; [exact E|]. split; [exact MC|]. intros i j I. split; [apply C1; lia|apply C2; lia].
Qed.
End Covar.

Definition lower (A : nat -> nat -> R) (i j : nat) : R := if Nat.leb j i then A i j else 0.
Lemma lower_le : forall A i j, (j <= i)%nat -> lower A i j = A i j.
Proof. intros A i j H. unfold lower. now rewrite (proj2 (Nat.leb_le j i) H). Qed.
Lemma lower_gt : forall A i j, (i < j)%nat -> lower A i j = 0.
Proof. intros A i j H. unfold lower. now rewrite (proj2 (Nat.leb_gt j i) H). Qed.

Lemma product_assoc : forall n A B C i j, product n A (product n B C) i j = product n (product n A B) C i j.
Proof.
  intros. unfold product. rewrite (so_ext n 0 _ (fun k => sum_over 0 n (fun l => A i k * B k l * C l j))) by (intros k K; rewrite <- so_scal; apply so_ext; intros; ring).
  rewrite so_swap. apply so_ext. intros l Hl. now rewrite so_scal_r.
Qed.
Lemma product_ext : forall n A A' B B' i j, (forall k, (k < n)%nat -> A i k = A' i k) -> (forall k, (k < n)%nat -> B k j = B' k j) -> product n A B i j = product n A' B' i j.
Proof. intros n A A' B B' i j H1 H2. unfold product. apply so_ext. intros k K. rewrite H1, H2 by lia. reflexivity. Qed.
Lemma product_id_l : forall n A i j, (i < n)%nat -> product n identity A i j = A i j.
Proof. intros n A i j I. unfold product. rewrite (so_one n 0 _ i); [unfold identity; rewrite Nat.eqb_refl; ring|lia|]. intros k K N. unfold identity. rewrite (proj2 (Nat.eqb_neq i k)) by congruence. ring. Qed.
Lemma product_id_r : forall n A i j, (j < n)%nat -> product n A identity i j = A i j.
Proof. intros n A i j I. unfold product. rewrite (so_one n 0 _ j); [unfold identity; rewrite Nat.eqb_refl; ring|lia|]. intros k K N. unfold identity. rewrite (proj2 (Nat.eqb_neq k j)) by congruence. ring. Qed.
Lemma id_sym : forall i j, identity i j = identity j i.
Proof. intros. unfold identity. now rewrite Nat.eqb_sym. Qed.

Lemma covar_is : forall A n, square A n -> (forall i, (i < n)%nat -> entry A i i <> 0) ->
  let Lo := lower (entry A) in let M := product n Lo (transpose Lo) in
  exists C, covar A = Ok C /\ square C n /\ (forall i j, (i < n)%nat -> (j < n)%nat -> entry C i j = entry C j i) /\
  (forall i j, (i < n)%nat -> (j < n)%nat -> product n M (entry C) i j = identity i j /\ product n (entry C) M i j = identity i j).
Proof.
  intros A n [RA [CA SA]] D Lo M. unfold covar. rewrite RA. cbv zeta.
  assert (ML : mrep n (cells A) (entry A)).
  { split; [unfold shaped in SA; now rewrite SA, RA, CA|]. intros i j I J. rewrite <- CA at 1. apply rd_entry; [exact SA|lia|lia]. }
  destruct (invert_is n (entry A) D (cells A) ML) as [cv [-> [F [MF [HF _]]]]].
  set (X := lower F).
  destruct (square_is n X cv F MF) as [cv2 [C2 [-> [M2 H2]]]]; [intros i j I; unfold X; now rewrite lower_le by lia|].
  destruct (mirror_is n X cv2 C2 M2 H2) as [cv3 [C [-> [M3 H3]]]]. rewrite CA. exists (Mat n n cv3). split; [reflexivity|]. split; [exact (mrep_square n cv3 C M3)|].
  assert (LX : forall i j, (i < n)%nat -> (j < n)%nat -> product n Lo X i j = identity i j).
  { intros i j I J. unfold product. destruct (Nat.lt_ge_cases i j) as [Q|Q].
    - rewrite so_zero; [unfold identity; now rewrite (proj2 (Nat.eqb_neq i j)) by lia|]. intros k K. destruct (Nat.lt_ge_cases i k) as [Q2|Q2]; [unfold Lo; rewrite lower_gt by lia; ring|unfold X; rewrite (lower_gt F) by lia; ring].
    - rewrite (so_trunc n (S i)) by (try lia; intros k K; unfold Lo; rewrite lower_gt by lia; ring). rewrite (so_drop (S i) j) by (try lia; intros k K; unfold X; rewrite (lower_gt F) by lia; ring).
      change (identity i j) with (kd i j). rewrite <- (HF i j) by lia. apply so_ext. intros k K. unfold Lo, X. now rewrite !lower_le by lia. }
  assert (LZ : forall i j, (i < j)%nat -> (j < n)%nat -> Lo i j = 0) by (intros; unfold Lo; now apply lower_gt).
  assert (LD : forall i, (i < n)%nat -> Lo i i <> 0) by (intros i I; unfold Lo; rewrite lower_le by lia; now apply D).
  assert (XL : forall i j, (i < n)%nat -> (j < n)%nat -> product n X Lo i j = identity i j).
  { intros i j I J. assert (E : product n X Lo i j - identity i j = 0); [|lra]. revert i I. apply (lower_zero n Lo (fun i => product n X Lo i j - identity i j) LZ LD). intros i I.
    rewrite (so_ext n 0 _ (fun m => Lo i m * product n X Lo m j - Lo i m * identity m j)) by (intros; ring). rewrite so_minus.
    change (product n Lo (product n X Lo) i j - product n Lo identity i j = 0). rewrite product_assoc, product_id_r by exact J. rewrite (product_ext n (product n Lo X) identity Lo Lo); [rewrite product_id_l by exact I; ring|intros; now apply LX|reflexivity]. }
  assert (EC : forall i j, (i < n)%nat -> (j < n)%nat -> entry (Mat n n cv3) i j = product n (transpose X) X i j).
  { intros i j I J. rewrite (mrep_entry n cv3 C) by assumption. destruct (Nat.le_ge_cases i j) as [Q|Q].
    - rewrite (proj1 (H3 i j ltac:(lia))). unfold cov, product, transpose. rewrite (so_drop n j) by (try lia; intros k K; unfold X; rewrite (lower_gt F k j) by lia; ring). reflexivity.
    - rewrite (proj2 (H3 j i ltac:(lia))). unfold cov, product, transpose. rewrite (so_drop n i) by (try lia; intros k K; unfold X; rewrite (lower_gt F k i) by lia; ring). apply so_ext. intros. ring. }
  assert (SC : forall i j, (i < n)%nat -> (j < n)%nat -> entry (Mat n n cv3) i j = entry (Mat n n cv3) j i).
  { intros i j I J. rewrite !EC by assumption. unfold product, transpose. apply so_ext. intros. ring. }
  split; [exact SC|].
  assert (SM : forall i j, M i j = M j i) by (intros; unfold M, product, transpose; apply so_ext; intros; ring).
  assert (ONE : forall i j, (i < n)%nat -> (j < n)%nat -> product n (entry (Mat n n cv3)) M i j = identity i j).
  { intros i j I J. rewrite (product_ext n _ (product n (transpose X) X) M M) by (intros; try reflexivity; now apply EC). unfold M. rewrite <- product_assoc.
    rewrite (product_ext n (transpose X) (transpose X) _ (transpose Lo)).
    - change (product n (transpose X) (transpose Lo) i j) with (sum_over 0 n (fun k => X k i * Lo j k)). rewrite (so_ext n 0 _ (fun k => Lo j k * X k i)) by (intros; ring). change (product n Lo X j i = identity i j). rewrite LX by assumption. apply id_sym.
    - reflexivity.
    - intros k K. rewrite product_assoc. rewrite (product_ext n (product n X Lo) identity (transpose Lo) (transpose Lo)) by (intros; try reflexivity; now apply XL). now apply product_id_l. }
  intros i j I J. split; [|now apply ONE]. rewrite <- (id_sym j i), <- (ONE j i J I). unfold product. apply so_ext. intros k K. rewrite (SM i k), (SC k j) by lia. ring.
Qed.

(** * Proofs about Linear::inverse *)
From Coq Require Import Reals Lra.
From Verif Require Import Mem Scalar MemSpec MemLemmas Lique LiqueProofs LiqueProofs2 LiqueSpec Linear LinearProofs RSum.

(** ** memory effect of the row operations, any scalar type *)
Section Pieces.
Context {T : Type} `{NT : Num T}.
Implicit Types (m : mem T).

Definition upd2 (f : Z -> Z -> T) (i j : Z) (x : T) : Z -> Z -> T :=
  fun i' j' => if ((i' =? i) && (j' =? j))%bool then x else f i' j'.

Lemma holds2_mset m p h w f i j x : 0 <= i < h -> 0 <= j < w -> holds2 m p h w f ->
  holds2 (mset m p (i * w + j) x) p h w (upd2 f i j x).
Proof.
  intros Hi Hj H i' j' Hi' Hj'. unfold upd2.
  destruct (Z.eqb_spec i' i) as [->|Hne]; [destruct (Z.eqb_spec j' j) as [->|Hne]|]; cbn [andb].
  - apply elem_mset_same. rewrite H; auto. congruence.
  - rewrite elem_mset_other; auto. { right. lia. } intros b o b' o' -> [= -> ->] _ X. lia.
  - rewrite elem_mset_other; auto. { right. intros X. apply flat_unique in X; lia. }
    intros b o b' o' -> [= -> ->] _ X. apply Hne. apply (flat_unique w i' j' i j); lia.
Qed.

Lemma wp_mat_set t h w i j x m f (Q : unit -> mem T -> Prop) :
  mat_is t h w -> 0 <= i < h -> 0 <= j < w -> holds2 m (t_data t) h w f ->
  (forall m', sets2 (t_data t) h w (upd2 f i j x) m m' -> Q tt m') ->
  wp (mat_set t i j x) m Q.
Proof.
  intros Ht Hi Hj Hf HQ. rewrite (mat_set_eq t h w) by auto. apply wp_store. { rewrite Hf; auto. congruence. }
  apply HQ. split; [now apply holds2_mset|]. apply only_mset_in. nia.
Qed.
Lemma wp_mat_get t h w i j m f (Q : T -> mem T -> Prop) :
  mat_is t h w -> 0 <= i < h -> 0 <= j < w -> holds2 m (t_data t) h w f -> Q (f i j) m ->
  wp (mat_get t i j) m Q.
Proof. intros Ht Hi Hj Hf HQ. eapply wp_intro; [eapply mat_get_ok; eauto|auto]. Qed.

Lemma sets2_trans dst h w f g m1 m2 m3 : sets2 dst h w f m1 m2 -> sets2 dst h w g m2 m3 -> sets2 dst h w g m1 m3.
Proof. intros [_ A] [B C]. split; auto. eapply only_trans; eauto. Qed.

Ltac bz := cbv beta; repeat (match goal with
  | |- context [Z.eqb ?a ?b] => destruct (Z.eqb_spec a b)
  | |- context [Z.ltb ?a ?b] => destruct (Z.ltb_spec a b)
  | |- context [Z.leb ?a ?b] => destruct (Z.leb_spec a b) end); cbn [andb orb negb]; subst; try lia; auto.

Lemma wp_inv_scale t N k lo c m f : mat_is t N N -> 0 <= lo <= N -> 0 <= k < N -> holds2 m (t_data t) N N f ->
  wp (inv_scale t N k lo c) m (fun _ => sets2 (t_data t) N N
     (fun i j => if (i =? k) && (lo <=? j) then mul (f i j) c else f i j)%bool m).
Proof.
  intros Ht Hlo Hk Hf. unfold inv_scale.
  eapply (wp_mfor lo N _ (fun l => sets2 (t_data t) N N
     (fun i j => if (i =? k) && (lo <=? j) && (j <? l) then mul (f i j) c else f i j)%bool m)); [lia| | |].
  - apply sets2_refl. eapply holds2_ext; [|apply Hf]. intros i j Hi Hj. bz.
  - intros l m1 Hl S1. eapply wp_bind, wp_mat_get; eauto; try lia. { apply S1. }
    eapply wp_mat_set; eauto; try lia. { apply S1. }
    intros m2 S2. eapply sets2_ext; [|eapply sets2_trans; [apply S1|apply S2]].
    intros i j Hi Hj. unfold upd2. bz.
  - intros m1. apply sets2_ext. intros i j Hi Hj. bz.
Qed.
Lemma wp_inv_elim t N r k lo c m f : mat_is t N N -> 0 <= lo <= N -> 0 <= k < N -> 0 <= r < N -> r <> k ->
  holds2 m (t_data t) N N f ->
  wp (inv_elim t N r k lo c) m (fun _ => sets2 (t_data t) N N
     (fun i j => if (i =? r) && (lo <=? j) then sub (f i j) (mul (f k j) c) else f i j)%bool m).
Proof.
  intros Ht Hlo Hk Hr Hrk Hf. unfold inv_elim.
  eapply (wp_mfor lo N _ (fun l => sets2 (t_data t) N N
     (fun i j => if (i =? r) && (lo <=? j) && (j <? l) then sub (f i j) (mul (f k j) c) else f i j)%bool m)); [lia| | |].
  - apply sets2_refl. eapply holds2_ext; [|apply Hf]. intros i j Hi Hj. bz.
  - intros l m1 Hl S1. eapply wp_bind, wp_mat_get; eauto; try lia. { apply S1. }
    eapply wp_bind, wp_mat_get; eauto; try lia. { apply S1. }
    eapply wp_mat_set; eauto; try lia. { apply S1. }
    intros m2 S2. eapply sets2_ext; [|eapply sets2_trans; [apply S1|apply S2]].
    intros i j Hi Hj. unfold upd2. bz.
  - intros m1. apply sets2_ext. intros i j Hi Hj. bz.
Qed.
Lemma wp_inv_swap t N k p lo m f : mat_is t N N -> 0 <= lo <= N -> 0 <= k < N -> 0 <= p < N -> p <> k ->
  holds2 m (t_data t) N N f ->
  wp (inv_swap t N k p lo) m (fun _ => sets2 (t_data t) N N
     (fun i j => if lo <=? j then if i =? k then f p j else if i =? p then f k j else f i j else f i j) m).
Proof.
  intros Ht Hlo Hk Hp Hpk Hf. unfold inv_swap.
  eapply (wp_mfor lo N _ (fun l => sets2 (t_data t) N N
     (fun i j => if (lo <=? j) && (j <? l) then if i =? k then f p j else if i =? p then f k j else f i j else f i j)%bool m)); [lia| | |].
  - apply sets2_refl. eapply holds2_ext; [|apply Hf]. intros i j Hi Hj. bz.
  - intros l m1 Hl S1. eapply wp_bind, wp_mat_get; eauto; try lia. { apply S1. }
    eapply wp_bind, wp_mat_get; eauto; try lia. { apply S1. }
    eapply wp_bind, wp_mat_set; eauto; try lia. { apply S1. }
    intros m2 S2. eapply wp_mat_set; eauto; try lia. { apply S2. }
    intros m3 S3. eapply sets2_ext; [|eapply sets2_trans; [eapply sets2_trans; [apply S1|apply S2]|apply S3]].
    intros i j Hi Hj. unfold upd2. bz.
  - intros m1. apply sets2_ext. intros i j Hi Hj. bz.
Qed.

Lemma wp_inv_identity t N m : mat_is t N N -> room m (t_data t) (N * N) ->
  wp (inv_identity t N) m (fun _ => sets2 (t_data t) N N (fun i j => if i =? j then one else zero) m).
Proof.
  intros Ht Hr. pose proof Ht as (_ & _ & _ & HN & _). unfold inv_identity. apply wp_rows; auto.
  intros i m1 Hi Ho. destruct (row_bound N N i Hi HN) as [B1 B2].
  assert (R1 : room m1 (padd (t_data t) (i * N)) N).
  { apply (room_rows m1 _ N N); auto. eapply only_room; eauto. }
  apply wp_map_loop; auto. intros j m2 Hj Ho2.
  rewrite (mat_set_eq t N N) by auto. rewrite <- store_padd. apply store_mset.
  eapply step_room; eauto.
Qed.
End Pieces.

(** ** exact arithmetic *)
Section RInv.
Open Scope R_scope.
Variable junk : R -> R.
Local Notation NJ := (Num_Rj junk).
Local Notation S := (zsum (T := R) (H := Num_R)).
Implicit Types (m : mem R).

Lemma div_ok x y : y <> 0 -> @div R NJ x y = x / y.
Proof. intros H. cbn. destruct (Req_EM_T y 0); [contradiction|auto]. Qed.

Lemma Rltb_spec x y : Rltb x y = true <-> x < y.
Proof. unfold Rltb. destruct (Rlt_dec x y); split; auto; discriminate. Qed.

Lemma wp_inv_pivot t N k m (M : Z -> Z -> R) : mat_is t N N -> (0 <= k < N)%Z -> holds2 m (t_data t) N N M ->
  wp (inv_pivot (NT := NJ) t N k) m (fun p m' => m' = m /\ (k <= p < N)%Z /\ forall i, (k <= i < N)%Z -> Rabs (M i k) <= Rabs (M p k)).
Proof.
  intros Ht Hk HM. unfold inv_pivot.
  apply (wp_mfold _ (k + 1)%Z N _ (fun l p m' => m' = m /\ (k <= p < l)%Z /\ forall i, (k <= i < l)%Z -> Rabs (M i k) <= Rabs (M p k))); [lia| | |].
  - split; auto. split; [lia|]. intros i Hi. replace i with k by lia. lra.
  - intros l p m' Hl (-> & Hp & Hmax). eapply wp_bind, wp_mat_get; eauto; try lia.
    eapply wp_bind, wp_mat_get; eauto; try lia. apply wp_ret. split; auto.
    cbn [ltb Num_Rj nabs]. destruct (Rltb (Rabs (M p k)) (Rabs (M l k))) eqn:E.
    + apply Rltb_spec in E. split; [lia|]. intros i Hi. destruct (Z.eq_dec i l) as [->|]; [lra|].
      specialize (Hmax i ltac:(lia)). lra.
    + split; [lia|]. intros i Hi. destruct (Z.eq_dec i l) as [->|]; [|apply Hmax; lia].
      assert (~ Rabs (M p k) < Rabs (M l k)) by (rewrite <- Rltb_spec; congruence). lra.
  - intros p m' (-> & Hp & H). auto.
Qed.

(** ** the linear systems *)
Definition sys (N : Z) (M E : Z -> Z -> R) (x y : Z -> R) : Prop :=
  forall i, (0 <= i < N)%Z -> S N (fun j => M i j * x j) = S N (fun j => E i j * y j).
Definition units (N k : Z) (M : Z -> Z -> R) : Prop :=
  forall i j, (0 <= i < N)%Z -> (0 <= j < k)%Z -> M i j = if (i =? j)%Z then 1 else 0.
Definition idm (i j : Z) : R := if (i =? j)%Z then 1 else 0.

Lemma S_id N i (x : Z -> R) : (0 <= i < N)%Z -> S N (fun j => idm i j * x j) = x i.
Proof.
  intros Hi. rewrite (zsum_single N i) by (first [solve [auto]|intros j Hj Hne; unfold idm; destruct (Z.eqb_spec i j); [lia|lra]]).
  unfold idm. rewrite Z.eqb_refl. lra.
Qed.
Lemma sys_ext N M E M' E' x y :
  (forall i j, (0 <= i < N)%Z -> (0 <= j < N)%Z -> M i j = M' i j) ->
  (forall i j, (0 <= i < N)%Z -> (0 <= j < N)%Z -> E i j = E' i j) ->
  sys N M E x y -> sys N M' E' x y.
Proof.
  intros HM HE H i Hi. specialize (H i Hi).
  rewrite (zsum_ext N (fun j => M' i j * x j) (fun j => M i j * x j)) by (intros; now rewrite HM).
  rewrite (zsum_ext N (fun j => E' i j * y j) (fun j => E i j * y j)) by (intros; now rewrite HE). auto.
Qed.

(** pivot exists *)
Lemma pivot_nonzero N k A M E p :
  (0 <= k < N)%Z -> (k <= p < N)%Z ->
  (forall x, (forall i, (0 <= i < N)%Z -> S N (fun j => A i j * x j) = 0) -> forall i, (0 <= i < N)%Z -> x i = 0) ->
  (forall x y, sys N A idm x y <-> sys N M E x y) ->
  units N k M ->
  (forall i, (k <= i < N)%Z -> Rabs (M i k) <= Rabs (M p k)) ->
  M p k <> 0.
Proof.
  intros Hk Hp Inj Eq U Max E0.
  assert (Z0 : forall i, (k <= i < N)%Z -> M i k = 0).
  { intros i Hi. specialize (Max i Hi). rewrite E0, Rabs_R0 in Max.
    destruct (Req_dec (M i k) 0) as [|Hnz]; auto. pose proof (Rabs_pos_lt _ Hnz). lra. }
  set (x := fun j => if (j =? k)%Z then 1 else if (j <? k)%Z then - M j k else 0).
  assert (X : forall i, (0 <= i < N)%Z -> x i = 0).
  { apply Inj. intros i Hi.
    assert (Sx : sys N M E x (fun _ => 0)).
    { clear i Hi. intros i Hi. rewrite (zsum_all0 N (fun j => E i j * 0)) by (intros; lra).
      rewrite (zsum_ext N _ (fun j => (if (j =? k)%Z then M i j else 0) +
                                      (if (j <? k)%Z then (if (j =? i)%Z then - M j k else 0) else 0))).
      - rewrite zsum_plus, (zsum_delta N k (M i)) by auto.
        destruct (Z_lt_ge_dec i k) as [Hlt|Hge].
        + rewrite (zsum_single N i) by (first [solve [auto]|intros j Hj Hne; destruct (j <? k)%Z; auto; destruct (Z.eqb_spec j i); [lia|auto]]).
          destruct (Z.ltb_spec i k); [|lia]. rewrite Z.eqb_refl. lra.
        + rewrite zsum_all0. { rewrite Z0 by lia. lra. }
          intros j Hj. destruct (Z.ltb_spec j k); auto. destruct (Z.eqb_spec j i); [lia|auto].
      - intros j Hj. unfold x. destruct (Z.eqb_spec j k) as [->|].
        + destruct (Z.ltb_spec k k); [lia|]. lra.
        + destruct (Z.ltb_spec j k); [|lra]. rewrite U by lia. rewrite (Z.eqb_sym j i). destruct (i =? j)%Z; lra. }
    apply Eq in Sx. specialize (Sx i Hi). rewrite Sx. apply zsum_all0. intros; lra. }
  specialize (X k Hk). unfold x in X. rewrite Z.eqb_refl in X. lra.
Qed.

(** one step of the elimination on a pair (matrix, result), full rows *)
Definition swp (k p : Z) (f : Z -> Z -> R) : Z -> Z -> R :=
  fun i j => if (i =? k)%Z then f p j else if (i =? p)%Z then f k j else f i j.
Definition scl (k : Z) (c : R) (f : Z -> Z -> R) : Z -> Z -> R :=
  fun i j => if (i =? k)%Z then f i j * c else f i j.
Definition elm (k : Z) (c : Z -> R) (f : Z -> Z -> R) : Z -> Z -> R :=
  fun i j => if (i =? k)%Z then f i j else f i j - f k j * c i.

Lemma sys_swp N k p M E x y : (0 <= k < N)%Z -> (0 <= p < N)%Z ->
  sys N M E x y <-> sys N (swp k p M) (swp k p E) x y.
Proof.
  intros Hk Hp. split; intros H i Hi.
  - unfold swp. destruct (Z.eqb_spec i k); [apply (H p Hp)|]. destruct (Z.eqb_spec i p); [apply (H k Hk)|]. apply (H i Hi).
  - destruct (Z.eqb_spec i k) as [->|n].
    + specialize (H p Hp). unfold swp in H. rewrite Z.eqb_refl in H. destruct (Z.eqb_spec p k) as [->|]; apply H.
    + destruct (Z.eqb_spec i p) as [->|n'].
      * specialize (H k Hk). unfold swp in H. rewrite Z.eqb_refl in H. apply H.
      * specialize (H i Hi). unfold swp in H. destruct (Z.eqb_spec i k); [lia|]. destruct (Z.eqb_spec i p); [lia|]. apply H.
Qed.
Lemma S_scal N (f x : Z -> R) c : S N (fun j => f j * c * x j) = c * S N (fun j => f j * x j).
Proof. rewrite <- zsum_scal. apply zsum_ext. intros; lra. Qed.
Lemma S_comb N (f g x : Z -> R) c : S N (fun j => (f j - g j * c) * x j) = S N (fun j => f j * x j) - c * S N (fun j => g j * x j).
Proof. rewrite <- zsum_scal, <- zsum_minus. apply zsum_ext. intros; lra. Qed.
Lemma sys_scl N k c M E x y : c <> 0 -> sys N M E x y <-> sys N (scl k c M) (scl k c E) x y.
Proof.
  intros Hc. split; intros H i Hi; specialize (H i Hi); unfold scl in *; destruct (i =? k)%Z; auto;
    rewrite !S_scal in *; [congruence|].
  now apply Rmult_eq_reg_l in H.
Qed.
Lemma sys_elm N k c M E x y : (0 <= k < N)%Z -> sys N M E x y <-> sys N (elm k c M) (elm k c E) x y.
Proof.
  intros Hk. split; intros H i Hi; pose proof (H k Hk) as Hk'; specialize (H i Hi); unfold elm in *;
    destruct (i =? k)%Z; auto; rewrite ?Z.eqb_refl in *; rewrite !S_comb in *; [congruence|].
  rewrite Hk' in H. lra.
Qed.

Lemma units_swp N k p M : (0 <= k)%Z -> (k <= p)%Z -> (k < N)%Z -> (p < N)%Z -> units N k M -> units N k (swp k p M).
Proof.
  intros Hk Hp HkN HpN U i j Hi Hj. unfold swp. destruct (Z.eqb_spec i k), (Z.eqb_spec i p); rewrite U by lia;
  repeat match goal with |- context [(?a =? ?b)%Z] => destruct (Z.eqb_spec a b) end; auto; lia.
Qed.
Lemma units_scl N k c M : units N k M -> units N k (scl k c M).
Proof.
  intros U i j Hi Hj. unfold scl. destruct (Z.eqb_spec i k); rewrite U by lia; auto.
  destruct (Z.eqb_spec i j); [lia|lra].
Qed.
Lemma units_elm N k M : (0 <= k < N)%Z -> M k k = 1 -> units N k M -> units N (k + 1) (elm k (fun i => M i k) M).
Proof.
  intros Hk E1 U i j Hi Hj. unfold elm. destruct (Z.eq_dec j k) as [->|Hjk].
  - destruct (Z.eqb_spec i k) as [->|]; [auto|]. rewrite E1. lra.
  - rewrite !U by lia. destruct (Z.eqb_spec i k); auto. destruct (Z.eqb_spec k j); [lia|]. lra.
Qed.

(** ** one elimination step of the program *)
Definition both (p q : ptr) (n : Z) (b : nat) (i : Z) : Prop := inside p n b i \/ inside q n b i.
Definition St (r t : tensor) (N : Z) (E M : Z -> Z -> R) m m' : Prop :=
  holds2 m' (t_data r) N N E /\ holds2 m' (t_data t) N N M /\ only (both (t_data r) (t_data t) (N * N)) m m'.

Lemma St_ext r t N E M E' M' m m' :
  (forall i j, (0 <= i < N)%Z -> (0 <= j < N)%Z -> E i j = E' i j) ->
  (forall i j, (0 <= i < N)%Z -> (0 <= j < N)%Z -> M i j = M' i j) ->
  St r t N E M m m' -> St r t N E' M' m m'.
Proof. intros A B (C & D & F). repeat split; try (eapply holds2_ext; eauto); apply F. Qed.
Lemma St_left r t N E M E' m m1 m2 : (0 <= N)%Z -> disjoint (t_data r) (N * N) (t_data t) (N * N) ->
  St r t N E M m m1 -> sets2 (t_data r) N N E' m1 m2 -> St r t N E' M m m2.
Proof.
  intros HN D (A & B & C) [F G]. split; [auto|]. split.
  - eapply only_holds2_disj; eauto.
  - eapply only_trans; [apply C|]. eapply only_weaken; [|apply G]. unfold both. auto.
Qed.
Lemma St_right r t N E M M' m m1 m2 : (0 <= N)%Z -> disjoint (t_data r) (N * N) (t_data t) (N * N) ->
  St r t N E M m m1 -> sets2 (t_data t) N N M' m1 m2 -> St r t N E M' m m2.
Proof.
  intros HN D (A & B & C) [F G]. split.
  - eapply only_holds2_disj; eauto. now apply disjoint_sym.
  - split; auto. eapply only_trans; [apply C|]. eapply only_weaken; [|apply G]. unfold both. auto.
Qed.

Ltac bz := cbv beta; repeat (match goal with
  | |- context [Z.eqb ?a ?b] => destruct (Z.eqb_spec a b)
  | |- context [Z.ltb ?a ?b] => destruct (Z.ltb_spec a b)
  | |- context [Z.leb ?a ?b] => destruct (Z.leb_spec a b) end); cbn [andb orb negb]; subst; try lia; auto.

Lemma wp_inv_step r t N k A E M m m1 :
  mat_is r N N -> mat_is t N N -> disjoint (t_data r) (N * N) (t_data t) (N * N) ->
  (0 <= k < N)%Z ->
  (forall x, (forall i, (0 <= i < N)%Z -> S N (fun j => A i j * x j) = 0) -> forall i, (0 <= i < N)%Z -> x i = 0) ->
  (forall x y, sys N A idm x y <-> sys N M E x y) -> units N k M ->
  St r t N E M m m1 ->
  wp (inv_step (NT := NJ) r t N k) m1 (fun _ m2 => exists E' M', St r t N E' M' m m2 /\ (forall x y, sys N A idm x y <-> sys N M' E' x y) /\ units N (k + 1) M').
Proof.
  intros Hr Ht D Hk Inj Eq U S0. assert (HN : (0 <= N)%Z) by lia. unfold inv_step.
  eapply wp_bind'. { eapply wp_inv_pivot; eauto. apply S0. }
  intros p m1' (-> & Hp & Max).
  assert (Piv : M p k <> 0) by (eapply pivot_nonzero; eauto).
  (* after the exchange *)
  apply wp_bind. eapply wp_conseq with (Q := fun _ m2 => St r t N (swp k p E) (swp k p M) m m2).
  { destruct (Z.eqb_spec p k) as [->|Hpk].
    - apply wp_ret. eapply St_ext; [| |apply S0]; intros i j Hi Hj; unfold swp; bz.
    - eapply wp_bind'. { apply (wp_inv_swap t N k p k m1 M); auto; try lia. apply S0. }
      intros [] m2 S2. cbn beta in S2.
      pose proof (St_right _ _ _ _ _ _ _ _ _ HN D S0 S2) as S2'.
      eapply wp_conseq. { apply (wp_inv_swap r N k p 0 m2 E); auto; try lia. apply S2'. }
      intros [] m3 S3. cbn beta in S3. pose proof (St_left _ _ _ _ _ _ _ _ _ HN D S2' S3) as S3'.
      eapply St_ext; [| |apply S3']; intros i j Hi Hj; unfold swp.
      + bz.
      + destruct (Z.leb_spec k j); auto. rewrite !(U _ j) by lia. bz. }
  intros [] m2 S2.
  pose proof (fun x y => sys_swp N k p M E x y ltac:(lia) ltac:(lia)) as Eq2.
  pose proof (units_swp N k p M ltac:(lia) ltac:(lia) ltac:(lia) ltac:(lia) U) as U2.
  assert (Piv2 : swp k p M k k <> 0) by (unfold swp; now rewrite Z.eqb_refl).
  revert S2 Eq2 U2 Piv2. generalize (swp k p M) (swp k p E). intros M2 E2 S2 Eq2 U2 Piv2.
  eapply wp_bind, wp_mat_get; eauto; try lia. { apply S2. }
  cbv zeta. rewrite div_ok by auto. change (@one R NJ) with 1. set (c := 1 / M2 k k).
  assert (Hc : c <> 0).
  { unfold c, Rdiv. rewrite Rmult_1_l. now apply Rinv_neq_0_compat. }
  eapply wp_bind'. { apply (wp_inv_scale (NT := NJ) t N k k c m2 M2); auto; try lia. apply S2. }
  intros [] m3 S3. cbn beta in S3. apply (St_right _ _ _ _ _ _ _ _ _ HN D S2) in S3.
  eapply wp_bind'. { apply (wp_inv_scale (NT := NJ) r N k 0 c m3 E2); auto; try lia. apply S3. }
  intros [] m4 S4. cbn beta in S4. apply (St_left _ _ _ _ _ _ _ _ _ HN D S3) in S4.
  assert (S4' : St r t N (scl k c E2) (scl k c M2) m m4).
  { eapply St_ext; [| |apply S4]; intros i j Hi Hj; unfold scl; cbn [mul Num_Rj].
    - bz.
    - destruct (Z.eqb_spec i k); cbn [andb]; auto. destruct (Z.leb_spec k j); auto.
      rewrite U2 by lia. destruct (Z.eqb_spec i j); [lia|lra]. }
  clear S4. pose proof (fun x y => sys_scl N k c M2 E2 x y Hc) as Eq4.
  pose proof (units_scl N k c M2 U2) as U4.
  assert (One : scl k c M2 k k = 1). { unfold scl. rewrite Z.eqb_refl. unfold c. field. auto. }
  revert S4' Eq4 U4 One. generalize (scl k c M2) (scl k c E2). intros M4 E4 S4 Eq4 U4 One.
  set (cc := fun i => M4 i k).
  eapply (wp_mfor 0 N _ (fun l m' => St r t N
     (fun i j => if (i <? l)%Z then elm k cc E4 i j else E4 i j)
     (fun i j => if (i <? l)%Z then elm k cc M4 i j else M4 i j) m m')); [lia| | |].
  - eapply St_ext; [| |apply S4]; intros i j Hi Hj; bz.
  - intros i m5 Hi S5. destruct (Z.eqb_spec i k) as [->|Hik].
    + apply wp_ret. eapply St_ext; [| |apply S5]; intros i j Hi' Hj; unfold elm; bz.
    + eapply wp_bind, wp_mat_get; eauto; try lia. { apply S5. } cbv beta.
      destruct (Z.ltb_spec i i); [lia|].
      eapply wp_bind'. { eapply (wp_inv_elim (NT := NJ) t N i k k (M4 i k) m5); auto; try lia. apply S5. }
      intros [] m6 S6. cbn beta in S6. apply (St_right _ _ _ _ _ _ _ _ _ HN D S5) in S6.
      eapply wp_conseq. { eapply (wp_inv_elim (NT := NJ) r N i k 0 (M4 i k) m6); auto; try lia. apply S6. }
      intros [] m7 S7. cbn beta in S7. apply (St_left _ _ _ _ _ _ _ _ _ HN D S6) in S7.
      eapply St_ext; [| |apply S7]; intros i' j Hi' Hj; unfold elm, cc; cbn [sub mul Num_Rj].
      * destruct (Z.eqb_spec i' i) as [->|]; cbn [andb]; [|bz].
        bz.
      * destruct (Z.eqb_spec i' i) as [->|]; cbn [andb].
        -- destruct (Z.leb_spec k j); [bz|].
           rewrite (U4 k j) by lia. destruct (Z.eqb_spec k j); [lia|].
           destruct (Z.eqb_spec i k); [lia|]. bz; lra.
        -- bz.
  - intros m5 S5. exists (elm k cc E4), (elm k cc M4). split; [|split].
    + eapply St_ext; [| |apply S5]; intros i j Hi Hj; bz.
    + intros x y. rewrite Eq, Eq2, Eq4. apply sys_elm. auto.
    + apply units_elm; auto.
Qed.

Lemma wp_inverse r t N A m :
  mat_is r N N -> mat_is t N N -> disjoint (t_data r) (N * N) (t_data t) (N * N) ->
  room m (t_data r) (N * N) -> holds2 m (t_data t) N N A ->
  (forall x, (forall i, (0 <= i < N)%Z -> S N (fun j => A i j * x j) = 0) -> forall i, (0 <= i < N)%Z -> x i = 0) ->
  wp (lin_inverse (NT := NJ) r t) m (fun _ m2 => exists E, St r t N E idm m m2 /\ (forall i j, (0 <= i < N)%Z -> (0 <= j < N)%Z -> S N (fun l => E i l * A l j) = idm i j) /\
     (forall i j, (0 <= i < N)%Z -> (0 <= j < N)%Z -> S N (fun l => A i l * E l j) = idm i j)).
Proof.
  intros Hr Ht D Rr HA Inj. pose proof Ht as (EN & _ & _ & HN & _). unfold lin_inverse. rewrite EN.
  eapply wp_bind'. { apply wp_inv_identity; auto. }
  intros [] m1 [S1 O1]. cbn beta in *.
  assert (S1' : St r t N idm A m m1).
  { split; auto. split; [eapply only_holds2_disj; eauto|]. eapply only_weaken; [|apply O1]. unfold both; auto. }
  eapply (wp_mfor 0 N _ (fun k m' => exists E M, St r t N E M m m' /\ (forall x y, sys N A idm x y <-> sys N M E x y) /\ units N k M)); auto.
  - exists idm, A. split; [auto|]. split; [tauto|]. intros i j Hi Hj. lia.
  - intros k m' Hk (E & M & S2 & Eq & U). eapply wp_inv_step; eauto.
  - intros m' (E & M & S2 & Eq & U). exists E.
    assert (S3 : St r t N E idm m m').
    { eapply St_ext; [| |apply S2]; auto. }
    assert (Eq' : forall x y, sys N A idm x y <-> forall i, (0 <= i < N)%Z -> x i = S N (fun j => E i j * y j)).
    { intros x y. rewrite Eq. split; intros H i Hi; specialize (H i Hi).
      - rewrite <- H. symmetry. etransitivity; [|apply (S_id N i x Hi)]. apply zsum_ext. intros l Hl.
        rewrite U by auto. auto.
      - rewrite <- H. etransitivity; [|apply (S_id N i x Hi)]. apply zsum_ext. intros l Hl.
        rewrite U by auto. auto. }
    split; [auto|]. split.
    + intros i j Hi Hj.
      assert (X : sys N A idm (fun l => idm l j) (fun l => A l j)).
      { intros l Hl. rewrite S_id by auto. rewrite (zsum_single N j) by (first [solve [auto]|intros q Hq Hne; unfold idm; destruct (Z.eqb_spec q j); [lia|lra]]).
        unfold idm. rewrite Z.eqb_refl. lra. }
      rewrite Eq' in X. symmetry. apply (X i Hi).
    + intros i j Hi Hj.
      assert (X : sys N A idm (fun l => E l j) (fun l => idm l j)).
      { rewrite Eq'. intros l Hl. rewrite (zsum_single N j) by (first [solve [auto]|intros q Hq Hne; unfold idm; destruct (Z.eqb_spec q j); [lia|lra]]).
        unfold idm. rewrite Z.eqb_refl. lra. }
      specialize (X i Hi). rewrite S_id in X by auto. auto.
Qed.
End RInv.

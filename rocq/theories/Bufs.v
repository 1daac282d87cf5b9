(** * Straight-line code on pairwise disjoint buffers of equal length (proof infrastructure) *)
From Verif Require Import Mem Scalar MemSpec MemLemmas Lique LiqueProofs LinearProofs.
Open Scope Z_scope.

Section Bufs.
Context {T : Type} `{NT : Num T}.
Context (B : nat -> ptr) (n : Z) (K : nat).
Context (HB : forall i j, (i < K)%nat -> (j < K)%nat -> i <> j -> disjoint (B i) n (B j) n).

Definition env : Type := nat -> option (Z -> T).
Definition eset (e : env) (i : nat) (f : Z -> T) : env := fun j => if Nat.eqb j i then Some f else e j.
(** buffers [W] may have been modified since [m0]; the contents are [e] *)
Definition st (W : nat -> Prop) (m0 : mem T) (e : env) (m : mem T) : Prop :=
  (forall i, (i < K)%nat -> room m (B i) n) /\
  (forall i f, (i < K)%nat -> e i = Some f -> holds m (B i) n f) /\
  only (fun b o => exists i, W i /\ (i < K)%nat /\ inside (B i) n b o) m0 m.

Implicit Types (W : nat -> Prop) (m : mem T) (e : env).
Lemma st_init W (e : env) m : (forall i, (i < K)%nat -> room m (B i) n) ->
  (forall i f, (i < K)%nat -> e i = Some f -> holds m (B i) n f) -> st W m e m.
Proof. intros. split; auto. split; auto. apply only_refl. Qed.

Lemma st_sets W m0 e m i f m' : W i -> (i < K)%nat -> st W m0 e m -> sets (B i) n f m m' -> st W m0 (eset e i f) m'.
Proof.
  intros Hw Hi (Hr & Hh & Ho) [Hs Ho']. split; [|split].
  - intros j Hj. eapply only_room; eauto.
  - intros j g Hj. unfold eset. destruct (Nat.eqb_spec j i) as [->|Hne].
    + intros [= ->]. exact Hs.
    + intros E. eapply only_holds_disj; [exact Ho'| |eauto]. apply HB; auto.
  - eapply only_trans; [exact Ho|]. eapply only_weaken; [|exact Ho']. intros b o H. eauto.
Qed.
Lemma op_ok i j : (i < K)%nat -> (j < K)%nat -> operand_ok (B i) n (B j).
Proof. intros Hi Hj. destruct (Nat.eq_dec i j) as [->|]; [now left|right; auto]. Qed.

Lemma s_assign_val W m0 e m i op x f : W i -> (i < K)%nat -> e i = Some f -> st W m0 e m ->
  wp (assign_val (B i) n op x) m (fun _ => st W m0 (eset e i (fun k => op_val op (f k) x))).
Proof.
  intros Hw Hi E S. eapply wp_conseq; [apply wp_assign_val; apply S; eauto|]. intros [] m' H. eapply st_sets; eauto.
Qed.
Lemma s_fill W m0 e m i x : W i -> (i < K)%nat -> st W m0 e m ->
  wp (assign_val (B i) n OpCpy x) m (fun _ => st W m0 (eset e i (fun _ => x))).
Proof.
  intros Hw Hi S. eapply wp_conseq; [apply wp_assign_val_cpy; apply S; eauto|]. intros [] m' H. eapply st_sets; eauto.
Qed.
Lemma s_assign_src W m0 e m i op j f g : W i -> (i < K)%nat -> (j < K)%nat -> e i = Some f -> e j = Some g -> st W m0 e m ->
  wp (assign_src (B i) n op (B j)) m (fun _ => st W m0 (eset e i (fun k => op_val op (f k) (g k)))).
Proof.
  intros Hw Hi Hj E1 E2 S. eapply wp_conseq; [apply wp_assign_src; [apply S; eauto|apply S; eauto|now apply op_ok]|].
  intros [] m' H. eapply st_sets; eauto.
Qed.
Lemma s_assign_src_cpy W m0 e m i j g : W i -> (i < K)%nat -> (j < K)%nat -> e j = Some g -> st W m0 e m ->
  wp (assign_src (B i) n OpCpy (B j)) m (fun _ => st W m0 (eset e i g)).
Proof.
  intros Hw Hi Hj E2 S. eapply wp_conseq; [apply wp_assign_src_cpy; [apply S; eauto|apply S; eauto|now apply op_ok]|].
  intros [] m' H. eapply st_sets; eauto.
Qed.
Lemma s_assign_val_src W m0 e m i op x j g : W i -> (i < K)%nat -> (j < K)%nat -> e j = Some g -> st W m0 e m ->
  wp (assign_val_src (B i) n op x (B j)) m (fun _ => st W m0 (eset e i (fun k => op_val op x (g k)))).
Proof.
  intros Hw Hi Hj E2 S. eapply wp_conseq; [apply wp_assign_val_src; [apply S; eauto|apply S; eauto|now apply op_ok]|].
  intros [] m' H. eapply st_sets; eauto.
Qed.
Lemma s_assign2 W m0 e m i op j k f g : W i -> (i < K)%nat -> (j < K)%nat -> (k < K)%nat -> e j = Some f -> e k = Some g -> st W m0 e m ->
  wp (assign_lhs_rhs (B i) n op (B j) (B k)) m (fun _ => st W m0 (eset e i (fun q => op_val op (f q) (g q)))).
Proof.
  intros Hw Hi Hj Hk E1 E2 S. eapply wp_conseq; [apply wp_assign_lhs_rhs; [apply S; auto|apply S; eauto|apply S; eauto|now apply op_ok|now apply op_ok]|].
  intros [] m' H. eapply st_sets; eauto.
Qed.
Lemma s_apply W m0 e m i F f : W i -> (i < K)%nat -> e i = Some f -> st W m0 e m ->
  wp (detail_apply (B i) n F) m (fun _ => st W m0 (eset e i (fun k => F (f k)))).
Proof.
  intros Hw Hi E S. eapply wp_conseq; [apply wp_detail_apply; apply S; eauto|]. intros [] m' H. eapply st_sets; eauto.
Qed.
Lemma s_apply_src W m0 e m i F j g : W i -> (i < K)%nat -> (j < K)%nat -> e j = Some g -> st W m0 e m ->
  wp (detail_apply_src (B i) n F (B j)) m (fun _ => st W m0 (eset e i (fun k => F (g k)))).
Proof.
  intros Hw Hi Hj E S. eapply wp_conseq; [apply wp_detail_apply_src; [apply S; auto|apply S; eauto|now apply op_ok]|].
  intros [] m' H. eapply st_sets; eauto.
Qed.
End Bufs.

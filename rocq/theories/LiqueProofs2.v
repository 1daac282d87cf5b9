(** * Proofs about the special member functions of Lique.v *)
From Verif Require Import Mem Scalar MemSpec MemLemmas Lique LiqueProofs.

Section P.
Context {T : Type} `{NT : Num T}.
Implicit Types (m : mem T).

(** addresses *)
Lemma u64_small z : 0 <= z < 2 ^ 64 -> u64 z = z.
Proof. intros. unfold u64, two64. now apply Z.mod_small. Qed.

Lemma ten_at_flat d h w i j k s : 0 <= d -> 0 <= h -> 0 <= w -> d * h * w < 2 ^ 64 ->
  s_height s = h -> s_width s = w ->
  0 <= i < d -> 0 <= j < h -> 0 <= k < w ->
  ten_at s i j k = (i * h + j) * w + k /\ 0 <= (i * h + j) * w + k < d * h * w.
Proof.
  intros Hd Hh Hw Hs Eh Ew Hi Hj Hk. unfold ten_at. rewrite Eh, Ew.
  assert (B : 0 <= i * h + j <= d * h - 1) by nia.
  assert (B2 : 0 <= (i * h + j) * w <= (d * h - 1) * w) by nia.
  rewrite u64_small by lia. split; auto. lia.
Qed.

Lemma flat_unique w q k q' k' : 0 <= k < w -> 0 <= k' < w -> q * w + k = q' * w + k' -> q = q' /\ k = k'.
Proof.
  intros Hk Hk' E. assert (q = q') by nia. subst. lia.
Qed.

Lemma mat_at_flat h w i j s : 0 <= h -> 0 <= w -> h * w < 2 ^ 64 -> s_width s = w ->
  0 <= i < h -> 0 <= j < w -> mat_at s i j = i * w + j /\ 0 <= i * w + j < h * w.
Proof.
  intros Hh Hw Hs Ew Hi Hj. unfold mat_at. rewrite Ew. assert (0 <= i * w <= (h - 1) * w) by nia.
  rewrite u64_small by lia. split; auto. lia.
Qed.

(** free; alloc; copy k elements of src into the new block of n elements *)
Definition realloc_copy (old : ptr) (n k : Z) (src : ptr) : M T ptr :=
  free old ;;; let* p := alloc n in detail_copy p k src ;;; ret p.

Lemma bind_assoc A B C (c : M T A) (f : A -> M T B) (g : B -> M T C) m :
  bind (bind c f) g m = bind c (fun a => bind (f a) g) m.
Proof. unfold bind. destruct (c m) as [[a m']|]; auto. Qed.

Definition apart (p q : ptr) : Prop := forall b, owns_block p b -> owns_block q b -> False.

Lemma apart_inside p q n : apart p q -> forall b i, inside q n b i -> ~ owns_block p b.
Proof. intros H b i Hi Ho. apply (H b); auto. destruct q; simpl in *; auto. tauto. Qed.

Lemma wp_realloc_copy old n k src m v :
  0 <= k <= n -> owned m old -> holds m src k v -> apart old src ->
  wp (realloc_copy old n k src) m (fun p m' =>
    p = Ptr (length m) 0 /\ live m' (length m) n /\ holds m' p k v /\
    (forall i, k <= i < n -> elem m' p i = Some None) /\
    (forall b o, old = Ptr b o -> freed m' b) /\
    holds m' src k v /\ keeps (owns_block old) m m' /\ length m' = S (length m)).
Proof.
  intros Hk Ho Hh Ha. unfold realloc_copy.
  apply wp_bind. eapply wp_intro; [apply free_owned; auto|].
  set (m1 := released m old).
  assert (Hh1 : holds m1 src k v).
  { apply holds_released; auto. apply apart_inside; auto. }
  assert (Hl1 : length m1 = length m) by apply released_length.
  apply wp_bind, wp_alloc. rewrite Hl1.
  set (m2 := m1 ++ _).
  apply wp_bind. eapply wp_conseq.
  { eapply (wp_detail_copy _ k src m2 v).
    - intros i Hi. subst m2. rewrite <- Hl1. apply room_alloc. lia.
    - apply holds_app; eauto.
    - rewrite <- Hl1. eapply operand_fresh; eauto. }
  intros [] m' [Hm1 Hm2]. apply wp_ret.
  assert (Hkeep : keeps (owns_block old) m m').
  { split.
    - destruct Hm2 as [Hs _]. apply skel_length in Hs. rewrite Hs. subst m2. rewrite app_length. lia.
    - intros b Hb Hnb. rewrite (only_block _ m2 m' b Hm2).
      + subst m2. rewrite nth_error_app1 by lia. apply keeps_released; auto.
      + simpl. lia. }
  repeat split; auto.
  - eapply live_skel; [apply Hm2|]. subst m2. rewrite <- Hl1. apply live_alloc. lia.
  - intros i Hi. simpl. destruct Hm2 as [_ Hc]. rewrite Hc.
    + subst m2. rewrite <- Hl1. apply cell_alloc. lia.
    + simpl. lia.
  - intros b o ->. unfold freed. destruct Ho as [-> [l Hl]].
    assert (b < length m)%nat by (apply nth_error_Some; congruence).
    rewrite (only_block _ m2 m' b Hm2) by (simpl; lia). subst m2.
    rewrite nth_error_app1 by lia. subst m1. apply (freed_released m b 0). eauto.
  - eapply only_holds; [apply Hm2| |].
    + intros b i Hi [-> Hi']. destruct src as [|b' o']; simpl in *; auto. destruct Hi as [<- Hi].
      apply holds_lt in Hh1; lia.
    + apply holds_app. auto.
  - apply Hkeep.
  - apply Hkeep.
  - destruct Hm2 as [Hs _]. apply skel_length in Hs. rewrite Hs. subst m2. rewrite app_length. simpl. lia.
Qed.

(** copying more elements than the source block (and the new block) has *)
Lemma realloc_copy_oob old n k b m v :
  0 <= n < k -> owned m old -> holds m (Ptr b 0) n v -> live m b n -> apart old (Ptr b 0) ->
  realloc_copy old n k (Ptr b 0) m = UB OutOfBounds.
Proof.
  intros Hk Ho Hh Hlive Ha. unfold realloc_copy.
  rewrite (bind_eq _ _ _ _ _ _ _ (free_owned _ _ Ho)).
  set (m1 := released m old).
  assert (Hh1 : holds m1 (Ptr b 0) n v) by (apply holds_released; auto; apply apart_inside; auto).
  assert (Hb : nth_error m1 b = nth_error m b).
  { apply keeps_released.
    - destruct Hlive as (l & Hl & _). apply nth_error_Some. congruence.
    - intros X. apply (Ha b); simpl; auto. }
  unfold alloc, bind at 1. set (m2 := m1 ++ _).
  assert (Hlb : (b < length m1)%nat).
  { destruct Hlive as (l & Hl & _). apply nth_error_Some. congruence. }
  unfold bind. unfold detail_copy at 1.
  erewrite (mfor_ub k n _ (fun i m' => only (inside (Ptr (length m1) 0) i) m2 m') m2); [reflexivity|lia|apply only_refl| |].
  - intros i m' Hi Hoi.
    eapply wp_bind, wp_load.
    + erewrite only_elem; [subst m2; apply elem_app; apply Hh1; lia|apply Hoi|]. simpl. intros b' j [-> _] [? _]. subst. lia.
    + apply wp_store.
      * eapply elem_exists_skel; [symmetry; apply Hoi|]. apply room_alloc. lia.
      * eapply only_trans; [eapply only_weaken; [|apply Hoi]|apply only_mset_in; lia]. simpl. lia.
  - intros m' Hoi. unfold bind, load.
    rewrite (only_block _ m2 m' b Hoi) by (simpl; lia).
    subst m2. rewrite nth_error_app1, Hb by auto. destruct Hlive as (l & Hl & Hn). rewrite Hl.
    destruct (znth l (0 + n)) as [c|] eqn:E; auto. apply znth_bound in E. lia.
Qed.

Lemma vec_copy_assign_eq t src m :
  vec_copy_assign false t src m =
  bind (realloc_copy (t_data t) (t_size src) (t_size src) (t_data src))
       (fun p => ret (mk_tensor p (vec_take_shape (t_shape t) (t_shape src)))) m.
Proof.
  unfold vec_copy_assign, realloc_copy. unfold bind, ret.
  destruct (free (t_data t) m) as [[[] m1]|]; auto.
  destruct (alloc (t_size src) m1) as [[p m2]|]; auto.
  unfold tb_copy_ptr. simpl. unfold t_size. simpl.
  destruct (detail_copy p _ (t_data src) m2) as [[[] m3]|]; auto.
Qed.
Lemma mat_copy_assign_eq t src m :
  mat_copy_assign false t src m =
  bind (realloc_copy (t_data t) (t_size src) (t_size t) (t_data src))
       (fun p => ret (mk_tensor p (mat_take_shape (t_shape t) (t_shape src)))) m.
Proof.
  unfold mat_copy_assign, realloc_copy. unfold bind, ret.
  destruct (free (t_data t) m) as [[[] m1]|]; auto.
  destruct (alloc (t_size src) m1) as [[p m2]|]; auto.
  unfold tb_copy_ptr. simpl. unfold t_size. simpl.
  destruct (detail_copy p _ (t_data src) m2) as [[[] m3]|]; auto.
Qed.
Lemma ten_copy_assign_eq t src m :
  ten_copy_assign false t src m =
  bind (realloc_copy (t_data t) (t_size src) (t_size t) (t_data src))
       (fun p => ret (mk_tensor p (t_shape src))) m.
Proof.
  unfold ten_copy_assign, realloc_copy. unfold bind, ret.
  destruct (free (t_data t) m) as [[[] m1]|]; auto.
  destruct (alloc (t_size src) m1) as [[p m2]|]; auto.
  unfold tb_copy_ptr. simpl. unfold t_size. simpl.
  destruct (detail_copy p _ (t_data src) m2) as [[[] m3]|]; auto.
Qed.

(** resize: free; alloc *)
Lemma wp_realloc old n m (s : shape) : 0 <= n -> owned m old ->
  wp (free old ;;; let* p := alloc n in ret (mk_tensor p s)) m (fun t m' =>
    t = mk_tensor (Ptr (length m) 0) s /\ live m' (length m) n /\
    (forall b o, old = Ptr b o -> freed m' b) /\ keeps (owns_block old) m m' /\ length m' = S (length m)).
Proof.
  intros Hn Ho. apply wp_bind. eapply wp_intro; [apply free_owned; auto|].
  apply wp_bind, wp_alloc, wp_ret. rewrite released_length.
  repeat split; auto.
  - rewrite <- (released_length m old). apply live_alloc. auto.
  - intros b o ->. unfold freed. destruct Ho as [-> [l Hl]].
    assert (b < length m)%nat by (apply nth_error_Some; congruence).
    rewrite nth_error_app1 by (rewrite released_length; auto). apply (freed_released m b 0). eauto.
  - rewrite app_length, released_length. lia.
  - intros b Hb Hnb. rewrite nth_error_app1 by (rewrite released_length; auto). apply keeps_released; auto.
  - rewrite app_length, released_length. simpl. lia.
Qed.
End P.

(** * Properties C01-C07, C09-C13: tensors *)
From Verif Require Import Mem Scalar MemSpec MemLemmas Lique LiqueProofs LiqueProofs2.

Section Props.
Context {T : Type} `{NT : Num T}.
Implicit Types (m : mem T) (t src : tensor).

(** ** C01 *)
Theorem C01_tensor_addressing (d h w : Z) :
  0 <= d -> 0 <= h -> 0 <= w -> d * h * w < 2 ^ 64 ->
  let s := shape3 d h w in
  s_size s = d * h * w /\
  (* row-major and in bounds *)
  (forall i j k, 0 <= i < d -> 0 <= j < h -> 0 <= k < w ->
     ten_at s i j k = (i * h + j) * w + k /\ 0 <= ten_at s i j k < s_size s) /\
  (* different triples, different elements *)
  (forall i j k i' j' k', 0 <= i < d -> 0 <= j < h -> 0 <= k < w ->
     0 <= i' < d -> 0 <= j' < h -> 0 <= k' < w ->
     ten_at s i j k = ten_at s i' j' k' -> i = i' /\ j = j' /\ k = k') /\
  (* every element is reached *)
  (forall o, 0 <= o < s_size s -> exists i j k,
     0 <= i < d /\ 0 <= j < h /\ 0 <= k < w /\ ten_at s i j k = o) /\
  (* the same element as the flat access, in every memory *)
  (forall t m i j k, t_shape t = s -> 0 <= i < d -> 0 <= j < h -> 0 <= k < w ->
     ten_get (T := T) t i j k m = tb_get t ((i * h + j) * w + k) m).
Proof.
  intros Hd Hh Hw Hs s.
  assert (Es : s_size s = d * h * w) by (apply u64_small; nia).
  assert (A : forall i j k, 0 <= i < d -> 0 <= j < h -> 0 <= k < w ->
     ten_at s i j k = (i * h + j) * w + k /\ 0 <= ten_at s i j k < s_size s).
  { intros i j k Hi Hj Hk. destruct (ten_at_flat d h w i j k s) as [E B]; auto. rewrite E, Es. auto. }
  split; [auto|]. split; [auto|]. split; [|split].
  - intros i j k i' j' k' Hi Hj Hk Hi' Hj' Hk'.
    destruct (A i j k) as [-> _]; auto. destruct (A i' j' k') as [-> _]; auto. intros E.
    destruct (flat_unique w (i * h + j) k (i' * h + j') k') as [E1 E2]; auto.
    destruct (flat_unique h i j i' j') as [E3 E4]; auto.
  - intros o Ho. rewrite Es in Ho.
    assert (0 < w) by nia. assert (0 < h) by nia.
    exists (o / w / h), ((o / w) mod h), (o mod w).
    assert (Hq : 0 <= o / w < d * h).
    { split; [apply Z.div_pos; lia|apply Z.div_lt_upper_bound; nia]. }
    assert (H1 : 0 <= o / w / h < d).
    { split; [apply Z.div_pos; lia|apply Z.div_lt_upper_bound; nia]. }
    assert (H2 : 0 <= (o / w) mod h < h) by (apply Z.mod_pos_bound; lia).
    assert (H3 : 0 <= o mod w < w) by (apply Z.mod_pos_bound; lia).
    split; [auto|]. split; [auto|]. split; [auto|].
    destruct (A (o / w / h) ((o / w) mod h) (o mod w)) as [-> _]; auto.
    pose proof (Z.div_mod (o / w) h). pose proof (Z.div_mod o w). nia.
  - intros t m i j k Et Hi Hj Hk. unfold ten_get, tb_get. rewrite Et.
    destruct (A i j k) as [-> _]; auto.
Qed.

Theorem C01_matrix_addressing (h w : Z) :
  0 <= h -> 0 <= w -> h * w < 2 ^ 64 ->
  let s := shape2 h w in
  s_size s = h * w /\
  (forall i j, 0 <= i < h -> 0 <= j < w ->
     mat_at s i j = i * w + j /\ 0 <= mat_at s i j < s_size s) /\
  (forall i j i' j', 0 <= i < h -> 0 <= j < w -> 0 <= i' < h -> 0 <= j' < w ->
     mat_at s i j = mat_at s i' j' -> i = i' /\ j = j') /\
  (forall o, 0 <= o < s_size s -> exists i j, 0 <= i < h /\ 0 <= j < w /\ mat_at s i j = o) /\
  (forall t m i j, t_shape t = s -> 0 <= i < h -> 0 <= j < w ->
     mat_get (T := T) t i j m = tb_get t (i * w + j) m).
Proof.
  intros Hh Hw Hs s.
  assert (Es : s_size s = h * w) by (apply u64_small; nia).
  assert (A : forall i j, 0 <= i < h -> 0 <= j < w ->
     mat_at s i j = i * w + j /\ 0 <= mat_at s i j < s_size s).
  { intros i j Hi Hj. destruct (mat_at_flat h w i j s) as [E B]; auto. rewrite E, Es. auto. }
  split; [auto|]. split; [auto|]. split; [|split].
  - intros i j i' j' Hi Hj Hi' Hj'. destruct (A i j) as [-> _]; auto. destruct (A i' j') as [-> _]; auto.
    intros E. apply (flat_unique w); auto.
  - intros o Ho. rewrite Es in Ho. assert (0 < w) by nia.
    exists (o / w), (o mod w).
    assert (H1 : 0 <= o / w < h).
    { split; [apply Z.div_pos; lia|apply Z.div_lt_upper_bound; nia]. }
    assert (H3 : 0 <= o mod w < w) by (apply Z.mod_pos_bound; lia).
    split; [auto|]. split; [auto|]. destruct (A (o / w) (o mod w)) as [-> _]; auto.
    pose proof (Z.div_mod o w). nia.
  - intros t m i j Et Hi Hj. unfold mat_get, tb_get. rewrite Et. destruct (A i j) as [-> _]; auto.
Qed.

(** Outside the hypothesis: when the element count does not fit size_t the reported size
    wraps and an in-range triple denotes an element outside the storage. *)
Theorem C01_overflowing_shape_out_of_storage :
  let s := shape3 (2 ^ 32) (2 ^ 32) 1 in
  s_size s = 0 /\ ten_at s 1 0 0 = 2 ^ 32.
Proof. vm_compute. auto. Qed.

(** ** C02 *)
Theorem C02_single_write t m (d h w i j k : Z) (x : T) :
  t_shape t = shape3 d h w -> 0 <= d -> 0 <= h -> 0 <= w -> d * h * w < 2 ^ 64 ->
  room m (t_data t) (t_size t) ->
  0 <= i < d -> 0 <= j < h -> 0 <= k < w ->
  exists m', ten_set t i j k x m = Ok (tt, m') /\
    ten_get t i j k m' = Ok (x, m') /\
    only (inside (padd (t_data t) ((i * h + j) * w + k)) 1) m m' /\
    (forall i' j' k', 0 <= i' < d -> 0 <= j' < h -> 0 <= k' < w ->
       (i', j', k') <> (i, j, k) ->
       elem m' (t_data t) (ten_at (t_shape t) i' j' k') = elem m (t_data t) (ten_at (t_shape t) i' j' k')).
Proof.
  intros Es Hd Hh Hw Hs Hr Hi Hj Hk.
  destruct (C01_tensor_addressing d h w Hd Hh Hw Hs) as (Ez & A & Inj & _).
  unfold t_size in Hr. rewrite Es in Hr.
  destruct (A i j k Hi Hj Hk) as [E B].
  set (o := ten_at (t_shape t) i j k).
  assert (Eo : o = (i * h + j) * w + k) by (subst o; rewrite Es; auto).
  assert (Hex : elem m (t_data t) o <> None).
  { apply Hr. rewrite Eo, <- E. auto. }
  exists (mset m (t_data t) o x). split; [|split; [|split]].
  - unfold ten_set. fold o. now apply store_mset.
  - unfold ten_get. fold o. apply load_ok. now apply elem_mset_same.
  - rewrite <- Eo. apply only_mset.
  - intros i' j' k' Hi' Hj' Hk' Hne. apply elem_mset_other.
    + right. subst o. rewrite Es. intros X. apply Hne. destruct (Inj i j k i' j' k') as (-> & -> & ->); auto.
    + intros b1 o1 b2 o2 -> [= -> ->] _ X.
      apply Hne. subst o. rewrite Es in X. destruct (Inj i j k i' j' k') as (-> & -> & ->); auto. lia.
Qed.

Theorem C02_single_write_matrix t m (h w i j : Z) (x : T) :
  t_shape t = shape2 h w -> 0 <= h -> 0 <= w -> h * w < 2 ^ 64 ->
  room m (t_data t) (t_size t) ->
  0 <= i < h -> 0 <= j < w ->
  exists m', mat_set t i j x m = Ok (tt, m') /\
    mat_get t i j m' = Ok (x, m') /\
    only (inside (padd (t_data t) (i * w + j)) 1) m m' /\
    (forall i' j', 0 <= i' < h -> 0 <= j' < w -> (i', j') <> (i, j) ->
       elem m' (t_data t) (mat_at (t_shape t) i' j') = elem m (t_data t) (mat_at (t_shape t) i' j')).
Proof.
  intros Es Hh Hw Hs Hr Hi Hj.
  destruct (C01_matrix_addressing h w Hh Hw Hs) as (Ez & A & Inj & _).
  unfold t_size in Hr. rewrite Es in Hr.
  destruct (A i j Hi Hj) as [E B].
  set (o := mat_at (t_shape t) i j).
  assert (Eo : o = i * w + j) by (subst o; rewrite Es; auto).
  assert (Hex : elem m (t_data t) o <> None).
  { apply Hr. rewrite Eo, <- E. auto. }
  exists (mset m (t_data t) o x). split; [|split; [|split]].
  - unfold mat_set. fold o. now apply store_mset.
  - unfold mat_get. fold o. apply load_ok. now apply elem_mset_same.
  - rewrite <- Eo. apply only_mset.
  - intros i' j' Hi' Hj' Hne. apply elem_mset_other.
    + right. subst o. rewrite Es. intros X. apply Hne. destruct (Inj i j i' j') as (-> & ->); auto.
    + intros b1 o1 b2 o2 -> [= -> ->] _ X.
      apply Hne. subst o. rewrite Es in X. destruct (Inj i j i' j') as (-> & ->); auto. lia.
Qed.

(** ** C03 *)
(** "independent": a later write inside one of the two ranges does not affect the other *)
Definition independent (p q : ptr) (n : Z) m : Prop :=
  forall m' v, (only (inside p n) m m' -> holds m q n v -> holds m' q n v) /\
               (only (inside q n) m m' -> holds m p n v -> holds m' p n v).

Lemma independent_disjoint p q n m : disjoint p n q n -> independent p q n m.
Proof.
  intros H m' v. split; intros Ho; apply (only_holds _ _ _ _ _ _ Ho); intros b i Hb Hw; eapply H; eauto.
Qed.

Theorem C03_tensor_copy_ctor src m v :
  0 <= t_size src -> holds m (t_data src) (t_size src) v ->
  exists t m', ten_copy_ctor src m = Ok (t, m') /\
    t_shape t = t_shape src /\
    made m (t_size src) v (t_data t) m' /\            (* fresh storage, equal elements *)
    holds m' (t_data src) (t_size src) v /\           (* source unchanged *)
    independent (t_data t) (t_data src) (t_size src) m'.
Proof.
  intros Hn Hh.
  assert (W : wp (ten_copy_ctor src) m (fun t m' => t_shape t = t_shape src /\ made m (t_size src) v (t_data t) m')).
  { unfold ten_copy_ctor. apply wp_bind, wp_alloc, wp_bind. eapply wp_conseq.
    - apply wp_alloc_copy; eauto.
    - intros [] m' Hm. apply wp_ret. auto. }
  apply wp_elim in W as (t & m' & E & Es & Hmade). exists t, m'. do 3 (split; [assumption|]).
  destruct Hmade as (Ep & Hl & Hv & Hk & Hlen).
  assert (Hsrc : holds m' (t_data src) (t_size src) v).
  { intros i Hi. specialize (Hh i Hi). destruct (t_data src) as [|b o]; simpl in *; [discriminate|].
    eapply keeps_cell; eauto. }
  split; auto. apply independent_disjoint. rewrite Ep. intros b i [-> Hi] Hs.
  destruct (t_data src) as [|b' o] eqn:Ed; simpl in Hs; auto. destruct Hs as [<- Hs].
  apply holds_lt in Hh; [|lia]. lia.
Qed.

(** ** C04.  With depth 1 (every sized constructor, followed by any resizes) the copy is
    right; a default-constructed matrix has depth 0, [resize] does not change it, and then the
    copy constructor yields a matrix of size 0. *)
Theorem C04_matrix_copy_ctor_partial src m v (h w : Z) :
  t_shape src = shape2 h w -> 0 <= h < 2 ^ 64 -> 0 <= w -> h * w < 2 ^ 64 ->
  holds m (t_data src) (t_size src) v ->
  exists t m', mat_copy_ctor src m = Ok (t, m') /\
    t_shape t = t_shape src /\ made m (t_size src) v (t_data t) m' /\
    holds m' (t_data src) (t_size src) v /\
    independent (t_data t) (t_data src) (t_size src) m'.
Proof.
  intros Es Hh Hw Hs Hv.
  assert (Ez : t_size src = h * w) by (unfold t_size; rewrite Es; apply u64_small; nia).
  assert (W : wp (mat_copy_ctor src) m (fun t m' => t_shape t = t_shape src /\ made m (t_size src) v (t_data t) m')).
  { unfold mat_copy_ctor. rewrite Es. simpl s_depth. simpl s_height. simpl s_width.
    replace (u64 (1 * h)) with h by (rewrite u64_small; lia).
    apply wp_bind, wp_alloc, wp_bind. unfold tb_copy_ptr. simpl t_data.
    replace (t_size (mk_tensor (Ptr (length m) 0) (shape2 h w))) with (t_size src) by (unfold t_size; now rewrite Es).
    eapply wp_conseq.
    - apply wp_alloc_copy; [nia|eauto].
    - intros [] m' Hm. apply wp_ret. auto. }
  apply wp_elim in W as (t & m' & E & Et & Hmade). exists t, m'. do 3 (split; [assumption|]).
  destruct Hmade as (Ep & Hl & Hv' & Hk & Hlen).
  assert (Hsrc : holds m' (t_data src) (t_size src) v).
  { intros i Hi. specialize (Hv i Hi). destruct (t_data src) as [|b o]; simpl in *; [discriminate|].
    eapply keeps_cell; eauto. }
  split; auto. apply independent_disjoint. rewrite Ep. intros b i [-> Hi] Hs'.
  destruct (t_data src) as [|b' o] eqn:Ed; simpl in Hs'; auto. destruct Hs' as [<- Hs'].
  apply holds_lt in Hv; [|lia]. lia.
Qed.

(** Whatever its height, width and contents: a matrix of depth 0 (default constructor, then
    resize) is copied to a matrix of size 0 none of whose elements was written. *)
Theorem C04_matrix_copy_after_resize_refuted (h w : Z) (x : T) m :
  0 <= h -> 0 <= w -> 0 < h * w < 2 ^ 64 ->
  exists a b m1 m2 m3,
    mat_resize tb_default h w m = Ok (a, m1) /\ tb_fill a x m1 = Ok (tt, m2) /\
    mat_copy_ctor a m2 = Ok (b, m3) /\
    t_size a = h * w /\ holds m2 (t_data a) (h * w) (fun _ => x) /\
    t_size b = 0 /\ (forall i, 0 <= i < h * w -> elem m3 (t_data b) i = Some None).
Proof.
  intros Hh Hw Hs.
  assert (Eu : u64 (h * w) = h * w) by (apply u64_small; lia).
  destruct (wp_elim _ _ _ _ (wp_realloc (T:=T) Null (h * w) m (mk_shape 0 h w (u64 (h * w))) ltac:(lia) I))
    as (a & m1 & E1 & Ha & _ & _ & _ & Hlen).
  pose proof (wp_realloc (T:=T) Null (h * w) m (mk_shape 0 h w (u64 (h * w))) ltac:(lia) I) as W.
  subst a.
  assert (E1' : mat_resize tb_default h w m = Ok (mk_tensor (Ptr (length m) 0) (mk_shape 0 h w (u64 (h * w))), m ++ [Some (repeat None (Z.to_nat (h * w)))])).
  { unfold mat_resize, bind, alloc, ret. simpl. rewrite Eu. reflexivity. }
  destruct (wp_elim _ _ _ _ (wp_alloc_fill (h * w) x m ltac:(lia))) as ([] & m2 & E2 & Hm2).
  destruct Hm2 as (_ & _ & Hh2 & _ & Hlen2).
  eexists _, (mk_tensor (Ptr (length m2) 0) (shape2 0 w)), _, m2, _.
  split; [exact E1'|]. split; [|split].
  - unfold tb_fill, t_size. simpl. rewrite Eu. exact E2.
  - unfold mat_copy_ctor, tb_copy_ptr, detail_copy, bind, alloc.
    rewrite mfor_empty by (vm_compute; congruence). reflexivity.
  - unfold t_size. simpl. split; [auto|]. split; [auto|]. split; [reflexivity|].
    intros i Hi. apply cell_alloc. lia.
Qed.

(** ** C05.  The copy constructor of Vector never copies anything. *)
Theorem C05_vector_copy_ctor_refuted src m :
  0 < t_size src ->
  exists t m', vec_copy_ctor src m = Ok (t, m') /\
    t_size t = 0 /\ live m' (length m) (t_size src) /\
    (forall i, 0 <= i < t_size src -> elem m' (t_data t) i = Some None) /\
    keeps (fun _ => False) m m'.
Proof.
  intros Hn. unfold vec_copy_ctor, bind, alloc, tb_copy_ptr, detail_copy.
  rewrite mfor_empty by (vm_compute; congruence). eexists _, _. split; [reflexivity|].
  split; [reflexivity|]. split; [apply live_alloc; lia|]. split; [|apply keeps_app].
  intros i Hi. simpl. apply cell_alloc. auto.
Qed.

(** What does hold: the copy has its own storage (of the right capacity), nothing existing is changed, and
    copying an empty vector gives an empty vector. *)
Theorem C05_own_storage_partial src m v : 0 <= t_size src -> holds m (t_data src) (t_size src) v ->
  exists t m', vec_copy_ctor src m = Ok (t, m') /\
    t_data t = Ptr (length m) 0 /\ live m' (length m) (t_size src) /\ (t_size src = 0 -> t_size t = t_size src) /\
    holds m' (t_data src) (t_size src) v /\ keeps (fun _ => False) m m'.
Proof.
  intros Hn Hv. unfold vec_copy_ctor, bind, alloc, tb_copy_ptr, detail_copy.
  rewrite mfor_empty by (vm_compute; congruence). eexists _, _. split; [reflexivity|].
  split; [reflexivity|]. split; [apply live_alloc; lia|]. split; [intros ->; reflexivity|].
  assert (K : keeps (fun _ => False) m (m ++ [Some (repeat None (Z.to_nat (t_size src)))])) by apply keeps_app.
  split; [|exact K]. intros i Hi. specialize (Hv i Hi). destruct (t_data src) as [|b o]; [discriminate|].
  cbn [elem] in *. unfold cell in *. destruct (nth_error m b) eqn:E; [|discriminate].
  rewrite nth_error_app1 by (apply nth_error_Some; congruence). now rewrite E.
Qed.

(** ** C06 *)
Theorem C06_vector_copy_assign t src m v :
  0 <= t_size src -> owned m (t_data t) -> holds m (t_data src) (t_size src) v ->
  apart (t_data t) (t_data src) ->
  exists t' m', vec_copy_assign false t src m = Ok (t', m') /\
    t_size t' = t_size src /\ s_width (t_shape t') = s_width (t_shape src) /\
    t_data t' = Ptr (length m) 0 /\ live m' (length m) (t_size src) /\   (* new storage *)
    holds m' (t_data t') (t_size src) v /\                             (* equal elements *)
    (forall b o, t_data t = Ptr b o -> freed m' b) /\                  (* old storage released *)
    holds m' (t_data src) (t_size src) v /\
    keeps (owns_block (t_data t)) m m' /\ length m' = S (length m).
Proof.
  intros Hn Ho Hv Ha. rewrite vec_copy_assign_eq.
  destruct (wp_elim _ _ _ _ (wp_realloc_copy _ (t_size src) (t_size src) _ m v ltac:(lia) Ho Hv Ha))
    as (p & m' & E & -> & H1 & H2 & H3 & H4 & H5 & H6 & H7).
  rewrite (bind_eq _ _ _ _ _ _ _ E). eexists _, m'. split; [reflexivity|]. unfold t_size. simpl. auto 10.
Qed.

Theorem C06_tensor_copy_assign_same_size_partial t src m v :
  0 <= t_size src -> t_size t = t_size src ->
  owned m (t_data t) -> holds m (t_data src) (t_size src) v -> apart (t_data t) (t_data src) ->
  exists t' m', ten_copy_assign false t src m = Ok (t', m') /\
    t_shape t' = t_shape src /\
    t_data t' = Ptr (length m) 0 /\ live m' (length m) (t_size src) /\
    holds m' (t_data t') (t_size src) v /\
    (forall b o, t_data t = Ptr b o -> freed m' b) /\
    holds m' (t_data src) (t_size src) v /\
    keeps (owns_block (t_data t)) m m' /\ length m' = S (length m).
Proof.
  intros Hn He Ho Hv Ha. rewrite ten_copy_assign_eq, He.
  destruct (wp_elim _ _ _ _ (wp_realloc_copy _ (t_size src) (t_size src) _ m v ltac:(lia) Ho Hv Ha))
    as (p & m' & E & -> & H1 & H2 & H3 & H4 & H5 & H6 & H7).
  rewrite (bind_eq _ _ _ _ _ _ _ E). eexists _, m'. split; [reflexivity|]. simpl. auto 10.
Qed.

Theorem C06_matrix_copy_assign_same_size_partial t src m v :
  0 <= t_size src -> t_size t = t_size src ->
  owned m (t_data t) -> holds m (t_data src) (t_size src) v -> apart (t_data t) (t_data src) ->
  exists t' m', mat_copy_assign false t src m = Ok (t', m') /\
    t_size t' = t_size src /\
    s_height (t_shape t') = s_height (t_shape src) /\ s_width (t_shape t') = s_width (t_shape src) /\
    t_data t' = Ptr (length m) 0 /\ live m' (length m) (t_size src) /\
    holds m' (t_data t') (t_size src) v /\
    (forall b o, t_data t = Ptr b o -> freed m' b) /\
    holds m' (t_data src) (t_size src) v /\
    keeps (owns_block (t_data t)) m m' /\ length m' = S (length m).
Proof.
  intros Hn He Ho Hv Ha. rewrite mat_copy_assign_eq, He.
  destruct (wp_elim _ _ _ _ (wp_realloc_copy _ (t_size src) (t_size src) _ m v ltac:(lia) Ho Hv Ha))
    as (p & m' & E & -> & H1 & H2 & H3 & H4 & H5 & H6 & H7).
  rewrite (bind_eq _ _ _ _ _ _ _ E). eexists _, m'. split; [reflexivity|]. unfold t_size. simpl. auto 11.
Qed.

(** Assigning to a larger Tensor or Matrix reads and writes out of bounds, always. *)
Theorem C06_copy_assign_to_larger_refuted t src m v b :
  0 <= t_size src < t_size t -> owned m (t_data t) ->
  t_data src = Ptr b 0 -> live m b (t_size src) -> holds m (t_data src) (t_size src) v ->
  apart (t_data t) (t_data src) ->
  ten_copy_assign false t src m = UB OutOfBounds /\ mat_copy_assign false t src m = UB OutOfBounds.
Proof.
  intros Hn Ho Eb Hl Hv Ha. rewrite ten_copy_assign_eq, mat_copy_assign_eq, Eb in *.
  unfold bind. rewrite (realloc_copy_oob _ _ _ _ _ v); auto.
Qed.

(** Assigning to a smaller Tensor or Matrix copies only the first [old size] elements; the
    others are left uninitialised although the new size reports them. *)
Theorem C06_copy_assign_to_smaller_refuted t src m v :
  0 <= t_size t < t_size src -> owned m (t_data t) ->
  holds m (t_data src) (t_size src) v -> apart (t_data t) (t_data src) ->
  (exists t' m', ten_copy_assign false t src m = Ok (t', m') /\ t_size t' = t_size src /\
     holds m' (t_data t') (t_size t) v /\
     forall i, t_size t <= i < t_size src -> tb_get t' i m' = UB UninitRead) /\
  (exists t' m', mat_copy_assign false t src m = Ok (t', m') /\ t_size t' = t_size src /\
     holds m' (t_data t') (t_size t) v /\
     forall i, t_size t <= i < t_size src -> tb_get t' i m' = UB UninitRead).
Proof.
  intros Hn Ho Hv Ha. rewrite ten_copy_assign_eq, mat_copy_assign_eq.
  assert (Hv' : holds m (t_data src) (t_size t) v) by (intros i Hi; apply Hv; lia).
  destruct (wp_elim _ _ _ _ (wp_realloc_copy _ (t_size src) (t_size t) _ m v ltac:(lia) Ho Hv' Ha))
    as (p & m' & E & -> & H1 & H2 & H3 & _).
  assert (U : forall s i, t_size t <= i < t_size src -> tb_get (mk_tensor (Ptr (length m) 0) s) i m' = UB UninitRead).
  { intros s i Hi. specialize (H3 i Hi). unfold tb_get, load. simpl in *. unfold cell in H3.
    destruct (nth_error m' (length m)) as [[l|]|]; try discriminate. now rewrite H3. }
  split; rewrite (bind_eq _ _ _ _ _ _ _ E); eexists _, m'; (split; [reflexivity|]); split; auto.
Qed.

Theorem C06_self_assign t m :
  vec_copy_assign true t t m = Ok (t, m) /\ mat_copy_assign true t t m = Ok (t, m) /\
  ten_copy_assign true t t m = Ok (t, m).
Proof. auto. Qed.

(** ** C07 *)
Theorem C07_move_ctor src :
  forall t src', (vec_move_ctor src = (t, src') \/ mat_move_ctor src = (t, src') \/ ten_move_ctor src = (t, src')) ->
  t_data t = t_data src /\ t_shape t = t_shape src /\ t_data src' = Null.
Proof. intros t src' [E|[E|E]]; inversion E; auto. Qed.

Theorem C07_move_assign t src m :
  owned m (t_data t) ->
  exists m',
    (* the only effect on memory: the target's previous storage is released *)
    (forall b o, t_data t = Ptr b o -> freed m' b) /\ keeps (owns_block (t_data t)) m m' /\
    length m' = length m /\
    (exists t1 s1, vec_move_assign false t src m = Ok ((t1, s1), m') /\
       t_data t1 = t_data src /\ t_size t1 = t_size src /\ t_data s1 = Null /\
       s_width (t_shape t1) = s_width (t_shape src)) /\
    (exists t1 s1, mat_move_assign false t src m = Ok ((t1, s1), m') /\
       t_data t1 = t_data src /\ t_size t1 = t_size src /\ t_data s1 = Null /\
       s_width (t_shape t1) = s_width (t_shape src) /\ s_height (t_shape t1) = s_height (t_shape src)) /\
    (exists t1 s1, ten_move_assign false t src m = Ok ((t1, s1), m') /\
       t_data t1 = t_data src /\ t_shape t1 = t_shape src /\ t_data s1 = Null).
Proof.
  intros Ho. exists (released m (t_data t)). split; [|split; [|split; [|split; [|split]]]].
  - intros b o Hb. rewrite Hb in *. destruct Ho as [-> Hl]. now apply (freed_released m b 0).
  - apply keeps_released.
  - apply released_length.
  - eexists _, _. unfold vec_move_assign. rewrite (bind_eq _ _ _ _ _ _ _ (free_owned _ _ Ho)). split; [reflexivity|]. auto.
  - eexists _, _. unfold mat_move_assign. rewrite (bind_eq _ _ _ _ _ _ _ (free_owned _ _ Ho)). split; [reflexivity|]. auto.
  - eexists _, _. unfold ten_move_assign. rewrite (bind_eq _ _ _ _ _ _ _ (free_owned _ _ Ho)). split; [reflexivity|]. auto.
Qed.

Theorem C07_self_move t m :
  vec_move_assign true t t m = Ok ((t, t), m) /\ mat_move_assign true t t m = Ok ((t, t), m) /\
  ten_move_assign true t t m = Ok ((t, t), m).
Proof. auto. Qed.

(** ** C09 *)
Theorem C09_tensor_resize t m (d h w : Z) :
  0 <= d -> 0 <= h -> 0 <= w -> d * h * w < 2 ^ 64 -> owned m (t_data t) ->
  exists t' m', ten_resize t d h w m = Ok (t', m') /\
    t_shape t' = shape3 d h w /\ t_size t' = d * h * w /\
    s_depth (t_shape t') = d /\ s_height (t_shape t') = h /\ s_width (t_shape t') = w /\
    t_data t' = Ptr (length m) 0 /\ live m' (length m) (d * h * w) /\
    (forall b o, t_data t = Ptr b o -> freed m' b) /\ keeps (owns_block (t_data t)) m m' /\
    (* the shape is the one the sized constructor gives *)
    (forall m0 u m1, ten_new (T := T) d h w m0 = Ok (u, m1) -> t_shape u = t_shape t').
Proof.
  intros Hd Hh Hw Hs Ho.
  assert (Eu : u64 (d * h * w) = d * h * w) by (apply u64_small; nia).
  destruct (wp_elim _ _ _ _ (wp_realloc _ (d * h * w) m (shape3 d h w) ltac:(nia) Ho))
    as (t' & m' & E & -> & H1 & H2 & H3 & _).
  exists (mk_tensor (Ptr (length m) 0) (shape3 d h w)), m'. split.
  { unfold ten_resize. simpl s_size. rewrite Eu. exact E. }
  unfold t_size. simpl. rewrite Eu. do 9 (split; [auto|]). intros m0 u m1 [= <- _]. reflexivity.
Qed.

Theorem C09_matrix_resize t m (h w : Z) :
  0 <= h -> 0 <= w -> h * w < 2 ^ 64 -> owned m (t_data t) ->
  exists t' m', mat_resize t h w m = Ok (t', m') /\
    t_size t' = h * w /\ s_height (t_shape t') = h /\ s_width (t_shape t') = w /\
    t_data t' = Ptr (length m) 0 /\ live m' (length m) (h * w) /\
    (forall b o, t_data t = Ptr b o -> freed m' b) /\ keeps (owns_block (t_data t)) m m' /\
    (* the depth is inherited: the sized constructor's shape exactly when it was 1 *)
    s_depth (t_shape t') = s_depth (t_shape t) /\
    (s_depth (t_shape t) = 1 <-> t_shape t' = shape2 h w).
Proof.
  intros Hh Hw Hs Ho.
  assert (Eu : u64 (h * w) = h * w) by (apply u64_small; nia).
  destruct (wp_elim _ _ _ _ (wp_realloc _ (h * w) m (mk_shape (s_depth (t_shape t)) h w (u64 (h * w))) ltac:(nia) Ho))
    as (t' & m' & E & -> & H1 & H2 & H3 & _).
  eexists _, m'. split.
  { unfold mat_resize. simpl s_size. rewrite Eu in *. exact E. }
  unfold t_size, shape2. simpl. rewrite ?Eu. do 8 (split; [auto|]). split.
  - intros ->. reflexivity.
  - intros [= ->]. reflexivity.
Qed.

Theorem C09_vector_resize_partial t m (n : Z) :
  0 <= n < 2 ^ 64 -> owned m (t_data t) ->
  exists t' m', vec_resize t n m = Ok (t', m') /\
    t_size t' = n /\ t_data t' = Ptr (length m) 0 /\ live m' (length m) n /\
    (forall b o, t_data t = Ptr b o -> freed m' b) /\ keeps (owns_block (t_data t)) m m' /\
    (* but height and width are swapped w.r.t. the constructor *)
    s_height (t_shape t') = n /\ s_width (t_shape t') = 1.
Proof.
  intros Hn Ho.
  assert (Eu : u64 (1 * n * 1) = n) by (rewrite u64_small; lia).
  destruct (wp_elim _ _ _ _ (wp_realloc _ n m (shape3 1 n 1) ltac:(lia) Ho))
    as (t' & m' & E & -> & H1 & H2 & H3 & _).
  eexists _, m'. split; [exact E|]. unfold t_size, shape3; simpl. rewrite ?Eu. auto 10.
Qed.

(** Every vector resized to n <> 1 reports a shape that is not the one of Vector(n); and
    resizing another vector to that shape gives size 1 instead of n. *)
Theorem C09_vector_resize_refuted t m (n : Z) :
  0 <= n < 2 ^ 64 -> n <> 1 -> owned m (t_data t) ->
  exists t' m', vec_resize t n m = Ok (t', m') /\
    (forall m0 u m1, vec_new (T := T) n m0 = Ok (u, m1) -> t_shape u <> t_shape t') /\
    (forall u m2 u' m3, owned m2 (t_data u) -> vec_resize_shape u (t_shape t') m2 = Ok (u', m3) -> t_size u' = 1 /\ t_size t' = n).
Proof.
  intros Hn H1 Ho.
  destruct (C09_vector_resize_partial t m n Hn Ho) as (t' & m' & E & Ez & _ & _ & _ & _ & Eh & Ew).
  exists t', m'. split; auto. split.
  - intros m0 u m1 [= <- _] X. simpl in X. rewrite <- X in Ew. simpl in Ew. lia.
  - intros u m2 u' m3 Hu. unfold vec_resize_shape, vec_resize. rewrite Ew.
    rewrite (bind_eq _ _ _ _ _ _ _ (free_owned _ _ Hu)). intros [= <- _]. auto.
Qed.

(** ** C10.  reshape only replaces the dimensions: pointer, size, and (trivially, it is not a
    memory operation) all elements stay; the new indexing reads the new row-major position. *)
Theorem C10_reshape t (d h w : Z) :
  t_size t = d * h * w -> 0 <= d -> 0 <= h -> 0 <= w -> d * h * w < 2 ^ 64 ->
  let t' := ten_reshape t d h w in
  t_data t' = t_data t /\ t_size t' = t_size t /\ t_shape t' = shape3 d h w /\
  forall m i j k, 0 <= i < d -> 0 <= j < h -> 0 <= k < w ->
    ten_get (T := T) t' i j k m = tb_get t ((i * h + j) * w + k) m.
Proof.
  intros Es Hd Hh Hw Hs t'.
  assert (Et : t_shape t' = shape3 d h w).
  { subst t'. unfold ten_reshape, shape3. simpl. rewrite Es, u64_small by nia. auto. }
  split; [auto|]. split; [auto|]. split; [auto|]. intros m i j k Hi Hj Hk.
  destruct (C01_tensor_addressing d h w) as (_ & _ & _ & _ & F); auto.
  rewrite (F t' m i j k Et Hi Hj Hk). reflexivity.
Qed.
Theorem C10_reshape_matrix t (h w : Z) :
  t_size t = h * w -> 0 <= h -> 0 <= w -> h * w < 2 ^ 64 ->
  let t' := mat_reshape t h w in
  t_data t' = t_data t /\ t_size t' = t_size t /\
  s_height (t_shape t') = h /\ s_width (t_shape t') = w /\
  forall m i j, 0 <= i < h -> 0 <= j < w ->
    mat_get (T := T) t' i j m = tb_get t (i * w + j) m.
Proof.
  intros Es Hh Hw Hs t'. do 4 (split; [auto|]). intros m i j Hi Hj.
  unfold mat_get, tb_get. destruct (mat_at_flat h w i j (t_shape t')) as [-> _]; auto.
Qed.

(** ** C11.  [sets p n f m m']: exactly the n elements at p are set, to f. *)
Theorem C11_fill t m (x : T) : room m (t_data t) (t_size t) ->
  exists m', tb_fill t x m = Ok (tt, m') /\ sets (t_data t) (t_size t) (fun _ => x) m m'.
Proof. intros H.
  destruct (wp_elim _ _ _ _ (wp_assign_val_cpy (t_data t) (t_size t) x m H)) as ([] & m' & E & Hs). eauto. Qed.
Theorem C11_fill_generator t m (g : Z -> T) : room m (t_data t) (t_size t) ->
  exists m', tb_fill_gen t g m = Ok (tt, m') /\ sets (t_data t) (t_size t) g m m'.
Proof. intros H. destruct (wp_elim _ _ _ _ (wp_detail_fill (t_data t) (t_size t) g m H)) as ([] & m' & E & Hs). eauto. Qed.
Theorem C11_copy t src m v : room m (t_data t) (t_size t) ->
  holds m (t_data src) (t_size t) v -> operand_ok (t_data t) (t_size t) (t_data src) ->
  exists m', tb_copy false t src m = Ok (tt, m') /\ sets (t_data t) (t_size t) v m m'.
Proof. intros H1 H2 H3. destruct (wp_elim _ _ _ _ (wp_detail_copy _ _ _ m v H1 H2 H3)) as ([] & m' & E & Hs). eauto. Qed.
Theorem C11_copy_list t m (l : list T) d : room m (t_data t) (t_size t) ->
  t_size t <= Z.of_nat (length l) ->
  exists m', tb_copy_list t l m = Ok (tt, m') /\ sets (t_data t) (t_size t) (fun i => nth (Z.to_nat i) l d) m m'.
Proof. intros H1 H2. destruct (wp_elim _ _ _ _ (wp_detail_copy_list _ _ l m d H1 H2)) as ([] & m' & E & Hs). eauto. Qed.
Theorem C11_apply t m (f : T -> T) v : holds m (t_data t) (t_size t) v ->
  exists m', tb_apply t f m = Ok (tt, m') /\ sets (t_data t) (t_size t) (fun i => f (v i)) m m'.
Proof. intros H1. destruct (wp_elim _ _ _ _ (wp_detail_apply _ _ f m v H1)) as ([] & m' & E & Hs). eauto. Qed.
Theorem C11_apply_src t src m (f : T -> T) v : room m (t_data t) (t_size t) ->
  holds m (t_data src) (t_size t) v -> operand_ok (t_data t) (t_size t) (t_data src) ->
  exists m', tb_apply_src t f (t_data src) m = Ok (tt, m') /\ sets (t_data t) (t_size t) (fun i => f (v i)) m m'.
Proof. intros H1 H2 H3. destruct (wp_elim _ _ _ _ (wp_detail_apply_src _ _ f _ m v H1 H2 H3)) as ([] & m' & E & Hs). eauto. Qed.
(** x.add(y), x.sub(y), x.mul(y) *)
Theorem C11_add_sub_mul t rhs m x y :
  holds m (t_data t) (t_size t) x -> holds m (t_data rhs) (t_size t) y ->
  operand_ok (t_data t) (t_size t) (t_data rhs) ->
  (exists m', tb_assign OpAdd t rhs m = Ok (tt, m') /\ sets (t_data t) (t_size t) (fun i => add (x i) (y i)) m m') /\
  (exists m', tb_assign OpSub t rhs m = Ok (tt, m') /\ sets (t_data t) (t_size t) (fun i => sub (x i) (y i)) m m') /\
  (exists m', tb_assign OpMul t rhs m = Ok (tt, m') /\ sets (t_data t) (t_size t) (fun i => mul (x i) (y i)) m m').
Proof.
  intros H1 H2 H3. split; [|split]; [pose (op := OpAdd)|pose (op := OpSub)|pose (op := OpMul)];
  destruct (wp_elim _ _ _ _ (wp_assign_src _ _ op _ m x y H1 H2 H3)) as ([] & m' & E & Hs); eauto.
Qed.
(** r.add(x, y), ...: also Linear's add/sub/mul(result, x, y) *)
Theorem C11_add_sub_mul_3 t lhs rhs m x y :
  room m (t_data t) (t_size t) ->
  holds m (t_data lhs) (t_size t) x -> holds m (t_data rhs) (t_size t) y ->
  operand_ok (t_data t) (t_size t) (t_data lhs) -> operand_ok (t_data t) (t_size t) (t_data rhs) ->
  (exists m', tb_assign2 OpAdd t lhs rhs m = Ok (tt, m') /\ sets (t_data t) (t_size t) (fun i => add (x i) (y i)) m m') /\
  (exists m', tb_assign2 OpSub t lhs rhs m = Ok (tt, m') /\ sets (t_data t) (t_size t) (fun i => sub (x i) (y i)) m m') /\
  (exists m', tb_assign2 OpMul t lhs rhs m = Ok (tt, m') /\ sets (t_data t) (t_size t) (fun i => mul (x i) (y i)) m m').
Proof.
  intros H0 H1 H2 H3 H4. split; [|split]; [pose (op := OpAdd)|pose (op := OpSub)|pose (op := OpMul)];
  destruct (wp_elim _ _ _ _ (wp_assign_lhs_rhs _ _ op _ _ m x y H0 H1 H2 H3 H4)) as ([] & m' & E & Hs); eauto.
Qed.
Theorem C11_join t m (a : T) x : holds m (t_data t) (t_size t) x ->
  exists m', tb_join t a m = Ok (tt, m') /\ sets (t_data t) (t_size t) (fun i => mul (x i) a) m m'.
Proof. intros H1. destruct (wp_elim _ _ _ _ (wp_assign_val _ _ OpMul a m x H1)) as ([] & m' & E & Hs). eauto. Qed.
Theorem C11_join_src t src m (a : T) x : room m (t_data t) (t_size t) ->
  holds m (t_data src) (t_size t) x -> operand_ok (t_data t) (t_size t) (t_data src) ->
  exists m', tb_join_src t a src m = Ok (tt, m') /\ sets (t_data t) (t_size t) (fun i => mul a (x i)) m m'.
Proof. intros H1 H2 H3. destruct (wp_elim _ _ _ _ (wp_assign_val_src _ _ OpMul a _ m x H1 H2 H3)) as ([] & m' & E & Hs). eauto. Qed.

(** ** C12: every const value-returning operation on a non-empty tensor writes through null *)
Theorem C12_const_arithmetic_refuted t rhs m x y (a : T) (f : T -> T) op :
  0 < t_size t -> holds m (t_data t) (t_size t) x -> holds m (t_data rhs) (t_size t) y ->
  tb_assign_const op t rhs m = UB NullDeref /\
  tb_join_const t a m = UB NullDeref /\
  tb_apply_const t f m = UB NullDeref.
Proof.
  intros Hn Hx Hy. specialize (Hx 0 ltac:(lia)). specialize (Hy 0 ltac:(lia)).
  unfold tb_assign_const, tb_join_const, tb_apply_const, tb_assign2, tb_join_src, tb_apply_src.
  unfold tb_null, t_size at 1 3 5. simpl.
  split; [|split]; unfold bind at 1.
  - unfold assign_lhs_rhs. erewrite mfor_first_ub with (k := NullDeref); auto.
    rewrite (bind_eq _ _ _ _ _ _ _ (load_ok _ _ _ _ Hx)), (bind_eq _ _ _ _ _ _ _ (load_ok _ _ _ _ Hy)). reflexivity.
  - unfold assign_val_src. erewrite mfor_first_ub with (k := NullDeref); auto.
    rewrite (bind_eq _ _ _ _ _ _ _ (load_ok _ _ _ _ Hx)). reflexivity.
  - unfold detail_apply_src. erewrite mfor_first_ub with (k := NullDeref); auto.
    rewrite (bind_eq _ _ _ _ _ _ _ (load_ok _ _ _ _ Hx)). reflexivity.
Qed.

(** What does hold: on empty tensors the calls succeed and change nothing. *)
Theorem C12_empty_partial t rhs m (a : T) (f : T -> T) op : t_size t = 0 ->
  (exists r, tb_assign_const op t rhs m = Ok (r, m) /\ t_size r = 0) /\
  (exists r, tb_join_const t a m = Ok (r, m) /\ t_size r = 0) /\
  (exists r, tb_apply_const t f m = Ok (r, m) /\ t_size r = 0).
Proof.
  intros E. unfold tb_assign_const, tb_join_const, tb_apply_const, tb_assign2, tb_join_src, tb_apply_src, assign_lhs_rhs, assign_val_src, detail_apply_src.
  rewrite E. unfold bind. repeat split; eexists; (split; [rewrite mfor_empty by (vm_compute; congruence); reflexivity|reflexivity]).
Qed.

(** ** C13.  A view is a pointer and a shape; its constructors, assignments and reshape are
    functions on handles (they have no access to memory, so they cannot allocate, release or
    modify elements); what remains to be shown is that reads and writes through the view and
    through the tensor are the same operation, and that the documented size is preserved. *)
Theorem C13_views_share_storage t m (i : Z) (x : T) :
  let views := [vview_shape (t_shape t) (t_data t); vview_new (t_size t) (t_data t);
                mview_shape (t_shape t) (t_data t);
                mview_new (s_height (t_shape t)) (s_width (t_shape t)) (t_data t);
                tview_shape (t_shape t) (t_data t);
                tview_new (s_depth (t_shape t)) (s_height (t_shape t)) (s_width (t_shape t)) (t_data t)] in
  forall v, In v views ->
    tb_get v i m = tb_get t i m /\ tb_set v i x m = tb_set t i x m /\
    (forall u, tb_get (vview_assign false u v) i m = tb_get t i m /\
               tb_get (mview_assign false u v) i m = tb_get t i m /\
               tb_get (tview_assign false u v) i m = tb_get t i m) /\
    tb_get (vec_reshape v (s_width (t_shape v))) i m = tb_get t i m.
Proof. intros views v Hv. simpl in Hv. intuition (subst; auto). Qed.
Theorem C13_view_sizes t (d h w : Z) :
  0 <= d -> 0 <= h -> 0 <= w -> d * h * w < 2 ^ 64 -> d * h < 2 ^ 64 -> t_shape t = shape3 d h w ->
  t_size (mview_shape (t_shape t) (t_data t)) = t_size t /\
  t_size (tview_shape (t_shape t) (t_data t)) = t_size t /\
  t_size (vview_new (t_size t) (t_data t)) = t_size t /\
  forall m i j k, 0 <= i < d -> 0 <= j < h -> 0 <= k < w ->
    mat_get (T := T) (mview_shape (t_shape t) (t_data t)) (i * h + j) k m = ten_get t i j k m.
Proof.
  intros Hd Hh Hw Hs Hs2 E. unfold t_size, mview_shape. rewrite E. simpl.
  rewrite (u64_small (d * h)) by nia. do 3 (split; [auto|]). intros m i j k Hi Hj Hk.
  unfold mat_get, ten_get. rewrite E. simpl t_data.
  destruct (ten_at_flat d h w i j k (shape3 d h w)) as [-> ?]; auto.
  destruct (mat_at_flat (d * h) w (i * h + j) k (shape2 (d * h) w)) as [X ?]; auto; try nia.
  simpl t_shape. rewrite X. auto.
Qed.
End Props.

(** ** Concrete cases meeting the hypotheses *)
Module Examples.
Definition mem0 : mem Z := [Some (map Some [1; 2; 3; 4; 5; 6]); Some (map Some [7; 8; 9; 10; 11; 12]); Some [None; None]].
Definition ta := mk_tensor (Ptr 0 0) (shape3 1 2 3).
Definition tb := mk_tensor (Ptr 1 0) (shape3 3 2 1).
Definition tc := mk_tensor (Ptr 2 0) (shape2 1 2).

Example ta_holds : holds mem0 (t_data ta) (t_size ta) (fun i => nth (Z.to_nat i) [1; 2; 3; 4; 5; 6] 0).
Proof. apply (holds_list mem0 0 [1; 2; 3; 4; 5; 6] 0). reflexivity. Qed.
Example tb_holds : holds mem0 (t_data tb) (t_size tb) (fun i => nth (Z.to_nat i) [7; 8; 9; 10; 11; 12] 0).
Proof. apply (holds_list mem0 1 [7; 8; 9; 10; 11; 12] 0). reflexivity. Qed.
Example ta_room : room mem0 (t_data ta) (t_size ta).
Proof. eapply holds_room, ta_holds. Qed.
Example all_owned : owned mem0 (t_data ta) /\ owned mem0 (t_data tb) /\ owned mem0 (t_data tc).
Proof. simpl; eauto 10. Qed.
Example tb_live : live mem0 1 (t_size tb).
Proof. eexists. split; reflexivity. Qed.
Example ab_apart : apart (t_data ta) (t_data tb) /\ apart (t_data tc) (t_data tb).
Proof. split; intros b; simpl; intros -> H; discriminate. Qed.
Example ab_operand : operand_ok (t_data ta) (t_size ta) (t_data tb) /\ operand_ok (t_data ta) (t_size ta) (t_data ta).
Proof. split; [right; apply disjoint_blocks; discriminate|left; reflexivity]. Qed.
(** C06 refuted, smaller target: [tc] (2 elements, uninitialised) = [tb] (6 elements) *)
Example C06_smaller_case : 0 <= t_size tc < t_size tb.
Proof. vm_compute. split; congruence. Qed.
(** C06 refuted, larger target: a 6-element tensor assigned a 2-element one, executed *)
Example C06_larger_run :
  ten_copy_assign false (mk_tensor (Ptr 0 0) (shape1 6)) (mk_tensor (Ptr 1 0) (shape1 2))
    [Some (map Some [1; 2; 3; 4; 5; 6]); Some (map Some [7; 8])] = UB OutOfBounds.
Proof. vm_compute. reflexivity. Qed.
(** C03 executed *)
Example C03_run : ten_copy_ctor ta mem0 =
  Ok (mk_tensor (Ptr 3 0) (shape3 1 2 3), mem0 ++ [Some (map Some [1; 2; 3; 4; 5; 6])]).
Proof. vm_compute. reflexivity. Qed.
(** C05 executed: Vector b(a) for a = {1,2,3} *)
Example C05_run : vec_copy_ctor (mk_tensor (Ptr 0 0) (shape1 3)) [Some (map Some [1; 2; 3])] =
  Ok (mk_tensor (Ptr 1 0) (shape3 0 0 0), [Some (map Some [1; 2; 3]); Some [None; None; None]]).
Proof. vm_compute. reflexivity. Qed.
(** C10: 1x2x3 -> 3x2x1 *)
Example C10_case : t_size ta = 3 * 2 * 1. Proof. reflexivity. Qed.
(** C11 with full aliasing: a.add(a) *)
Example C11_alias_run : tb_assign OpAdd ta ta mem0 =
  Ok (tt, [Some (map Some [2; 4; 6; 8; 10; 12]); Some (map Some [7; 8; 9; 10; 11; 12]); Some [None; None]]).
Proof. vm_compute. reflexivity. Qed.
End Examples.

Print Assumptions C01_tensor_addressing.
Print Assumptions C01_matrix_addressing.
Print Assumptions C01_overflowing_shape_out_of_storage.
Print Assumptions C02_single_write.
Print Assumptions C02_single_write_matrix.
Print Assumptions C03_tensor_copy_ctor.
Print Assumptions C04_matrix_copy_ctor_partial.
Print Assumptions C04_matrix_copy_after_resize_refuted.
Print Assumptions C05_vector_copy_ctor_refuted.
Print Assumptions C06_vector_copy_assign.
Print Assumptions C06_tensor_copy_assign_same_size_partial.
Print Assumptions C06_matrix_copy_assign_same_size_partial.
Print Assumptions C06_copy_assign_to_larger_refuted.
Print Assumptions C06_copy_assign_to_smaller_refuted.
Print Assumptions C06_self_assign.
Print Assumptions C07_move_ctor.
Print Assumptions C07_move_assign.
Print Assumptions C07_self_move.
Print Assumptions C09_tensor_resize.
Print Assumptions C09_matrix_resize.
Print Assumptions C09_vector_resize_partial.
Print Assumptions C09_vector_resize_refuted.
Print Assumptions C10_reshape.
Print Assumptions C10_reshape_matrix.
Print Assumptions C11_fill.
Print Assumptions C11_fill_generator.
Print Assumptions C11_copy.
Print Assumptions C11_copy_list.
Print Assumptions C11_apply.
Print Assumptions C11_apply_src.
Print Assumptions C11_add_sub_mul.
Print Assumptions C11_add_sub_mul_3.
Print Assumptions C11_join.
Print Assumptions C11_join_src.
Print Assumptions C12_const_arithmetic_refuted.
Print Assumptions C12_empty_partial.
Print Assumptions C05_own_storage_partial.
Print Assumptions C13_views_share_storage.
Print Assumptions C13_view_sizes.

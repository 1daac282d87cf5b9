(** * Property C08: ownership over every history of tensor operations *)
From Verif Require Import Mem Scalar MemSpec MemLemmas Lique LiqueProofs Lifecycle LifecycleProofs PropLique.

(** For every finite sequence of operations: either the run ends in undefined behaviour of
    another kind (the reads/writes out of bounds, through null or uninitialised of C04-C06,
    C12), never in a double release or a use after release; or, in the state reached,
    1. every object's pointer is null or the start of a live allocation,
    2. no two objects own the same allocation,
    3. every live allocation is owned by an object (no leak),
    4. destroying all objects succeeds and leaves no live allocation. *)
Theorem C08_lifecycle {T} `{Num T} (ops : list (lop T)) :
  match lrun ops ([], []) with
  | UB k => k <> BadFree /\ k <> UseAfterFree
  | Ok (e, m) =>
    (forall a c t, nth_error e a = Some (Some (c, t)) ->
       t_data t = Null \/ exists b n, t_data t = Ptr b 0 /\ live m b n) /\
    (forall a a' c c' t t' b o o', nth_error e a = Some (Some (c, t)) ->
       nth_error e a' = Some (Some (c', t')) ->
       t_data t = Ptr b o -> t_data t' = Ptr b o' -> a = a') /\
    (forall b n, live m b n -> exists a c t, nth_error e a = Some (Some (c, t)) /\ t_data t = Ptr b 0) /\
    (exists e' m', lrun (destroy_all (e, m)) (e, m) = Ok (e', m') /\ forall b n, ~ live m' b n)
  end.
Proof.
  match goal with |- match ?r with _ => _ end =>
    assert (G : good r) by exact (lrun_good ops [] [] Inv_empty); unfold good in G; destruct r as [[e m]|k] end;
    [|exact G].
  destruct G as (A & B & C).
  assert (O : forall a c t, nth_error e a = Some (Some (c, t)) -> nth_error (own e) a = Some (t_data t)).
  { intros a c t Ha. unfold own. now rewrite nth_error_map, Ha. }
  split; [|split; [|split]].
  - intros a c t Ha. destruct (A a (t_data t) (O _ _ _ Ha)) as [|(b & E & [l Hl])]; auto.
    right. exists b, (Z.of_nat (length l)). split; auto. exists l. auto.
  - intros a a' c c' t t' b o o' Ha Ha' E E'.
    pose proof (A _ _ (O _ _ _ Ha)) as X. pose proof (A _ _ (O _ _ _ Ha')) as X'. rewrite E in X. rewrite E' in X'.
    destruct X as [|(? & [= <- ->] & _)]; [discriminate|]. destruct X' as [|(? & [= <- ->] & _)]; [discriminate|].
    apply (B a a' b); [rewrite <- E|rewrite <- E']; eauto.
  - intros b n (l & Hl & _). destruct (C b) as [a Ha]; [exists l; auto|].
    unfold own in Ha. rewrite nth_error_map in Ha. destruct (nth_error e a) as [[[c t]|]|] eqn:E; simpl in Ha; try discriminate.
    injection Ha as Ha. eauto.
  - destruct (destroy_range (length e) 0 e m) as (e' & m' & Er & (_ & _ & C') & Hl & Hn); auto.
    { split; auto. } { lia. }
    exists e', m'. split; auto. intros b n (l & Hlb & _). destruct (C' b) as [a Ha]; [exists l; auto|].
    unfold own in Ha. rewrite nth_error_map in Ha.
    assert (a < length e)%nat.
    { rewrite <- Hl. apply nth_error_Some. destruct (nth_error e' a); discriminate. }
    rewrite (Hn a) in Ha by auto. discriminate.
Qed.

(** The memory these theorems are about is strict.  In any memory, an allocation of [n] cells is new, uninitialised and leaves the others
    alone; releasing it once leaves the others alone; and each of these is undefined behaviour, not success: reading a cell that was not
    written, reading or writing outside it, releasing an address inside it, and after the release reading, writing or releasing it. *)
Theorem C08_memory_is_strict {T} (n : Z) (m : mem T) : 0 <= n ->
  exists b m1 m2, alloc n m = Ok (Ptr b 0, m1) /\ nth_error m b = None /\ (forall b' : nat, b' <> b -> nth_error m1 b' = nth_error m b') /\
    (forall i, 0 <= i < n -> load (Ptr b 0) i m1 = UB UninitRead) /\
    (forall i x, 0 <= i < n -> exists m3, store (Ptr b 0) i x m1 = Ok (tt, m3) /\ load (Ptr b 0) i m3 = Ok (x, m3)) /\
    (forall i x, ~ 0 <= i < n -> load (Ptr b 0) i m1 = UB OutOfBounds /\ store (Ptr b 0) i x m1 = UB OutOfBounds) /\
    (forall o, o <> 0 -> free (Ptr b o) m1 = UB BadFree) /\
    free (Ptr b 0) m1 = Ok (tt, m2) /\ (forall b' : nat, b' <> b -> nth_error m2 b' = nth_error m1 b') /\
    (forall o i x, load (Ptr b o) i m2 = UB UseAfterFree /\ store (Ptr b o) i x m2 = UB UseAfterFree) /\
    (forall o, free (Ptr b o) m2 = UB BadFree) /\
    (forall i x, load Null i m2 = UB NullDeref /\ store Null i x m2 = UB NullDeref) /\ free Null m2 = Ok (tt, m2).
Proof.
  intros Hn. set (b := length m). set (l := repeat (@None T) (Z.to_nat n)). set (m1 := m ++ [Some l]). exists b, m1, (set_nth b None m1).
  assert (Eb : nth_error m1 b = Some (Some l)) by (unfold m1, b; now rewrite nth_error_app2, Nat.sub_diag).
  assert (Ef : nth_error (set_nth b None m1) b = Some None) by (apply nth_set_nth_same; apply nth_error_Some; congruence).
  assert (Ll : length l = Z.to_nat n) by apply repeat_length.
  assert (Zi : forall i, 0 <= i < n -> znth l (0 + i) = Some None).
  { intros i Hi. unfold znth. rewrite Z.add_0_l. destruct (Z.leb_spec 0 i); [|lia]. unfold l. apply nth_error_repeat. lia. }
  assert (Zo : forall i, ~ 0 <= i < n -> znth l (0 + i) = None).
  { intros i Hi. unfold znth. rewrite Z.add_0_l. destruct (Z.leb_spec 0 i); [|reflexivity]. apply nth_error_None. lia. }
  split; [reflexivity|]. split; [now apply nth_error_None|]. split.
  { intros b' Nb. unfold m1. destruct (Nat.lt_ge_cases b' (length m)) as [L|L]; [now apply nth_error_app1|].
    rewrite nth_error_app2 by lia. replace (nth_error m b') with (@None (option (list (option T)))) by (symmetry; now apply nth_error_None).
    destruct (b' - length m)%nat as [|[|]] eqn:E; cbn; [unfold b in Nb; lia|reflexivity|reflexivity]. }
  split. { intros i Hi. unfold load. now rewrite Eb, Zi. }
  split.
  { intros i x Hi. eexists. split; [unfold store; now rewrite Eb, Zi|]. unfold load. rewrite nth_set_nth_same by (apply nth_error_Some; congruence).
    assert (Z1 : znth (set_nth (Z.to_nat (0 + i)) (Some x) l) (0 + i) = Some (Some x)); [|now rewrite Z1].
    unfold znth. rewrite Z.add_0_l. destruct (Z.leb_spec 0 i); [|lia]. apply nth_set_nth_same. lia. }
  split. { intros i x Hi. unfold load, store. now rewrite Eb, Zo. }
  split. { intros o Ho. unfold free. rewrite Eb. destruct (Z.eqb_spec o 0); [contradiction|reflexivity]. }
  split. { unfold free. now rewrite Eb. }
  split. { intros b' Nb. apply nth_set_nth_other. congruence. }
  split. { intros o i x. unfold load, store. now rewrite Ef. }
  split. { intros o. unfold free. now rewrite Ef. }
  split; [|reflexivity]. intros i x. split; reflexivity.
Qed.

(** In the history, copying gives what the copy constructor of the class gives (C03, C04): a new object, appended to the others, with the
    same shape and elements in storage of its own. *)
Theorem C08_copies_in_history {T} `{Num T} (e : list obj) (m : mem T) a c t v : nth_error e a = Some (Some (c, t)) ->
  (c = CTen /\ 0 <= t_size t \/ c = CMat /\ exists h w, t_shape t = shape2 h w /\ 0 <= h < 2 ^ 64 /\ 0 <= w /\ h * w < 2 ^ 64) ->
  holds m (t_data t) (t_size t) v ->
  exists t' m', lrun [LCopyCtor a] (e, m) = Ok (e ++ [Some (c, t')], m') /\ t_shape t' = t_shape t /\ made m (t_size t) v (t_data t') m' /\
    holds m' (t_data t) (t_size t) v /\ independent (t_data t') (t_data t) (t_size t) m'.
Proof.
  intros E C Hv. cbn [lrun lstep]. unfold live_obj. rewrite E. destruct C as [[-> Hn]|(-> & h & w & Es & B1 & B2 & B3)]; cbn [do_copy_ctor].
  - destruct (C03_tensor_copy_ctor t m v Hn Hv) as (t' & m' & Ec & P). exists t', m'. rewrite Ec. tauto.
  - destruct (C04_matrix_copy_ctor_partial t m v h w Es B1 B2 B3 Hv) as (t' & m' & Ec & P). exists t', m'. rewrite Ec. tauto.
Qed.

(** In the history, creating, resizing and reshaping give the object the extents asked for, whatever class it has and wherever it is among
    the others; a resized vector gets them as (1, width, 1) and not (1, 1, width) (C06). *)
Definition extents (t : tensor) : Z * Z * Z := (s_depth (t_shape t), s_height (t_shape t), s_width (t_shape t)).
Theorem C08_shapes_in_history {T} `{Num T} (e : list obj) (m : mem T) c d h w x e' m' :
  let asked t := match c with CTen => extents t = (d, h, w) | CMat => extents t = (1, h, w) | CVec => extents t = (1, 1, w) end in
  (lrun [LNew c d h w] (e, m) = Ok (e', m') -> exists t, e' = e ++ [Some (c, t)] /\ asked t) /\
  (lrun [LNewFill c d h w x] (e, m) = Ok (e', m') -> exists t, e' = e ++ [Some (c, t)] /\ asked t) /\
  forall a t, nth_error e a = Some (Some (c, t)) ->
    (lrun [LResize a d h w] (e, m) = Ok (e', m') -> exists t', nth_error e' a = Some (Some (c, t')) /\
       match c with CTen => extents t' = (d, h, w) | CMat => extents t' = (s_depth (t_shape t), h, w) | CVec => extents t' = (1, w, 1) end /\
       forall b, b <> a -> nth_error e' b = nth_error e b) /\
    (lrun [LReshape a d h w] (e, m) = Ok (e', m') -> exists t', nth_error e' a = Some (Some (c, t')) /\ m' = m /\ t_data t' = t_data t /\ t_size t' = t_size t /\
       match c with CTen => extents t' = (d, h, w) | CMat => extents t' = (s_depth (t_shape t), h, w) | CVec => extents t' = (s_depth (t_shape t), s_height (t_shape t), w) end /\
       forall b, b <> a -> nth_error e' b = nth_error e b).
Proof.
  cbv zeta. cbn [lrun lstep].
  assert (Bd : forall A B (p : M T A) (f : A -> M T B) m0 r m1, bind p f m0 = Ok (r, m1) -> exists y m2, p m0 = Ok (y, m2) /\ f y m2 = Ok (r, m1)).
  { intros A B p f m0 r m1. unfold bind. destruct (p m0) as [[y m2]|] eqn:E; [eauto|discriminate]. }
  assert (Nth : forall (l : list (option (cls * tensor))) a o, (a < length l)%nat -> nth_error (set_nth a o l) a = Some o) by (intros; now apply nth_set_nth_same).
  split; [|split].
  - destruct (do_new c d h w m) as [[t m1]|] eqn:E; [|discriminate]. intros [= <- <-]. exists t. split; [reflexivity|].
    destruct c; cbn [do_new] in E; apply Bd in E as (p & m2 & _ & [= <- _]); reflexivity.
  - destruct (do_new_fill c d h w x m) as [[t m1]|] eqn:E; [|discriminate]. intros [= <- <-]. exists t. split; [reflexivity|].
    destruct c; cbn [do_new_fill] in E; apply Bd in E as (p & m2 & _ & E); cbv zeta in E; apply Bd in E as (? & m3 & _ & [= <- _]); reflexivity.
  - intros a t Ea. unfold live_obj. rewrite Ea. assert (La : (a < length e)%nat) by (apply nth_error_Some; congruence). split.
    + destruct (do_resize c t d h w m) as [[n m1]|] eqn:E; [|discriminate]. intros [= <- <-]. exists n. split; [now apply Nth|]. split; [|intros b Hb; apply nth_set_nth_other; congruence].
      destruct c; cbn [do_resize] in E; apply Bd in E as (? & m2 & _ & E); apply Bd in E as (p & m3 & _ & [= <- _]); reflexivity.
    + intros [= <- <-]. eexists. split; [now apply Nth|]. split; [reflexivity|]. destruct c; repeat split; intros b Hb; apply nth_set_nth_other; congruence.
Qed.

(** In the history, the objects have the contents the statements say: a filled object holds the value everywhere and an initialised one the
    list in order, in new storage; a move hands the storage over; a swap exchanges; a fill overwrites the elements of that object only. *)
Theorem C08_contents_in_history {T} `{Num T} (e : list obj) (m : mem T) :
  (forall c d h w x, let n := match c with CVec => w | CMat => u64 (h * w) | CTen => u64 (d * h * w) end in 0 <= n ->
     exists t m', lrun [LNewFill c d h w x] (e, m) = Ok (e ++ [Some (c, t)], m') /\ t_size t = n /\ made m n (fun _ => x) (t_data t) m') /\
  (forall c l x, c <> CMat -> Z.of_nat (length l) < 2 ^ 64 ->
     exists t m', lrun [LNewList c l] (e, m) = Ok (e ++ [Some (c, t)], m') /\ extents t = (1, 1, Z.of_nat (length l)) /\
       made m (Z.of_nat (length l)) (fun i => nth (Z.to_nat i) l x) (t_data t) m') /\
  (forall a c t, nth_error e a = Some (Some (c, t)) ->
     exists t' e', lrun [LMoveCtor a] (e, m) = Ok (e' ++ [Some (c, t)], m) /\ nth_error e' a = Some (Some (c, t')) /\ t_data t' = Null /\
       forall b, b <> a -> nth_error e' b = nth_error e b) /\
  (forall a b c c' t t', a <> b -> nth_error e a = Some (Some (c, t)) -> nth_error e b = Some (Some (c', t')) ->
     exists e', lrun [LSwap a b] (e, m) = Ok (e', m) /\ nth_error e' a = Some (Some (c, t')) /\ nth_error e' b = Some (Some (c', t)) /\
       forall k, k <> a -> k <> b -> nth_error e' k = nth_error e k) /\
  (forall a c t x, nth_error e a = Some (Some (c, t)) -> room m (t_data t) (t_size t) ->
     exists m', lrun [LFill a x] (e, m) = Ok (e, m') /\ sets (t_data t) (t_size t) (fun _ => x) m m').
Proof.
  assert (Lt : forall a o, nth_error e a = Some o -> (a < length e)%nat) by (intros; apply nth_error_Some; congruence).
  split; [|split; [|split; [|split]]].
  - intros c d h w x n Hn. assert (W : wp (do_new_fill c d h w x) m (fun t m' => t_size t = n /\ made m n (fun _ => x) (t_data t) m')).
    { subst n. destruct c; cbn [do_new_fill]; unfold vec_fill, mat_fill, ten_fill, ten_shape_fill; apply wp_bind, wp_alloc; cbv zeta; apply wp_bind; unfold tb_fill; (eapply wp_conseq; [apply wp_alloc_fill; exact Hn|]);
        intros [] m' Hm; apply wp_ret; (split; [reflexivity|exact Hm]). }
    destruct (wp_elim _ _ _ _ W) as (t & m' & E & E1 & E2). exists t, m'. cbn [lrun lstep]. rewrite E. auto.
  - intros c l x Hc Hl. assert (W : wp (do_new_list c l) m (fun t m' => extents t = (1, 1, Z.of_nat (length l)) /\ made m (Z.of_nat (length l)) (fun i => nth (Z.to_nat i) l x) (t_data t) m')).
    { assert (Eu : u64 (1 * 1 * Z.of_nat (length l)) = Z.of_nat (length l)) by (unfold u64, two64; rewrite Z.mod_small by lia; lia).
      destruct c; [| now destruct Hc|]; cbn [do_new_list]; [unfold vec_of_list|unfold ten_of_list]; cbv zeta; cbn [s_size shape1 shape3]; rewrite ?Eu; apply wp_bind, wp_alloc; apply wp_bind; unfold tb_copy_list, t_size; cbn [t_data t_shape s_size shape1 shape3]; rewrite ?Eu;
        (eapply wp_conseq; [apply (wp_detail_copy_list _ _ l _ x); [apply room_alloc|lia]|]); intros [] m' Hs; apply wp_ret; (split; [reflexivity|apply made_of_sets; [lia|exact Hs]]). }
    destruct (wp_elim _ _ _ _ W) as (t & m' & E & E1 & E2). exists t, m'. cbn [lrun lstep]. rewrite E. auto.
  - intros a c t Ea. exists (tb_moved t), (set_nth a (Some (c, tb_moved t)) e). cbn [lrun lstep]. unfold live_obj. rewrite Ea. split; [destruct c; reflexivity|].
    split; [apply nth_set_nth_same; eauto|]. split; [reflexivity|]. intros b Hb. apply nth_set_nth_other. congruence.
  - intros a b c c' t t' Hab Ea Eb. eexists. cbn [lrun lstep]. unfold live_obj. rewrite Ea, Eb. cbn [tb_swap]. split; [reflexivity|]. split; [|split].
    + apply nth_set_nth_same. rewrite set_nth_length. eauto.
    + rewrite nth_set_nth_other by congruence. apply nth_set_nth_same. eauto.
    + intros k H1 H2. rewrite !nth_set_nth_other by congruence. reflexivity.
  - intros a c t x Ea Rm. destruct (C11_fill t m x Rm) as (m' & E & Hs). exists m'. cbn [lrun lstep]. unfold live_obj. rewrite Ea, E. auto.
Qed.

(** A non-trivial history that runs to the end: 9 operations, 3 live objects. *)
Example C08_run :
  exists e m, lrun [LNewFill CTen 1 2 2 5; LCopyCtor 0; LNew CVec 1 1 3; LFill 2 7; LMoveCtor 1;
                    LResize 0 3 1 1; LSwap 0 3; LMoveAssign 2 2; LDestroy 1] ([], []) = Ok (e, m) /\
    length (filter (fun o : obj => match o with Some _ => true | None => false end) e) = 3%nat /\
    length (filter (fun b : option (list (option Z)) => match b with Some _ => true | None => false end) m) = 3%nat.
Proof. eexists _, _. vm_compute. auto. Qed.
(** A history that ends in (another kind of) undefined behaviour: copying a moved-from tensor,
    which keeps its size but has no storage. *)
Example C08_copy_moved_from :
  lrun [LNewFill CTen 1 2 2 5; LMoveCtor 0; LCopyCtor 0] ([], []) = UB (A := lstate (T := Z)) NullDeref.
Proof. vm_compute. reflexivity. Qed.

Print Assumptions C08_lifecycle.
Print Assumptions C08_memory_is_strict.
Print Assumptions C08_copies_in_history.
Print Assumptions C08_shapes_in_history.
Print Assumptions C08_contents_in_history.

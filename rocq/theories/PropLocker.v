(** * Property C117: locked tensors keep their shape and their storage *)
From Verif Require Import Mem Scalar MemSpec MemLemmas Lique LiqueProofs Lifecycle LifecycleProofs Locker LockerProofs.

(** Programs that do not use the plain reference that [copy], [fill], [add], ... return. *)
Definition no_chaining {T} (o : kop T) : Prop :=
  match o with KRefSwap _ _ | KRefAssign _ _ => False | _ => True end.

(** The objects whose value an operation can change: the target of an assignment, resize,
    reshape, swap, element write or destruction, and what a move takes from.  Nothing else:
    not what is copied from, nor the arguments of element-wise operations. *)
Definition changes {T} (o : kop T) : list nat :=
  match o with
  | KCtor _ c | KOp c =>
    match c with
    | LMoveCtor a => [a]
    | LCopyAssign a _ => [a]
    | LMoveAssign a b => [a; b]
    | LResize a _ _ _ | LReshape a _ _ _ | LFill a _ | LDestroy a => [a]
    | LSwap a b => [a; b]
    | _ => []
    end
  | KWrite a _ => [a]
  | KRefSwap a b => [a; b]
  | KRefAssign a _ => [a]
  end.

Section P.
Context {T : Type} `{NT : Num T}.

(** the program starts with no objects and an empty heap *)
Notation start := (([], [], []) : kstate T).

Lemma start_good ops : Forall no_chaining ops -> kgood (krun ops start).
Proof. intros H. apply krun_good; auto. apply Inv_empty. Qed.

(** 1. Once a locked object exists, whatever the program goes on to do (with this object and
    with all others): as long as it lives it has the same class and shape, and its storage is
    the very same allocation with the same number of elements, unless the program moved
    from the object, after which it has none.  (Pointers got from [data()] or references got from
    [operator()] therefore stay valid.)
    [_partial]: programs that chain on the returned plain reference are excluded. *)
Theorem C117_locked_partial (h1 h2 : list (kop T)) e lk m e' lk' m' a c t :
  krun h1 start = Ok (e, lk, m) -> krun h2 (e, lk, m) = Ok (e', lk', m') ->
  Forall no_chaining h1 -> Forall no_chaining h2 ->
  nth_error lk a = Some true -> nth_error e a = Some (Some (c, t)) ->
  nth_error e' a = Some None \/
  exists t', nth_error e' a = Some (Some (c, t')) /\ t_shape t' = t_shape t /\
    ((t_data t' = Null /\ exists l, In (KCtor l (LMoveCtor a)) h2) \/
     (t_data t' = t_data t /\ forall b o n, t_data t = Ptr b o -> live m b n -> live m' b n)).
Proof.
  intros E1 E2 P1 P2 Hk Ha. pose proof (start_good h1 P1) as G. rewrite E1 in G. destruct G as [HI Hl].
  assert (La : live_obj e a = Some (c, t)) by (unfold live_obj; now rewrite Ha).
  destruct (krun_locked h2 a c t e lk m e' lk' m' HI Hl P2 E2 Hk La) as [D|(t' & H & Hs & Hd)]; [now left|].
  right. exists t'. split.
  { unfold live_obj in H. destruct (nth_error e' a) as [[?|]|]; try discriminate. congruence. }
  split; auto. destruct Hd as [[Ed Mv]|[Ed L]].
  { left. split; auto. apply Exists_exists in Mv as (o & Hin & l & ->). eauto. }
  right. split; auto. intros b o n Eb (l & Hm & Hn). subst n.
  apply lengths_live. rewrite (L b o Eb). apply lengths_live. exists l. auto.
Qed.

(** 2. An object (locked or not) that no operation names as its target keeps its class, shape,
    storage and every element. *)
Theorem C117_untouched_partial (h1 h2 : list (kop T)) e lk m e' lk' m' a c t :
  krun h1 start = Ok (e, lk, m) -> krun h2 (e, lk, m) = Ok (e', lk', m') ->
  Forall no_chaining h1 -> Forall no_chaining h2 ->
  nth_error e a = Some (Some (c, t)) -> Forall (fun o => ~ In a (changes o)) h2 ->
  nth_error e' a = Some (Some (c, t)) /\ forall i, elem m' (t_data t) i = elem m (t_data t) i.
Proof.
  intros E1 E2 P1 P2 Ha Hn. pose proof (start_good h1 P1) as G. rewrite E1 in G. destruct G as [HI Hl].
  assert (La : live_obj e a = Some (c, t)) by (unfold live_obj; now rewrite Ha).
  destruct (krun_frame h2 a c t e lk m e' lk' m' HI Hl E2 P2 La Hn) as [H Hs]. split.
  { unfold live_obj in H. destruct (nth_error e' a) as [[?|]|]; try discriminate. congruence. }
  intros i. unfold same_block in Hs. unfold elem, cell. destruct (t_data t); auto. now rewrite Hs.
Qed.

(** 3. The ownership discipline of C08 holds for mixed programs: no double release, no use of
    released storage, storage is never shared or leaked. *)
Theorem C117_ownership_partial (ops : list (kop T)) : Forall no_chaining ops ->
  match krun ops start with
  | UB k => k <> BadFree /\ k <> UseAfterFree
  | Ok (e, lk, m) =>
    (forall a c t, nth_error e a = Some (Some (c, t)) ->
       t_data t = Null \/ exists b n, t_data t = Ptr b 0 /\ live m b n) /\
    (forall a a' c c' t t' b o o', nth_error e a = Some (Some (c, t)) ->
       nth_error e a' = Some (Some (c', t')) ->
       t_data t = Ptr b o -> t_data t' = Ptr b o' -> a = a') /\
    (forall b n, live m b n -> exists a c t, nth_error e a = Some (Some (c, t)) /\ t_data t = Ptr b 0)
  end.
Proof.
  intros P. pose proof (start_good ops P) as G. destruct (krun ops start) as [[[e lk] m]|k]; [|exact G].
  destruct G as [(A & B & C) _].
  assert (O : forall a c t, nth_error e a = Some (Some (c, t)) -> nth_error (own e) a = Some (t_data t)).
  { intros a c t Ha. unfold own. now rewrite nth_error_map, Ha. }
  split; [|split].
  - intros a c t Ha. destruct (A a (t_data t) (O _ _ _ Ha)) as [|(b & E & [l Hl])]; auto.
    right. exists b, (Z.of_nat (length l)). split; auto. exists l. auto.
  - intros a a' c c' t t' b o o' Ha Ha' E E'.
    pose proof (A _ _ (O _ _ _ Ha)) as X. pose proof (A _ _ (O _ _ _ Ha')) as X'. rewrite E in X. rewrite E' in X'.
    destruct X as [|(? & [= <- ->] & _)]; [discriminate|]. destruct X' as [|(? & [= <- ->] & _)]; [discriminate|].
    apply (B a a' b); [rewrite <- E|rewrite <- E']; eauto.
  - intros b n (l & Hl & _). destruct (C b) as [a Ha]; [exists l; auto|].
    unfold own in Ha. rewrite nth_error_map in Ha. destruct (nth_error e a) as [[[c t]|]|] eqn:E; simpl in Ha; try discriminate.
    injection Ha as Ha. eauto.
Qed.

Lemma ten_new_ok d h w (m : mem T) : exists l, ten_new d h w m = Ok (mk_tensor (Ptr (length m) 0) (shape3 d h w), m ++ [Some l]).
Proof. unfold ten_new, ten_shape_new, bind, alloc, ret. generalize (shape3 d h w). intros s. eexists. reflexivity. Qed.
Lemma two_new d h w d' h' w' (rest : list (kop T)) : exists l l',
  krun (KCtor true (LNew CTen d h w) :: KCtor false (LNew CTen d' h' w') :: rest) start =
  krun rest ([Some (CTen, mk_tensor (Ptr 0 0) (shape3 d h w)); Some (CTen, mk_tensor (Ptr 1 0) (shape3 d' h' w'))],
             [true; false], [Some l; Some l']).
Proof.
  cbn [krun kstep ctor_compiles is_ctor lstep do_new].
  destruct (ten_new_ok d h w []) as [l ->]. cbn [length app Nat.eqb].
  cbn [krun kstep ctor_compiles is_ctor lstep do_new].
  destruct (ten_new_ok d' h' w' [Some l]) as [l' ->]. cbn [length app Nat.eqb]. eauto.
Qed.

(** 4. With chaining the claim is false, for every two shapes: after
    [XTensor a(d, h, w); Tensor b(d', h', w'); a.copy(a.base()).swap(b);]
    the locked tensor has the shape of [b] (and its storage). *)
Theorem C117_chained_swap_refuted (d h w d' h' w' : Z) :
  exists e m t, krun [KCtor true (LNew CTen d h w); KCtor false (LNew CTen d' h' w'); KRefSwap 0 1] start
                  = Ok (e, [true; false], m) /\
    nth_error e 0 = Some (Some (CTen, t)) /\ t_shape t = shape3 d' h' w' /\ t_data t = Ptr 1 0.
Proof.
  destruct (two_new d h w d' h' w' [KRefSwap 0 1]) as (l & l' & ->).
  generalize (shape3 d h w) (shape3 d' h' w'). intros s s'.
  cbn. eexists _, _, _. split; [reflexivity|]. cbn. auto.
Qed.
(** 5. ... and after [a.copy(a.base()) = b;] both own the storage of [b]: the second
    destructor releases it again. *)
Theorem C117_chained_assign_refuted (d h w d' h' w' : Z) :
  krun [KCtor true (LNew CTen d h w); KCtor false (LNew CTen d' h' w'); KRefAssign 0 1;
        KOp (LDestroy 1); KOp (LDestroy 0)] start = UB BadFree.
Proof.
  destruct (two_new d h w d' h' w' [KRefAssign 0 1; KOp (LDestroy 1); KOp (LDestroy 0)]) as (l & l' & ->).
  generalize (shape3 d h w) (shape3 d' h' w'). intros s s'. reflexivity.
Qed.
End P.

Module Examples.
(** A history with locked and plain objects: elements of the locked tensor are written, it is
    copied, moved into another locked one; an attempt to resize it is not a program. *)
Definition h1 : list (kop Z) := [KCtor true (LNewFill CTen 1 2 2 5); KCtor false (LNewFill CTen 1 2 2 1)].
Definition h2 : list (kop Z) :=
  [KWrite 0 (WAssign OpAdd 1); KOp (LResize 0 9 9 9); KOp (LResize 1 3 1 1); KCtor true (LCopyCtor 0);
   KCtor false (LMoveCtor 0); KCtor true (LMoveCtor 2); KOp (LDestroy 1); KWrite 0 (WSet 3 70)].
Definition views (r : res (kstate Z)) :=
  match r with
  | Ok (e, lk, m) => Some (map (option_map (fun o => (t_data (snd o), t_size (snd o)))) e, lk,
                           map (option_map (map (fun x => x))) m)
  | UB _ => None end.
Example C117_run :
  views (krun (h1 ++ h2) ([], [], [])) =
  Some ([Some (Ptr 0 0, 4); None; Some (Null, 4); Some (Ptr 3 0, 4)], [true; false; true; true],
        [Some [Some 6; Some 6; Some 6; Some 70]; None; None; Some [Some 6; Some 6; Some 6; Some 6]]).
Proof. vm_compute. reflexivity. Qed.
(** ... which meets the hypotheses of the theorems for object 0 *)
Example C117_hyps :
  Forall no_chaining (h1 ++ h2) /\
  exists e lk m e' lk' m' t, krun h1 ([], [], []) = Ok (e, lk, m) /\ krun h2 (e, lk, m) = Ok (e', lk', m') /\
    nth_error lk 0 = Some true /\ nth_error e 0 = Some (Some (CTen, t)).
Proof.
  split; [repeat (apply Forall_cons; [exact I|]); apply Forall_nil|].
  eexists _, _, _, _, _, _, _. split; [vm_compute; reflexivity|]. split; [vm_compute; reflexivity|].
  split; reflexivity.
Qed.
(** an object that nothing touches *)
Definition h3 : list (kop Z) := [KCtor true (LCopyCtor 0); KWrite 1 (WAssign2 OpMul 0 0); KOp (LResize 1 2 2 2);
                                 KOp (LDestroy 2)].
Example C117_untouched_hyps :
  Forall (fun o => ~ In 0%nat (changes o)) h3 /\ Forall no_chaining h3 /\
  exists e lk m e' lk' m', krun h1 ([], [], []) = Ok (e, lk, m) /\ krun h3 (e, lk, m) = Ok (e', lk', m').
Proof.
  split; [repeat (apply Forall_cons; [cbn; intuition discriminate|]); apply Forall_nil|].
  split; [repeat (apply Forall_cons; [exact I|]); apply Forall_nil|].
  eexists _, _, _, _, _, _. split; [vm_compute; reflexivity|]. vm_compute. reflexivity.
Qed.
End Examples.

Print Assumptions C117_locked_partial.
Print Assumptions C117_untouched_partial.
Print Assumptions C117_ownership_partial.
Print Assumptions C117_chained_swap_refuted.
Print Assumptions C117_chained_assign_refuted.

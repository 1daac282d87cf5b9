(** * Proofs about Locker.v *)
From Verif Require Import Mem Scalar MemSpec MemLemmas Lique LiqueProofs LiqueProofs2 Lifecycle LifecycleProofs Locker.

Section P.
Context {T : Type} `{NT : Num T}.
Implicit Types (m : mem T) (e : list obj).

(** ** which blocks a computation can change *)
Definition conf (X : nat -> Prop) {A} (c : M T A) : Prop :=
  forall m a m', c m = Ok (a, m') -> keeps X m m'.

Lemma keeps_refl X m : keeps X m m.
Proof. split; auto. Qed.
Lemma conf_ret X A (a : A) : conf X (ret a).
Proof. intros m a' m' [= _ <-]. apply keeps_refl. Qed.
Lemma conf_bind X A B (c : M T A) (f : A -> M T B) : conf X c -> (forall a, conf X (f a)) -> conf X (bind c f).
Proof.
  intros Hc Hf m b m2 E. unfold bind in E. destruct (c m) as [[a m1]|k] eqn:E1; [|discriminate].
  eapply keeps_trans; [eapply Hc|eapply Hf]; eauto.
Qed.
Lemma conf_load X p i : conf X (load p i).
Proof.
  intros m a m' E. unfold load in E. destruct p as [|b o]; [discriminate|].
  destruct (nth_error m b) as [[l|]|]; try discriminate. destruct (znth l (o + i)) as [[x|]|]; try discriminate.
  injection E as _ <-. apply keeps_refl.
Qed.
Lemma conf_store (X : nat -> Prop) p i x : (forall b, owns_block p b -> X b) -> conf X (store p i x).
Proof.
  intros HX m a m' E. unfold store in E. destruct p as [|b o]; [discriminate|].
  destruct (nth_error m b) as [[l|]|] eqn:El; try discriminate.
  destruct (znth l (o + i)); try discriminate. injection E as _ <-.
  split; [rewrite set_nth_length; auto|]. intros b' Hb' Hn.
  apply nth_set_nth_other. intros ->. apply Hn, HX. reflexivity.
Qed.
Lemma conf_mfor X lo hi (body : Z -> M T unit) : (forall i, conf X (body i)) -> conf X (mfor lo hi body).
Proof.
  intros H. unfold mfor, mfold. generalize (Z.to_nat (hi - lo)) as n. intros n. revert lo.
  induction n as [|n IH]; intros lo; cbn [mfold_n]; [apply conf_ret|]. apply conf_bind; auto.
  intros []. apply IH.
Qed.
Lemma conf_ub X A k : conf X (fun _ : mem T => UB (A := A * mem T) k).
Proof. intros m a m'. discriminate. Qed.

Ltac conf := repeat first
  [ apply conf_mfor; intros ? | apply conf_bind; [|intros ?] | apply conf_load
  | apply conf_store; solve [auto] | apply conf_ret
  | intros ? ? ? ?; discriminate ].

Lemma conf_copy_list (X : nat -> Prop) dst n l : (forall b, owns_block dst b -> X b) -> conf X (detail_copy_list dst n l).
Proof. intros HX. unfold detail_copy_list. apply conf_mfor; intros i. destruct (znth l i); [conf|]. intros ? ? ?. discriminate. Qed.
Lemma conf_copy (X : nat -> Prop) dst n src : (forall b, owns_block dst b -> X b) -> conf X (detail_copy dst n src).
Proof. intros HX. unfold detail_copy. conf. Qed.
Lemma conf_op (X : nat -> Prop) op dst i x : (forall b, owns_block dst b -> X b) -> conf X (op_assign op dst i x).
Proof. intros HX. destruct op; unfold op_assign; conf. Qed.
Lemma conf_assign_val (X : nat -> Prop) dst n op x : (forall b, owns_block dst b -> X b) -> conf X (assign_val dst n op x).
Proof. intros HX. unfold assign_val. apply conf_mfor; intros i. now apply conf_op. Qed.
Lemma conf_free (X : nat -> Prop) p : (forall b, owns_block p b -> X b) -> conf X (free p).
Proof.
  intros HX m a m' E. unfold free in E. destruct p as [|b o]; [injection E as _ <-; apply keeps_refl|].
  destruct (nth_error m b) as [[l|]|]; try discriminate. destruct (o =? 0); [|discriminate]. injection E as _ <-.
  split; [rewrite set_nth_length; auto|]. intros b' _ Hn. apply nth_set_nth_other. intros ->. apply Hn, HX. reflexivity.
Qed.
Lemma conf_alloc (X : nat -> Prop) A n (k : ptr -> M T A) :
  (forall p, conf (fun b => X b \/ owns_block p b) (k p)) -> conf X (bind (alloc n) k).
Proof.
  intros Hk m a m' E. unfold bind, alloc in E. apply Hk in E. destruct E as [Hl Hb].
  rewrite app_length in Hl. simpl in Hl. split; [lia|].
  intros b Hlt Hn. rewrite Hb.
  - now apply nth_error_app1.
  - rewrite app_length. lia.
  - intros [|E]; auto. simpl in E. lia.
Qed.
Lemma conf_weaken (X Y : nat -> Prop) A (c : M T A) : (forall b, X b -> Y b) -> conf X c -> conf Y c.
Proof. intros H Hc m a m' E. eapply keeps_weaken; eauto. Qed.

Definition none : nat -> Prop := fun _ => False.
Ltac ctorc := apply conf_alloc; intros p; first [apply conf_ret | apply conf_bind; [first [apply conf_copy|apply conf_copy_list|apply conf_assign_val]; simpl; auto | intros; apply conf_ret]].
Lemma conf_new c d h w : conf none (do_new c d h w).
Proof. destruct c; cbn [do_new]; [unfold vec_new|unfold mat_new|unfold ten_new, ten_shape_new]; ctorc. Qed.
Lemma conf_new_fill c d h w x : conf none (do_new_fill c d h w x).
Proof. destruct c; cbn [do_new_fill]; [unfold vec_fill|unfold mat_fill|unfold ten_fill, ten_shape_fill]; ctorc. Qed.
Lemma conf_new_list c l : conf none (do_new_list c l).
Proof. destruct c; cbn [do_new_list]; [unfold vec_of_list|apply conf_ret|unfold ten_of_list]; ctorc. Qed.
Lemma conf_copy_ctor c t : conf none (do_copy_ctor c t).
Proof. destruct c; cbn [do_copy_ctor]; [unfold vec_copy_ctor|unfold mat_copy_ctor|unfold ten_copy_ctor]; ctorc. Qed.
Lemma conf_copy_assign c s t t' : conf (owns_block (t_data t)) (do_copy_assign c s t t').
Proof.
  destruct c; cbn [do_copy_assign]; [unfold vec_copy_assign|unfold mat_copy_assign|unfold ten_copy_assign];
  (destruct s; [apply conf_ret|apply conf_bind; [now apply conf_free|intros []; ctorc]]).
Qed.
Lemma conf_move_assign c s t t' : conf (owns_block (t_data t)) (do_move_assign c s t t').
Proof.
  destruct c; cbn [do_move_assign]; [unfold vec_move_assign|unfold mat_move_assign|unfold ten_move_assign];
  (destruct s; [apply conf_ret|apply conf_bind; [now apply conf_free|intros []; apply conf_ret]]).
Qed.
Lemma conf_resize c t d h w : conf (owns_block (t_data t)) (do_resize c t d h w).
Proof.
  destruct c; cbn [do_resize]; [unfold vec_resize|unfold mat_resize|unfold ten_resize];
  (apply conf_bind; [now apply conf_free|intros []; ctorc]).
Qed.
Lemma conf_destroy c t : conf (owns_block (t_data t)) (do_destroy c t).
Proof. destruct c; now apply conf_free. Qed.
Lemma conf_write e a t w r : do_write e a t w = Some r -> conf (owns_block (t_data t)) r.
Proof.
  destruct w; cbn [do_write]; repeat match goal with |- context [live_obj e ?b] => destruct (live_obj e b) as [[? ?]|] end;
  try discriminate; intros [= <-];
  try (now apply conf_copy); try (now apply conf_copy_list); try (now apply conf_assign_val).
  - unfold tb_copy. destruct (Nat.eqb a b); [apply conf_ret|now apply conf_copy].
  - unfold tb_fill_gen, detail_fill. conf.
  - unfold tb_apply, detail_apply. conf.
  - unfold tb_apply_src, detail_apply_src. conf.
  - unfold tb_assign, assign_src. apply conf_mfor; intros i. apply conf_bind; [apply conf_load|intros x; now apply conf_op].
  - unfold tb_assign2, assign_lhs_rhs. conf.
  - unfold tb_join_src, assign_val_src. conf.
  - unfold tb_set. conf.
Qed.

(** ** which objects a step can change *)
Definition l_touches (o : lop T) : list nat :=
  match o with
  | LMoveCtor a => [a]
  | LCopyAssign a _ => [a]
  | LMoveAssign a b => [a; b]
  | LResize a _ _ _ | LReshape a _ _ _ | LFill a _ | LDestroy a => [a]
  | LSwap a b => [a; b]
  | _ => []
  end.
Definition blocks_of e (l : list nat) (b : nat) : Prop :=
  exists x c t, In x l /\ live_obj e x = Some (c, t) /\ owns_block (t_data t) b.

Lemma live_app e x a o : live_obj e a = Some o -> live_obj (e ++ [x]) a = Some o.
Proof.
  unfold live_obj. intros H. rewrite nth_error_app1; auto.
  apply nth_error_Some. destruct (nth_error e a); discriminate.
Qed.
Lemma live_set e x y a : x <> a -> live_obj (set_nth x y e) a = live_obj e a.
Proof. intros H. unfold live_obj. now rewrite nth_set_nth_other. Qed.

Lemma lstep_frame e m o e' m' : lstep (e, m) o = Ok (e', m') ->
  keeps (blocks_of e (l_touches o)) m m' /\
  (forall a x, ~ In a (l_touches o) -> live_obj e a = Some x -> live_obj e' a = Some x).
Proof.
  intros E.
  assert (K : forall c t x, live_obj e x = Some (c, t) -> In x (l_touches o) ->
              forall b, owns_block (t_data t) b -> blocks_of e (l_touches o) b)
    by (intros c t x Hx Hi b Hb; exists x, c, t; auto).
  assert (N : forall A (c : M T A) a, conf none c -> c m = Ok (a, m') -> keeps (blocks_of e (l_touches o)) m m')
    by (intros A c a Hc Ec; eapply keeps_weaken; [|eapply Hc; eauto]; intros b []).
  destruct o; cbn [lstep] in E.
  - injection E as <- <-. split; [apply keeps_refl|]. intros. now apply live_app.
  - destruct (do_new c d h w m) as [[t m1]|] eqn:E1; [|discriminate]. injection E as <- <-.
    split; [eapply N; eauto; apply conf_new|]. intros. now apply live_app.
  - destruct (do_new_fill c d h w x m) as [[t m1]|] eqn:E1; [|discriminate]. injection E as <- <-.
    split; [eapply N; eauto; apply conf_new_fill|]. intros. now apply live_app.
  - destruct (do_new_list c l m) as [[t m1]|] eqn:E1; [|discriminate]. injection E as <- <-.
    split; [eapply N; eauto; apply conf_new_list|]. intros. now apply live_app.
  - destruct (live_obj e src) as [[c t]|] eqn:Es; [|injection E as <- <-; split; [apply keeps_refl|auto]].
    destruct (do_copy_ctor c t m) as [[t1 m1]|] eqn:E1; [|discriminate]. injection E as <- <-.
    split; [eapply N; eauto; apply conf_copy_ctor|]. intros. now apply live_app.
  - destruct (live_obj e src) as [[c t]|] eqn:Es; [|injection E as <- <-; split; [apply keeps_refl|auto]].
    destruct (do_move_ctor c t) as [n t']. injection E as <- <-. split; [apply keeps_refl|].
    intros a x Ha Hx. apply live_app. rewrite live_set; auto. intros ->. apply Ha. simpl. auto.
  - destruct (live_obj e dst) as [[c t]|] eqn:Ea; [|injection E as <- <-; split; [apply keeps_refl|auto]].
    destruct (live_obj e src) as [[c' t']|] eqn:Eb; [|injection E as <- <-; split; [apply keeps_refl|auto]].
    destruct (cls_eqb c c'); [|injection E as <- <-; split; [apply keeps_refl|auto]].
    destruct (do_copy_assign c (Nat.eqb dst src) t t' m) as [[n m1]|] eqn:E1; [|discriminate]. injection E as <- <-.
    split.
    + eapply keeps_weaken; [|eapply conf_copy_assign; eauto]. apply (K c t dst); simpl; auto.
    + intros a x Ha Hx. rewrite live_set; auto. intros ->. apply Ha. simpl. auto.
  - destruct (live_obj e dst) as [[c t]|] eqn:Ea; [|injection E as <- <-; split; [apply keeps_refl|auto]].
    destruct (live_obj e src) as [[c' t']|] eqn:Eb; [|injection E as <- <-; split; [apply keeps_refl|auto]].
    destruct (cls_eqb c c'); [|injection E as <- <-; split; [apply keeps_refl|auto]].
    destruct (do_move_assign c (Nat.eqb dst src) t t' m) as [[[n n'] m1]|] eqn:E1; [|discriminate]. injection E as <- <-.
    split.
    + eapply keeps_weaken; [|eapply conf_move_assign; eauto]. apply (K c t dst); simpl; auto.
    + intros a x Ha Hx. simpl in Ha. rewrite !live_set; auto; intros ->; apply Ha; auto.
  - destruct (live_obj e a) as [[c t]|] eqn:Ea; [|injection E as <- <-; split; [apply keeps_refl|auto]].
    destruct (do_resize c t d h w m) as [[n m1]|] eqn:E1; [|discriminate]. injection E as <- <-.
    split.
    + eapply keeps_weaken; [|eapply conf_resize; eauto]. apply (K c t a); simpl; auto.
    + intros a' x Ha Hx. rewrite live_set; auto. intros ->. apply Ha. simpl. auto.
  - destruct (live_obj e a) as [[c t]|] eqn:Ea; [|injection E as <- <-; split; [apply keeps_refl|auto]].
    injection E as <- <-. split; [apply keeps_refl|].
    intros a' x Ha Hx. rewrite live_set; auto. intros ->. apply Ha. simpl. auto.
  - destruct (live_obj e a) as [[c t]|] eqn:Ea; [|injection E as <- <-; split; [apply keeps_refl|auto]].
    destruct (live_obj e b) as [[c' t']|] eqn:Eb; [|injection E as <- <-; split; [apply keeps_refl|auto]].
    unfold tb_swap in E. injection E as <- <-. split; [apply keeps_refl|].
    intros a' x Ha Hx. simpl in Ha. rewrite !live_set; auto; intros ->; apply Ha; auto.
  - destruct (live_obj e a) as [[c t]|] eqn:Ea; [|injection E as <- <-; split; [apply keeps_refl|auto]].
    destruct (tb_fill t x m) as [[u m1]|] eqn:E1; [|discriminate]. injection E as <- <-. split; [|auto].
    eapply keeps_weaken; [|eapply (conf_assign_val (owns_block (t_data t))); [|exact E1]; auto]. apply (K c t a); simpl; auto.
  - destruct (live_obj e a) as [[c t]|] eqn:Ea; [|injection E as <- <-; split; [apply keeps_refl|auto]].
    destruct (do_destroy c t m) as [[n m1]|] eqn:E1; [|discriminate]. injection E as <- <-.
    split.
    + eapply keeps_weaken; [|eapply conf_destroy; eauto]. apply (K c t a); simpl; auto.
    + intros a' x Ha Hx. rewrite live_set; auto. intros ->. apply Ha. simpl. auto.
Qed.

(** ** writes neither allocate, free nor touch freed storage *)
Lemma quiet_op op dst i x m : okptr m dst -> quiet (op_assign op dst i x) m.
Proof.
  intros H. destruct op; unfold op_assign; try (now apply quiet_store);
  (apply quiet_bind; [now apply quiet_load|intros y m' Hs; apply quiet_store; eapply okptr_skel; eauto]).
Qed.
Ltac okp := eapply okptr_skel; [|eassumption]; congruence.
Ltac quiet := repeat first
  [ apply quiet_mfor; intros ? ? ? | apply quiet_bind; [|intros ? ? ?]
  | apply quiet_load; okp | apply quiet_store; okp | apply quiet_op; okp ].
Lemma quiet_write e a c t w r m : Inv (own e) m -> live_obj e a = Some (c, t) ->
  do_write e a t w = Some r -> quiet r m.
Proof.
  intros HI Ha.
  assert (O : forall b c t, live_obj e b = Some (c, t) -> okptr m (t_data t)) by (intros; eapply Inv_okptr; eauto).
  pose proof (O _ _ _ Ha) as Ht.
  destruct w; cbn [do_write]; repeat match goal with |- context [live_obj e ?b] => destruct (live_obj e b) as [[? ?]|] eqn:? end;
  try discriminate; intros [= <-]; repeat match goal with H : live_obj e _ = Some (_, ?t) |- _ => apply O in H end.
  - now apply quiet_copy.
  - unfold tb_copy. destruct (Nat.eqb a b); [reflexivity|now apply quiet_copy].
  - now apply quiet_copy_list.
  - unfold tb_fill_gen, detail_fill. quiet.
  - now apply quiet_fill.
  - unfold tb_apply, detail_apply. quiet.
  - unfold tb_apply_src, detail_apply_src. quiet.
  - unfold tb_assign, assign_src. quiet.
  - unfold tb_assign2, assign_lhs_rhs. quiet.
  - unfold tb_join, assign_val. quiet.
  - unfold tb_join_src, assign_val_src. quiet.
  - unfold tb_set. quiet.
Qed.

(** ** steps of the machine *)
Definition plain_op (o : kop T) : Prop :=
  match o with KRefSwap _ _ | KRefAssign _ _ => False | _ => True end.
Definition kgood (r : res (kstate T)) : Prop :=
  match r with Ok (e, lk, m) => Inv (own e) m /\ length lk = length e | UB k => not_ownership k end.

Lemma lstep_length e m o e' m' : lstep (e, m) o = Ok (e', m') ->
  length e' = length e \/ (is_ctor o = true /\ length e' = S (length e)).
Proof.
  intros E. destruct o; cbn [lstep is_ctor] in *;
  repeat match type of E with
  | context [live_obj e ?b] => destruct (live_obj e b) as [[? ?]|]
  | context [if cls_eqb ?a ?b then _ else _] => destruct (cls_eqb a b)
  | context [let (_, _) := ?x in _] => destruct x
  | context [match ?x with Ok _ => _ | UB _ => _ end] => destruct x as [[? ?]|]
  end; try discriminate;
  try (injection E as <- <-); rewrite ?app_length, ?set_nth_length; cbn [length]; try (left; reflexivity);
  try (right; split; [reflexivity|lia]).
Qed.

Lemma kstep_good e lk m o : Inv (own e) m -> length lk = length e -> plain_op o -> kgood (kstep (e, lk, m) o).
Proof.
  intros HI Hl Hp. destruct o as [locked c|c|a w| |]; cbn [kstep]; try contradiction.
  - destruct (ctor_compiles lk locked c); [|split; auto].
    pose proof (lstep_good e m c HI) as G. unfold good in G.
    destruct (lstep (e, m) c) as [[e' m']|k] eqn:E; [|exact G]. split; [exact G|].
    destruct (lstep_length _ _ _ _ _ E) as [L|[_ L]]; rewrite L.
    + now rewrite Nat.eqb_refl.
    + destruct (Nat.eqb_spec (S (length e)) (length e)); [lia|]. rewrite app_length. simpl. lia.
  - destruct (op_compiles lk c) eqn:Ec; [|split; auto].
    pose proof (lstep_good e m c HI) as G. unfold good in G.
    destruct (lstep (e, m) c) as [[e' m']|k] eqn:E; [|exact G]. split; [exact G|].
    destruct (lstep_length _ _ _ _ _ E) as [L|[X L]]; [congruence|].
    destruct c; simpl in X, Ec; discriminate.
  - destruct (live_obj e a) as [[c t]|] eqn:Ea; [|split; auto].
    destruct (do_write e a t w) as [r|] eqn:Ew; [|split; auto].
    pose proof (quiet_write _ _ _ _ _ _ _ HI Ea Ew) as Q. unfold quiet in Q.
    destruct (r m) as [[u m']|k]; [|exact Q]. split; auto. eapply Inv_skel; eauto.
Qed.
Lemma krun_good ops : forall e lk m, Inv (own e) m -> length lk = length e -> Forall plain_op ops ->
  kgood (krun ops (e, lk, m)).
Proof.
  induction ops as [|o ops IH]; intros e lk m HI Hl Hp; cbn [krun]; [split; auto|].
  apply Forall_cons_iff in Hp as [Ho Hp].
  pose proof (kstep_good e lk m o HI Hl Ho) as G. destruct (kstep (e, lk, m) o) as [[[e' lk'] m']|k]; [|exact G].
  destruct G. now apply IH.
Qed.

(** ** frame *)
Definition touches (o : kop T) : list nat :=
  match o with
  | KCtor _ c | KOp c => l_touches c
  | KWrite a _ => [a]
  | KRefSwap a b => [a; b]
  | KRefAssign a _ => [a]
  end.

Lemma kstep_keeps e lk m o e' lk' m' : kstep (e, lk, m) o = Ok (e', lk', m') ->
  keeps (blocks_of e (touches o)) m m' /\
  (forall a x, ~ In a (touches o) -> live_obj e a = Some x -> live_obj e' a = Some x) /\
  (forall a, (a < length lk)%nat -> nth_error lk' a = nth_error lk a).
Proof.
  intros E. destruct o as [locked c|c|a w|a b|a b]; cbn [kstep] in E.
  - destruct (ctor_compiles lk locked c); [|injection E as <- <- <-; split; [apply keeps_refl|auto]].
    destruct (lstep (e, m) c) as [[e1 m1]|k] eqn:E1; [|discriminate]. injection E as <- <- <-.
    destruct (lstep_frame _ _ _ _ _ E1). repeat split; try apply H; auto.
    intros a Ha. destruct (Nat.eqb _ _); auto. now apply nth_error_app1.
  - destruct (op_compiles lk c); [|injection E as <- <- <-; split; [apply keeps_refl|auto]].
    destruct (lstep (e, m) c) as [[e1 m1]|k] eqn:E1; [|discriminate]. injection E as <- <- <-.
    destruct (lstep_frame _ _ _ _ _ E1). repeat split; try apply H; auto.
  - destruct (live_obj e a) as [[c t]|] eqn:Ea; [|injection E as <- <- <-; split; [apply keeps_refl|auto]].
    destruct (do_write e a t w) as [r|] eqn:Ew; [|injection E as <- <- <-; split; [apply keeps_refl|auto]].
    destruct (r m) as [[u m1]|k] eqn:Er; [|discriminate]. injection E as <- <- <-.
    split; [|auto]. eapply keeps_weaken; [|eapply (conf_write _ _ _ _ _ Ew); eauto].
    intros b Hb. exists a, c, t. simpl. auto.
  - destruct (is_locked lk b); [injection E as <- <- <-; split; [apply keeps_refl|auto]|].
    destruct (live_obj e a) as [[c t]|] eqn:Ea; [|injection E as <- <- <-; split; [apply keeps_refl|auto]].
    destruct (live_obj e b) as [[c' t']|] eqn:Eb; [|injection E as <- <- <-; split; [apply keeps_refl|auto]].
    unfold tb_swap in E. injection E as <- <- <-. split; [apply keeps_refl|]. split; auto.
    intros a' x Ha Hx. simpl in Ha. rewrite !live_set; auto; intros ->; apply Ha; auto.
  - destruct (live_obj e a) as [[c t]|] eqn:Ea; [|injection E as <- <- <-; split; [apply keeps_refl|auto]].
    destruct (live_obj e b) as [[c' t']|] eqn:Eb; [|injection E as <- <- <-; split; [apply keeps_refl|auto]].
    injection E as <- <- <-. split; [apply keeps_refl|]. split; auto.
    intros a' x Ha Hx. rewrite live_set; auto. intros ->. apply Ha. simpl. auto.
Qed.

(** the storage of an object that is not touched *)
Definition same_block m m' (p : ptr) : Prop :=
  match p with Null => True | Ptr b _ => nth_error m' b = nth_error m b end.
Lemma kstep_frame e lk m o e' lk' m' a c t : Inv (own e) m ->
  kstep (e, lk, m) o = Ok (e', lk', m') -> live_obj e a = Some (c, t) -> ~ In a (touches o) ->
  live_obj e' a = Some (c, t) /\ same_block m m' (t_data t).
Proof.
  intros HI E Ha Hn. destruct (kstep_keeps _ _ _ _ _ _ _ E) as (K & F & _). split; [now apply F|].
  unfold same_block. destruct (t_data t) as [|b o1] eqn:Et; auto.
  apply K.
  - apply liveb_lt. pose proof (Inv_okptr _ _ _ _ _ HI Ha) as X. rewrite Et in X. exact X.
  - intros (x & c' & t' & Hi & Hx & Hb).
    assert (Hne : a <> x) by (intros ->; auto).
    pose proof (live_obj_apart _ _ _ _ _ _ _ _ HI Hne Ha Hx) as Hap. apply (Hap b); auto. rewrite Et. reflexivity.
Qed.
Lemma krun_frame ops a c t : forall e lk m e' lk' m', Inv (own e) m -> length lk = length e ->
  krun ops (e, lk, m) = Ok (e', lk', m') -> Forall plain_op ops -> live_obj e a = Some (c, t) ->
  Forall (fun o => ~ In a (touches o)) ops ->
  live_obj e' a = Some (c, t) /\ same_block m m' (t_data t).
Proof.
  induction ops as [|o ops IH]; intros e lk m e' lk' m' HI Hl E Hp Ha Hn; cbn [krun] in E.
  - injection E as <- <- <-. split; auto. unfold same_block. now destruct (t_data t).
  - apply Forall_cons_iff in Hp as [Ho Hp]. apply Forall_cons_iff in Hn as [Hno Hn].
    pose proof (kstep_good e lk m o HI Hl Ho) as G.
    destruct (kstep (e, lk, m) o) as [[[e1 lk1] m1]|k] eqn:E1; [|discriminate]. destruct G as [HI1 Hl1].
    destruct (kstep_frame _ _ _ _ _ _ _ _ _ _ HI E1 Ha Hno) as [Ha1 Hs1].
    destruct (IH _ _ _ _ _ _ HI1 Hl1 E Hp Ha1 Hn) as [Ha2 Hs2]. split; auto.
    unfold same_block in *. destruct (t_data t); auto. congruence.
Qed.

(** ** a locked object *)
Definition lengths m b : option nat := nth b (skel m) None.
Lemma lengths_live m b n : lengths m b = Some n <-> live m b (Z.of_nat n).
Proof.
  unfold lengths, live, skel. rewrite nth_nth_error_map || idtac.
  assert (E : nth b (map (option_map (length (A := option T))) m) None =
              match nth_error m b with Some (Some l) => Some (length l) | _ => None end).
  { revert m; induction b; intros [|x m]; simpl; auto; try (now destruct x). }
  rewrite E. destruct (nth_error m b) as [[l|]|]; split; try discriminate.
  - intros [= <-]. eauto.
  - intros (l' & [= <-] & Hn). f_equal. lia.
  - intros (l' & ? & _). discriminate.
  - intros (l' & ? & _). discriminate.
Qed.
Lemma same_block_lengths m m' b o : same_block m m' (Ptr b o) -> lengths m' b = lengths m b.
Proof.
  intros E. simpl in E. unfold lengths, skel.
  assert (X : forall m : mem T, nth b (map (option_map (length (A := option T))) m) None =
              match nth_error m b with Some (Some l) => Some (length l) | _ => None end).
  { clear. intros m; revert m; induction b; intros [|x m]; simpl; auto; try (now destruct x). }
  rewrite !X, E. reflexivity.
Qed.

(** what a locked object can become *)
Definition lock_rel (mv : Prop) m e' m' a c t : Prop :=
  nth_error e' a = Some None \/
  exists t', live_obj e' a = Some (c, t') /\ t_shape t' = t_shape t /\
    ((t_data t' = Null /\ mv) \/
     (t_data t' = t_data t /\ forall b o, t_data t = Ptr b o -> lengths m' b = lengths m b)).
Definition moves_from (a : nat) (o : kop T) : Prop := exists l, o = KCtor l (LMoveCtor a).

Lemma dead_stays e lk m o e' lk' m' a : kstep (e, lk, m) o = Ok (e', lk', m') ->
  nth_error e a = Some None -> nth_error e' a = Some None.
Proof.
  intros E Ha.
  assert (Hlt : (a < length e)%nat) by (apply nth_error_Some; congruence).
  assert (L : forall x, live_obj e x <> None -> x <> a).
  { intros x Hx ->. unfold live_obj in Hx. rewrite Ha in Hx. congruence. }
  assert (St : forall x y, live_obj e x <> None -> nth_error (set_nth x y e) a = Some None)
    by (intros x y Hx; rewrite nth_set_nth_other; auto).
  assert (St2 : forall x y x' y', live_obj e x <> None -> live_obj e x' <> None ->
                nth_error (set_nth x y (set_nth x' y' e)) a = Some None)
    by (intros x y x' y' Hx Hx'; rewrite nth_set_nth_other; auto).
  assert (LS : forall c e1 m1, lstep (e, m) c = Ok (e1, m1) -> nth_error e1 a = Some None).
  { intros c e1 m1 E1. destruct c; cbn [lstep] in E1;
    repeat match type of E1 with
    | context [live_obj e ?b] => let H := fresh in destruct (live_obj e b) as [[? ?]|] eqn:H
    | context [if cls_eqb ?a ?b then _ else _] => destruct (cls_eqb a b)
    | context [let (_, _) := ?x in _] => destruct x
    | context [match ?x with Ok _ => _ | UB _ => _ end] => destruct x as [[? ?]|]
    end; try discriminate;
    try (injection E1 as <- <-); rewrite ?nth_error_app1 by (rewrite ?set_nth_length; auto); auto;
    try (apply St; congruence); try (apply St2; congruence).
    }
  destruct o as [locked c|c|x w|x y|x y]; cbn [kstep] in E.
  - destruct (ctor_compiles lk locked c); [|now injection E as <- <- <-].
    destruct (lstep (e, m) c) as [[e1 m1]|k] eqn:E1; [|discriminate]. injection E as <- <- <-. eauto.
  - destruct (op_compiles lk c); [|now injection E as <- <- <-].
    destruct (lstep (e, m) c) as [[e1 m1]|k] eqn:E1; [|discriminate]. injection E as <- <- <-. eauto.
  - destruct (live_obj e x) as [[c t]|]; [|now injection E as <- <- <-].
    destruct (do_write e x t w) as [r|]; [|now injection E as <- <- <-].
    destruct (r m) as [[u m1]|]; [|discriminate]. now injection E as <- <- <-.
  - destruct (is_locked lk y); [now injection E as <- <- <-|].
    destruct (live_obj e x) as [[c t]|] eqn:Ex; [|now injection E as <- <- <-].
    destruct (live_obj e y) as [[c' t']|] eqn:Ey; [|now injection E as <- <- <-].
    unfold tb_swap in E. injection E as <- <- <-. apply St2; congruence.
  - destruct (live_obj e x) as [[c t]|] eqn:Ex; [|now injection E as <- <- <-].
    destruct (live_obj e y) as [[c' t']|] eqn:Ey; [|now injection E as <- <- <-].
    injection E as <- <- <-. apply St; congruence.
Qed.

Lemma live_set_same e a x : (a < length e)%nat -> live_obj (set_nth a (Some x) e) a = Some x.
Proof. intros H. unfold live_obj. now rewrite nth_set_nth_same. Qed.

Lemma skel_lengths m m' b : skel m' = skel m -> lengths m' b = lengths m b.
Proof. unfold lengths. now intros ->. Qed.

Lemma locked_nth lk a : nth_error lk a = Some true -> is_locked lk a = true.
Proof. unfold is_locked. revert a; induction lk as [|x lk IH]; intros [|a]; simpl; try discriminate; auto. now intros [= ->]. Qed.

Lemma kstep_locked e lk m o e' lk' m' a c t : Inv (own e) m -> length lk = length e -> plain_op o ->
  kstep (e, lk, m) o = Ok (e', lk', m') -> nth_error lk a = Some true -> live_obj e a = Some (c, t) ->
  lock_rel (moves_from a o) m e' m' a c t.
Proof.
  intros HI Hl Hp E Hk Ha.
  destruct (in_dec Nat.eq_dec a (touches o)) as [Hi|Hn].
  2:{ destruct (kstep_frame _ _ _ _ _ _ _ _ _ _ HI E Ha Hn) as [H1 H2]. right. exists t. split; auto. split; auto.
      right. split; auto. intros b o1 Et. rewrite Et in H2. eapply same_block_lengths; eauto. }
  pose proof (locked_nth _ _ Hk) as Hlk.
  assert (Hlt : (a < length e)%nat) by (eapply live_obj_own; eauto).
  assert (Same : e' = e -> m' = m -> lock_rel (moves_from a o) m e' m' a c t).
  { intros -> ->. right. exists t. auto. }
  destruct o as [locked k|k|x w| |]; try contradiction; cbn [touches] in Hi; cbn [kstep] in E.
  - destruct (ctor_compiles lk locked k) eqn:Ec; [|injection E as <- <- <-; apply Same; auto].
    destruct k; cbn [l_touches] in Hi; cbn [ctor_compiles is_ctor] in Ec; try contradiction; try discriminate.
    destruct Hi as [->|[]].
    cbn [lstep] in E. rewrite Ha in E.
    assert (X : exists n t', do_move_ctor c t = (n, t') /\ t_shape t' = t_shape t /\ t_data t' = Null)
      by (destruct c; eexists _, _; split; try reflexivity; auto).
    destruct X as (n & t' & Em & Es & En). rewrite Em in E. injection E as <- _ <-. right. exists t'.
    split; [apply live_app; now apply live_set_same|]. split; auto. left. split; auto. exists locked. reflexivity.
  - destruct (op_compiles lk k) eqn:Ec; [|injection E as <- <- <-; apply Same; auto].
    destruct (lstep (e, m) k) as [[e1 m1]|] eqn:E1; [|discriminate]. injection E as <- <- <-.
    destruct k; cbn [l_touches In] in Hi; cbn [op_compiles is_ctor] in Ec; try contradiction; try discriminate;
      repeat match goal with H : _ \/ _ |- _ => destruct H | H : False |- _ => contradiction end; subst;
      try (rewrite Hlk in Ec; cbn in Ec; rewrite ?andb_false_r in Ec; discriminate).
    + cbn [lstep] in E1. rewrite Ha in E1.
      pose proof (quiet_fill (t_data t) (t_size t) x m (Inv_okptr _ _ _ _ _ HI Ha)) as Q. unfold quiet in Q.
      unfold tb_fill in E1. destruct (assign_val (t_data t) (t_size t) OpCpy x m) as [[u m2]|]; [|discriminate].
      injection E1 as <- <-. right. exists t. split; auto. split; auto. right. split; auto.
      intros b o _. now apply skel_lengths.
    + cbn [lstep] in E1. rewrite Ha in E1. destruct (do_destroy c t m) as [[u m2]|]; [|discriminate].
      injection E1 as <- <-. left. now apply nth_set_nth_same.
  - destruct Hi as [->|[]]. rewrite Ha in E. destruct (do_write e a t w) as [r|] eqn:Ew; [|injection E as <- <- <-; apply Same; auto].
    pose proof (quiet_write _ _ _ _ _ _ _ HI Ha Ew) as Q. unfold quiet in Q.
    destruct (r m) as [[u m1]|]; [|discriminate]. injection E as <- <- <-.
    right. exists t. split; auto. split; auto. right. split; auto. intros b o _. now apply skel_lengths.
Qed.

Lemma lock_rel_trans (mv1 mv2 mv : Prop) m e1 m1 e2 m2 a c t t1 : (mv1 -> mv) -> (mv2 -> mv) ->
  live_obj e1 a = Some (c, t1) -> t_shape t1 = t_shape t ->
  ((t_data t1 = Null /\ mv1) \/ (t_data t1 = t_data t /\ forall b o, t_data t = Ptr b o -> lengths m1 b = lengths m b)) ->
  lock_rel mv2 m1 e2 m2 a c t1 -> lock_rel mv m e2 m2 a c t.
Proof.
  intros M1 M2 H1 Hs Hd [|(t2 & H2 & Hs2 & Hd2)]; [left; auto|]. right. exists t2. split; auto. split; [congruence|].
  destruct Hd2 as [[]|[E2 L2]]; auto. destruct Hd as [[E1 ?]|[E1 L1]]; [left; split; [congruence|auto]|].
  right. split; [congruence|]. intros b o Eb. rewrite <- (L1 b o Eb). apply (L2 b o). congruence.
Qed.
Lemma krun_dead ops a : forall e lk m e' lk' m', krun ops (e, lk, m) = Ok (e', lk', m') ->
  nth_error e a = Some None -> nth_error e' a = Some None.
Proof.
  induction ops as [|o ops IH]; intros e lk m e' lk' m' E Ha; cbn [krun] in E; [now injection E as <- _ _|].
  destruct (kstep (e, lk, m) o) as [[[e1 lk1] m1]|] eqn:E1; [|discriminate].
  eapply IH; [exact E|]. eapply dead_stays; eauto.
Qed.
Lemma krun_locked ops a c : forall t e lk m e' lk' m', Inv (own e) m -> length lk = length e -> Forall plain_op ops ->
  krun ops (e, lk, m) = Ok (e', lk', m') -> nth_error lk a = Some true -> live_obj e a = Some (c, t) ->
  lock_rel (Exists (moves_from a) ops) m e' m' a c t.
Proof.
  induction ops as [|o ops IH]; intros t e lk m e' lk' m' HI Hl Hp E Hk Ha; cbn [krun] in E.
  - injection E as <- <- <-. right. exists t. auto.
  - apply Forall_cons_iff in Hp as [Ho Hp].
    pose proof (kstep_good e lk m o HI Hl Ho) as G.
    destruct (kstep (e, lk, m) o) as [[[e1 lk1] m1]|k] eqn:E1; [|discriminate]. destruct G as [HI1 Hl1].
    destruct (kstep_locked _ _ _ _ _ _ _ _ _ _ HI Hl Ho E1 Hk Ha) as [D|(t1 & H1 & Hs & Hd)].
    + left. eapply krun_dead; eauto.
    + eapply (lock_rel_trans _ (Exists (moves_from a) ops)); [apply Exists_cons_hd|apply Exists_cons_tl|exact H1|exact Hs|exact Hd|].
      eapply IH; eauto.
      destruct (kstep_keeps _ _ _ _ _ _ _ E1) as (_ & _ & F). rewrite F; auto.
      apply nth_error_Some. congruence.
Qed.
End P.

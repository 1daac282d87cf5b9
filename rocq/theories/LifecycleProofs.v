(** * Proofs about Lifecycle.v *)
From Verif Require Import Mem Scalar MemSpec MemLemmas Lique LiqueProofs LiqueProofs2 Lifecycle.

Section P.
Context {T : Type} `{NT : Num T}.
Implicit Types (m : mem T) (e : list obj).

(** kinds of UB that are not ownership errors *)
Definition not_ownership (k : ub) : Prop := k <> BadFree /\ k <> UseAfterFree.

(** a program that neither allocates nor frees, and whose failures are not ownership errors *)
Definition quiet {A} (c : M T A) (m : mem T) : Prop :=
  match c m with Ok (_, m') => skel m' = skel m | UB k => not_ownership k end.

Definition liveb m b : Prop := exists l, nth_error m b = Some (Some l).
Definition okptr m (p : ptr) : Prop := match p with Null => True | Ptr b _ => liveb m b end.

Lemma okptr_skel m m' p : skel m' = skel m -> okptr m p -> okptr m' p.
Proof. intros Hs. destruct p; simpl; auto. intros H. exact (skel_live m m' b (eq_sym Hs) H). Qed.
Lemma quiet_load p i m : okptr m p -> quiet (load p i) m.
Proof.
  unfold quiet, load. destruct p as [|b o]; simpl; [split; discriminate|].
  intros [l ->]. destruct (znth l (o + i)) as [[x|]|]; auto; split; discriminate.
Qed.
Lemma quiet_store p i x m : okptr m p -> quiet (store p i x) m.
Proof.
  intros H. unfold quiet. destruct (elem m p i) eqn:E.
  - rewrite store_mset by congruence. apply skel_mset.
  - unfold store, elem, cell in *. destruct p as [|b o]; [split; discriminate|]. destruct H as [l Hl]. rewrite Hl in *.
    rewrite E. split; discriminate.
Qed.
Lemma quiet_bind A B (c : M T A) (f : A -> M T B) m :
  quiet c m -> (forall a m', skel m' = skel m -> quiet (f a) m') -> quiet (bind c f) m.
Proof.
  unfold quiet, bind. destruct (c m) as [[a m']|k]; auto. intros Hs Hf. specialize (Hf a m' Hs).
  destruct (f a m') as [[b m2]|k]; auto. congruence.
Qed.
Lemma quiet_mfor lo hi (body : Z -> M T unit) m :
  (forall i m', skel m' = skel m -> quiet (body i) m') -> quiet (mfor lo hi body) m.
Proof.
  intros H. unfold mfor, mfold. generalize (Z.to_nat (hi - lo)) as n. intros n.
  assert (G : forall n i m', skel m' = skel m -> quiet (mfold_n n i (fun i _ => body i) tt) m').
  { clear n. induction n; intros i m' Hs; simpl; [reflexivity|].
    apply quiet_bind; auto. intros [] m2 Hs2. apply IHn. congruence. }
  apply G. reflexivity.
Qed.
Lemma quiet_copy dst n src m : okptr m dst -> okptr m src -> quiet (detail_copy dst n src) m.
Proof.
  intros H1 H2. apply quiet_mfor. intros i m' Hs. apply quiet_bind.
  - apply quiet_load. eapply okptr_skel; eauto.
  - intros x m2 Hs2. apply quiet_store. eapply okptr_skel; [|eauto]. congruence.
Qed.
Lemma quiet_copy_list dst n l m : okptr m dst -> quiet (detail_copy_list dst n l) m.
Proof.
  intros H1. apply quiet_mfor. intros i m' Hs. destruct (znth l i).
  - apply quiet_store. eapply okptr_skel; eauto.
  - split; discriminate.
Qed.
Lemma quiet_fill dst n x m : okptr m dst -> quiet (assign_val dst n OpCpy x) m.
Proof. intros H1. apply quiet_mfor. intros i m' Hs. apply quiet_store. eapply okptr_skel; eauto. Qed.

(** ** ownership: objects' pointers against the live blocks *)
Definition optr (o : obj) : ptr := match o with Some (_, t) => t_data t | None => Null end.
Definition own e : list ptr := map optr e.

Definition Inv (ps : list ptr) (m : mem T) : Prop :=
  (forall a p, nth_error ps a = Some p -> p = Null \/ exists b, p = Ptr b 0 /\ liveb m b) /\
  (forall a a' b, nth_error ps a = Some (Ptr b 0) -> nth_error ps a' = Some (Ptr b 0) -> a = a') /\
  (forall b, liveb m b -> exists a, nth_error ps a = Some (Ptr b 0)).

Lemma liveb_skel m m' b : skel m' = skel m -> (liveb m' b <-> liveb m b).
Proof. intros Hs. split; intros H; [exact (skel_live _ _ b Hs H)|exact (skel_live _ _ b (eq_sym Hs) H)]. Qed.
Lemma Inv_skel ps m m' : skel m' = skel m -> Inv ps m -> Inv ps m'.
Proof.
  intros Hs (A & B & C). split; [|split]; auto.
  - intros a p H. destruct (A a p H) as [|(b & ? & ?)]; auto. right. exists b. split; auto. now apply (liveb_skel m m').
  - intros b H. apply C. now apply (liveb_skel m m').
Qed.
Lemma liveb_lt m b : liveb m b -> (b < length m)%nat.
Proof. intros [l H]. apply nth_error_Some. congruence. Qed.
Lemma liveb_alloc m n b : liveb (m ++ [Some (repeat None n)]) b <-> liveb m b \/ b = length m.
Proof.
  unfold liveb. destruct (Nat.lt_trichotomy b (length m)) as [H|[->|H]].
  - rewrite nth_error_app1 by auto. split; auto. intros [|]; auto. lia.
  - rewrite nth_error_app2, Nat.sub_diag by lia. simpl. split; eauto.
  - split.
    + intros [l Hl]. exfalso. rewrite nth_error_app2 in Hl by lia.
      destruct (b - length m)%nat as [|[|]] eqn:E; simpl in Hl; try discriminate; lia.
    + intros [[l Hl]|]; [|lia]. apply nth_error_None in H as Hx || idtac.
      assert (b < length m)%nat by (apply nth_error_Some; congruence). lia.
Qed.

(** push a null owner *)
Lemma nth_push A (l : list A) x a : nth_error (l ++ [x]) a = if (a =? length l)%nat then Some x else nth_error l a.
Proof.
  destruct (Nat.eqb_spec a (length l)) as [->|Hn].
  - now rewrite nth_error_app2, Nat.sub_diag by lia.
  - destruct (Nat.lt_ge_cases a (length l)).
    + now rewrite nth_error_app1 by auto.
    + rewrite nth_error_app2 by auto. destruct (a - length l)%nat as [|[|]] eqn:E; simpl; try lia;
      symmetry; apply nth_error_None; auto.
Qed.
Lemma Inv_push ps m : Inv ps m -> Inv (ps ++ [Null]) m.
Proof.
  intros (A & B & C). split; [|split].
  - intros a p. rewrite nth_push. destruct (Nat.eqb_spec a (length ps)); [intros [= <-]; auto|apply A].
  - intros a a' b. rewrite !nth_push. destruct (Nat.eqb_spec a (length ps)), (Nat.eqb_spec a' (length ps)); try discriminate. apply B.
  - intros b Hb. destruct (C b Hb) as [a Ha]. exists a. rewrite nth_push.
    destruct (Nat.eqb_spec a (length ps)); auto. assert (a < length ps)%nat by (apply nth_error_Some; congruence). lia.
Qed.
Lemma nth_set A (l : list A) x a a' : (a < length l)%nat ->
  nth_error (set_nth a x l) a' = if (a =? a')%nat then Some x else nth_error l a'.
Proof.
  intros H. destruct (Nat.eqb_spec a a') as [<-|]; [now apply nth_set_nth_same|now apply nth_set_nth_other].
Qed.
(** allocate for the owner [a], which is null *)
Lemma Inv_fresh ps m a n : Inv ps m -> nth_error ps a = Some Null ->
  Inv (set_nth a (Ptr (length m) 0) ps) (m ++ [Some (repeat None n)]).
Proof.
  intros (A & B & C) Ha. assert (Hl : (a < length ps)%nat) by (apply nth_error_Some; congruence).
  assert (F : forall a' , nth_error ps a' <> Some (Ptr (length m) 0)).
  { intros a' H. destruct (A a' _ H) as [|(b & [= <-] & Hb)]; [discriminate|]. apply liveb_lt in Hb. lia. }
  split; [|split].
  - intros a' p. rewrite nth_set by auto. destruct (Nat.eqb_spec a a').
    + intros [= <-]. right. exists (length m). split; auto. apply liveb_alloc. auto.
    + intros H. destruct (A a' p H) as [|(b & ? & ?)]; auto. right. exists b. split; auto. apply liveb_alloc. auto.
  - intros a1 a2 b. rewrite !nth_set by auto.
    destruct (Nat.eqb_spec a a1), (Nat.eqb_spec a a2); intros H1 H2.
    + congruence.
    + injection H1 as <-. now apply F in H2.
    + injection H2 as <-. now apply F in H1.
    + eauto.
  - intros b Hb. apply liveb_alloc in Hb as [Hb| ->].
    + destruct (C b Hb) as [a' Ha']. exists a'. rewrite nth_set by auto. destruct (Nat.eqb_spec a a'); auto. congruence.
    + exists a. rewrite nth_set by auto. now rewrite Nat.eqb_refl.
Qed.
Lemma liveb_released m b b' : liveb m b -> (liveb (set_nth b None m) b' <-> liveb m b' /\ b' <> b).
Proof.
  intros Hb. pose proof (liveb_lt _ _ Hb). unfold liveb. rewrite nth_set by auto.
  destruct (Nat.eqb_spec b b'); split.
  - intros [l Hl]. discriminate.
  - intros [_ Hn]. congruence.
  - intros Hl. split; auto.
  - tauto.
Qed.
(** release what the owner [a] has *)
Lemma Inv_release ps m a p : Inv ps m -> nth_error ps a = Some p ->
  free p m = Ok (tt, released m p) /\ Inv (set_nth a Null ps) (released m p).
Proof.
  intros (A & B & C) Ha. assert (Hl : (a < length ps)%nat) by (apply nth_error_Some; congruence).
  destruct (A a p Ha) as [->|(b & -> & Hb)].
  - split; [reflexivity|]. simpl. rewrite set_nth_id by auto. split; auto.
  - split. { apply free_owned. simpl. auto. }
    simpl. split; [|split].
    + intros a' p. rewrite nth_set by auto. destruct (Nat.eqb_spec a a'); [intros [= <-]; auto|].
      intros H. destruct (A a' p H) as [|(b' & -> & ?)]; auto. right. exists b'. split; auto.
      apply liveb_released; auto. split; auto. intros ->. apply n. eapply B; eauto.
    + intros a1 a2 b'. rewrite !nth_set by auto.
      destruct (Nat.eqb_spec a a1), (Nat.eqb_spec a a2); try discriminate. apply B.
    + intros b' Hb'. apply liveb_released in Hb' as [Hb' Hn]; auto. destruct (C b' Hb') as [a' Ha'].
      exists a'. rewrite nth_set by auto. destruct (Nat.eqb_spec a a'); auto. congruence.
Qed.
(** exchange two owners' pointers *)
Lemma Inv_swap ps m a b p q : Inv ps m -> nth_error ps a = Some p -> nth_error ps b = Some q ->
  Inv (set_nth a q (set_nth b p ps)) m.
Proof.
  intros (A & B & C) Ha Hb.
  assert (Hla : (a < length ps)%nat) by (apply nth_error_Some; congruence).
  assert (Hlb : (b < length ps)%nat) by (apply nth_error_Some; congruence).
  set (sw := fun x => if (a =? x)%nat then b else if (b =? x)%nat then a else x).
  assert (E : forall x, nth_error (set_nth a q (set_nth b p ps)) x = nth_error ps (sw x)).
  { intros x. rewrite nth_set by (rewrite set_nth_length; auto). unfold sw.
    destruct (Nat.eqb_spec a x); auto. rewrite nth_set by auto. destruct (Nat.eqb_spec b x); auto. }
  assert (I : forall x y, sw x = sw y -> x = y).
  { intros x y. unfold sw. destruct (Nat.eqb_spec a x), (Nat.eqb_spec a y), (Nat.eqb_spec b x), (Nat.eqb_spec b y); lia. }
  assert (V : forall x, sw (sw x) = x).
  { intros x. unfold sw. destruct (Nat.eqb_spec a x), (Nat.eqb_spec b x); subst;
    repeat match goal with |- context [(?u =? ?v)%nat] => destruct (Nat.eqb_spec u v) end; lia. }
  split; [|split].
  - intros x r. rewrite E. apply A.
  - intros x y c. rewrite !E. intros H1 H2. apply I. eapply B; eauto.
  - intros c Hc. destruct (C c Hc) as [x Hx]. exists (sw x). now rewrite E, V.
Qed.

(** ** one step *)
Lemma own_app e x : own (e ++ [x]) = own e ++ [optr x].
Proof. unfold own. now rewrite map_app. Qed.
Lemma own_set e a x : own (set_nth a x e) = set_nth a (optr x) (own e).
Proof. apply map_set_nth. Qed.
Lemma live_obj_own e a c t : live_obj e a = Some (c, t) -> nth_error (own e) a = Some (t_data t) /\ (a < length e)%nat.
Proof.
  unfold live_obj, own. rewrite nth_error_map. destruct (nth_error e a) as [[[c' t']|]|] eqn:E; try discriminate.
  intros [= -> ->]. split; auto. apply nth_error_Some. congruence.
Qed.
Lemma Inv_okptr e m a c t : Inv (own e) m -> live_obj e a = Some (c, t) -> okptr m (t_data t).
Proof.
  intros (A & _) H. apply live_obj_own in H as [H _]. destruct (A _ _ H) as [->|(b & -> & Hb)]; simpl; auto.
Qed.

Definition good (r : res lstate) : Prop :=
  match r with Ok (e, m) => Inv (own e) m | UB k => not_ownership k end.

Lemma Inv_push_fresh ps m n : Inv ps m -> Inv (ps ++ [Ptr (length m) 0]) (m ++ [Some (repeat None n)]).
Proof.
  intros H. apply Inv_push in H. apply (Inv_fresh _ _ (length ps) n) in H.
  2:{ rewrite nth_push, Nat.eqb_refl. auto. }
  replace (ps ++ [Ptr (length m) 0]) with (set_nth (length ps) (Ptr (length m) 0) (ps ++ [Null])); auto.
  clear. induction ps; simpl; auto. now f_equal.
Qed.

(** every constructor: allocate, then only quiet actions *)
Lemma ctor_good e m c n (k : ptr -> M T tensor) :
  Inv (own e) m ->
  (forall p m', okptr m' p -> keeps (fun _ => False) m m' -> quiet (k p) m' /\ forall t m2, k p m' = Ok (t, m2) -> t_data t = p) ->
  good (match (let* p := alloc n in k p) m with Ok (t, m') => Ok (e ++ [Some (c, t)], m') | UB u => UB u end).
Proof.
  intros HI Hk. unfold bind, alloc. set (m1 := m ++ _).
  destruct (Hk (Ptr (length m) 0) m1) as [Hq Hp].
  { apply liveb_alloc. auto. } { apply keeps_app. }
  unfold quiet in Hq. destruct (k (Ptr (length m) 0) m1) as [[t m']|u] eqn:E; simpl; auto.
  rewrite own_app. simpl. rewrite (Hp _ _ eq_refl). eapply Inv_skel; [apply Hq|]. now apply Inv_push_fresh.
Qed.
Lemma okptr_keeps m m' p : keeps (fun _ => False) m m' -> okptr m p -> okptr m' p.
Proof.
  intros [_ H]. destruct p; simpl; auto. intros Hb. pose proof (liveb_lt _ _ Hb). destruct Hb as [l Hl].
  exists l. rewrite H; auto.
Qed.

Lemma quiet_bind_ret A (c : M T unit) (t : A) m : quiet c m -> quiet (bind c (fun _ => ret t)) m.
Proof. intros. apply quiet_bind; auto. intros. reflexivity. Qed.
Lemma bind_ret_data A (c : M T unit) (t : A) m t' m2 : bind c (fun _ => ret t) m = Ok (t', m2) -> t' = t.
Proof. unfold bind, ret. destruct (c m) as [[? ?]|]; congruence. Qed.

Ltac ctor := apply ctor_good; auto; intros p m' Hp Hk; split;
  [first [reflexivity
         | apply quiet_bind_ret; first
           [ apply quiet_fill; simpl; auto | apply quiet_copy_list; simpl; auto
           | apply quiet_copy; simpl; auto ]]
  | let E := fresh in intros t' m2 E; first [apply bind_ret_data in E; subst; reflexivity | unfold ret in E; injection E as <- _; reflexivity]].

Lemma step_new e m c d h w : Inv (own e) m ->
  good (match do_new c d h w m with Ok (t, m') => Ok (e ++ [Some (c, t)], m') | UB k => UB k end).
Proof. intros HI. destruct c; cbn [do_new do_new_fill do_new_list do_copy_ctor do_copy_assign do_move_assign do_resize]; [unfold vec_new|unfold mat_new|unfold ten_new, ten_shape_new]; ctor. Qed.
Lemma step_new_fill e m c d h w x : Inv (own e) m ->
  good (match do_new_fill c d h w x m with Ok (t, m') => Ok (e ++ [Some (c, t)], m') | UB k => UB k end).
Proof. intros HI. destruct c; cbn [do_new do_new_fill do_new_list do_copy_ctor do_copy_assign do_move_assign do_resize]; [unfold vec_fill|unfold mat_fill|unfold ten_fill, ten_shape_fill]; ctor. Qed.
Lemma step_new_list e m c l : Inv (own e) m ->
  good (match do_new_list c l m with Ok (t, m') => Ok (e ++ [Some (c, t)], m') | UB k => UB k end).
Proof.
  intros HI. destruct c; cbn [do_new_list].
  - unfold vec_of_list. ctor.
  - simpl. rewrite own_app. now apply Inv_push.
  - unfold ten_of_list. ctor.
Qed.
Lemma step_copy_ctor e m c t : Inv (own e) m -> okptr m (t_data t) ->
  good (match do_copy_ctor c t m with Ok (t, m') => Ok (e ++ [Some (c, t)], m') | UB k => UB k end).
Proof.
  intros HI Ht. destruct c; cbn [do_new do_new_fill do_new_list do_copy_ctor do_copy_assign do_move_assign do_resize]; [unfold vec_copy_ctor|unfold mat_copy_ctor|unfold ten_copy_ctor];
  apply ctor_good; auto; intros p m' Hp Hk; pose proof (okptr_keeps _ _ _ Hk Ht);
  (split; [apply quiet_bind_ret, quiet_copy; simpl; auto|intros t' m2 E; apply bind_ret_data in E; now subst]).
Qed.

Lemma set_nth_twice A (l : list A) a x y : set_nth a x (set_nth a y l) = set_nth a x l.
Proof. revert a; induction l as [|h l IH]; intros [|a]; simpl; auto. now f_equal. Qed.

(** release then allocate then quiet actions, for the owner [a] *)
Lemma realloc_good e m c a t n (k : ptr -> M T tensor) :
  Inv (own e) m -> live_obj e a = Some (c, t) ->
  (forall p m', okptr m' p -> keeps (owns_block (t_data t)) m m' -> quiet (k p) m' /\ forall t m2, k p m' = Ok (t, m2) -> t_data t = p) ->
  good (match (free (t_data t) ;;; let* p := alloc n in k p) m with
        | Ok (t, m') => Ok (set_nth a (Some (c, t)) e, m') | UB u => UB u end).
Proof.
  intros HI Ho Hk. destruct (live_obj_own _ _ _ _ Ho) as [Hp Hl].
  destruct (Inv_release _ _ _ _ HI Hp) as [Ef HI1].
  unfold bind. rewrite Ef. unfold alloc. set (m1 := released m (t_data t)) in *. set (m2 := m1 ++ _).
  destruct (Hk (Ptr (length m1) 0) m2) as [Hq Hd].
  { apply liveb_alloc. auto. }
  { eapply keeps_trans; [apply keeps_released|]. apply (keeps_weaken (fun _ => False)); [tauto|apply keeps_app]. }
  unfold quiet in Hq. destruct (k (Ptr (length m1) 0) m2) as [[t' m']|u] eqn:E; simpl; auto.
  rewrite own_set. simpl. rewrite (Hd _ _ eq_refl). eapply Inv_skel; [apply Hq|].
  apply (Inv_fresh _ _ a (Z.to_nat n)) in HI1.
  - rewrite set_nth_twice in HI1. exact HI1.
  - rewrite nth_set, Nat.eqb_refl; auto. unfold own. now rewrite map_length.
Qed.

Lemma step_resize e m c a t d h w : Inv (own e) m -> live_obj e a = Some (c, t) ->
  good (match do_resize c t d h w m with Ok (n, m') => Ok (set_nth a (Some (c, n)) e, m') | UB k => UB k end).
Proof.
  intros HI Ho. destruct c; cbn [do_new do_new_fill do_new_list do_copy_ctor do_copy_assign do_move_assign do_resize]; [unfold vec_resize|unfold mat_resize|unfold ten_resize];
  (eapply realloc_good; eauto; intros p m' Hp Hk; split; [reflexivity|intros t' m2 E; unfold ret in E; injection E as <- _; reflexivity]).
Qed.

Lemma live_obj_apart e m a b c t c' t' : Inv (own e) m -> a <> b ->
  live_obj e a = Some (c, t) -> live_obj e b = Some (c', t') -> apart (t_data t) (t_data t').
Proof.
  intros (A & B & _) Hab Ha Hb x Hx Hy. apply live_obj_own in Ha as [Ha _]. apply live_obj_own in Hb as [Hb _].
  destruct (A _ _ Ha) as [E|(b1 & E & _)]; rewrite E in *; [auto|].
  destruct (A _ _ Hb) as [E'|(b2 & E' & _)]; rewrite E' in *; [auto|].
  simpl in Hx, Hy. subst x b2. apply Hab. eapply B; eauto.
Qed.
Lemma okptr_keeps_apart m m' p q : keeps (owns_block p) m m' -> apart p q -> okptr m q -> okptr m' q.
Proof.
  intros [_ H] Ha. destruct q; simpl; auto. intros Hb. pose proof (liveb_lt _ _ Hb). destruct Hb as [l Hl].
  exists l. rewrite H; auto. intros X. apply (Ha b); simpl; auto.
Qed.
Lemma set_same e a c t : live_obj e a = Some (c, t) -> set_nth a (Some (c, t)) e = e.
Proof.
  unfold live_obj. intros H. apply set_nth_id. destruct (nth_error e a) as [[[c1 t1]|]|]; try discriminate. injection H as -> ->. reflexivity.
Qed.

Lemma step_copy_assign e m c a b t t' : Inv (own e) m ->
  live_obj e a = Some (c, t) -> live_obj e b = Some (c, t') ->
  good (match do_copy_assign c (Nat.eqb a b) t t' m with
        | Ok (n, m') => Ok (set_nth a (Some (c, n)) e, m') | UB k => UB k end).
Proof.
  intros HI Ha Hb. destruct (Nat.eqb_spec a b) as [<-|Hab].
  - assert (E : do_copy_assign c true t t' m = Ok (t, m)) by now destruct c.
    rewrite E. simpl. rewrite (set_same e a c t) by auto. auto.
  - pose proof (live_obj_apart _ _ _ _ _ _ _ _ HI Hab Ha Hb) as Hap.
    pose proof (Inv_okptr _ _ _ _ _ HI Hb) as Hok.
    destruct c; cbn [do_new do_new_fill do_new_list do_copy_ctor do_copy_assign do_move_assign do_resize]; [unfold vec_copy_assign|unfold mat_copy_assign|unfold ten_copy_assign];
    (eapply realloc_good; eauto; intros p m' Hp Hk; pose proof (okptr_keeps_apart _ _ _ _ Hk Hap Hok); split;
     [apply quiet_bind_ret, quiet_copy; simpl; auto|intros t2 m2 E; apply bind_ret_data in E; now subst]).
Qed.

Lemma set_nth_comm A (l : list A) a b x y : a <> b -> set_nth a x (set_nth b y l) = set_nth b y (set_nth a x l).
Proof.
  revert a b; induction l as [|h l IH]; intros [|a] [|b]; simpl; intros; auto; try congruence. f_equal. apply IH. congruence.
Qed.

Lemma step_move_assign e m c a b t t' : Inv (own e) m ->
  live_obj e a = Some (c, t) -> live_obj e b = Some (c, t') ->
  good (match do_move_assign c (Nat.eqb a b) t t' m with
        | Ok ((n, n'), m') => Ok (set_nth a (Some (c, n)) (set_nth b (Some (c, n')) e), m')
        | UB k => UB k end).
Proof.
  intros HI Ha Hb. destruct (Nat.eqb_spec a b) as [<-|Hab].
  - assert (E : do_move_assign c true t t' m = Ok ((t, t'), m)) by now destruct c.
    rewrite E. simpl. rewrite set_nth_twice, (set_same e a c t) by auto. auto.
  - destruct (live_obj_own _ _ _ _ Ha) as [Hp Hl]. destruct (live_obj_own _ _ _ _ Hb) as [Hpb Hlb].
    destruct (Inv_release _ _ _ _ HI Hp) as [Ef HI1].
    assert (E : exists n n', do_move_assign c false t t' m = Ok ((n, n'), released m (t_data t)) /\
                 t_data n = t_data t' /\ t_data n' = Null).
    { destruct c; cbn [do_new do_new_fill do_new_list do_copy_ctor do_copy_assign do_move_assign do_resize]; [unfold vec_move_assign|unfold mat_move_assign|unfold ten_move_assign];
      rewrite (bind_eq _ _ _ _ _ _ _ Ef); eexists _, _; (split; [reflexivity|auto]). }
    destruct E as (n & n' & -> & En & En'). simpl. rewrite !own_set. simpl. rewrite En, En'.
    assert (Hlo : (a < length (own e))%nat) by (unfold own; now rewrite map_length).
    apply (Inv_swap _ _ a b Null (t_data t')) in HI1.
    + rewrite (set_nth_comm _ (own e) b a) in HI1 by auto. rewrite set_nth_twice in HI1. exact HI1.
    + now rewrite nth_set, Nat.eqb_refl.
    + rewrite nth_set by auto. destruct (Nat.eqb_spec a b); [congruence|auto].
Qed.

Theorem lstep_good e m o : Inv (own e) m -> good (lstep (e, m) o).
Proof.
  intros HI. destruct o; cbn [lstep].
  - simpl. rewrite own_app. now apply Inv_push.
  - now apply step_new.
  - now apply step_new_fill.
  - now apply step_new_list.
  - destruct (live_obj e src) as [[c t]|] eqn:E; [|exact HI]. apply step_copy_ctor; auto. eapply Inv_okptr; eauto.
  - destruct (live_obj e src) as [[c t]|] eqn:E; [|exact HI].
    assert (X : exists n t', do_move_ctor c t = (n, t') /\ t_data n = t_data t /\ t_data t' = Null)
      by (destruct c; eexists _, _; split; try reflexivity; auto).
    destruct X as (n & t' & -> & En & Et). simpl. rewrite own_app, own_set. simpl. rewrite En, Et.
    destruct (live_obj_own _ _ _ _ E) as [Hp Hl].
    assert (Hlo : (src < length (own e))%nat) by (unfold own; now rewrite map_length).
    pose proof (Inv_push _ _ HI) as H1.
    apply (Inv_swap _ _ src (length (own e)) (t_data t) Null) in H1.
    + replace (set_nth src Null (own e) ++ [t_data t])
        with (set_nth src Null (set_nth (length (own e)) (t_data t) (own e ++ [Null]))); auto.
      clear - Hlo. generalize dependent src. induction (own e) as [|p l IH]; intros src Hlo; simpl in *; [lia|].
      destruct src; simpl.
      * f_equal. clear. induction l; simpl; auto. now f_equal.
      * f_equal. apply IH. lia.
    + rewrite nth_push. destruct (Nat.eqb_spec src (length (own e))); [lia|auto].
    + now rewrite nth_push, Nat.eqb_refl.
  - destruct (live_obj e dst) as [[c t]|] eqn:Ea; [|exact HI].
    destruct (live_obj e src) as [[c' t']|] eqn:Eb; [|exact HI].
    destruct (cls_eqb c c') eqn:Ec; [|exact HI].
    assert (c = c') by (destruct c, c'; simpl in Ec; congruence). subst c'.
    now apply step_copy_assign.
  - destruct (live_obj e dst) as [[c t]|] eqn:Ea; [|exact HI].
    destruct (live_obj e src) as [[c' t']|] eqn:Eb; [|exact HI].
    destruct (cls_eqb c c') eqn:Ec; [|exact HI].
    assert (c = c') by (destruct c, c'; simpl in Ec; congruence). subst c'.
    now apply step_move_assign.
  - destruct (live_obj e a) as [[c t]|] eqn:E; [|exact HI]. now apply step_resize.
  - destruct (live_obj e a) as [[c t]|] eqn:E; [|exact HI]. simpl. rewrite own_set. simpl.
    replace (t_data (do_reshape c t d h w)) with (t_data t) by now destruct c.
    destruct (live_obj_own _ _ _ _ E) as [Hp _]. rewrite set_nth_id; auto.
  - destruct (live_obj e a) as [[c t]|] eqn:Ea; [|exact HI].
    destruct (live_obj e b) as [[c' t']|] eqn:Eb; [|exact HI]. simpl. rewrite !own_set. simpl.
    apply Inv_swap; auto; eapply live_obj_own; eauto.
  - destruct (live_obj e a) as [[c t]|] eqn:E; [|exact HI].
    pose proof (quiet_fill (t_data t) (t_size t) x m (Inv_okptr _ _ _ _ _ HI E)) as Hq.
    unfold quiet, tb_fill in *. destruct (assign_val _ _ _ _ _) as [[? m']|]; simpl; auto.
    eapply Inv_skel; eauto.
  - destruct (live_obj e a) as [[c t]|] eqn:E; [|exact HI].
    destruct (live_obj_own _ _ _ _ E) as [Hp Hl].
    destruct (Inv_release _ _ _ _ HI Hp) as [Ef HI1].
    replace (do_destroy c t) with (free (T := T) (t_data t)) by now destruct c.
    rewrite Ef. simpl. rewrite own_set. exact HI1.
Qed.

Theorem lrun_good ops : forall e m, Inv (own e) m -> good (lrun ops (e, m)).
Proof.
  induction ops as [|o ops IH]; intros e m HI; cbn [lrun]; [exact HI|].
  pose proof (lstep_good e m o HI) as H. destruct (lstep (e, m) o) as [[e' m']|k]; [apply IH|]; exact H.
Qed.
Lemma Inv_empty : Inv (own []) (@nil (option (list (option T)))).
Proof.
  split; [|split]; simpl.
  - intros [|a]; discriminate.
  - intros [|a]; discriminate.
  - intros b [l H]. destruct b; discriminate.
Qed.

(** destroying everything *)
Lemma destroy_range k : forall j e m, Inv (own e) m -> (j + k = length e)%nat ->
  (forall a, (a < j)%nat -> nth_error e a = Some None) ->
  exists e' m', lrun (map LDestroy (seq j k)) (e, m) = Ok (e', m') /\ Inv (own e') m' /\
    length e' = length e /\ forall a, (a < length e)%nat -> nth_error e' a = Some None.
Proof.
  induction k as [|k IH]; intros j e m HI Hj Hd.
  - simpl. exists e, m. repeat split; auto; try apply HI. intros a Ha. apply Hd. lia.
  - cbn [seq map lrun]. cbn [lstep].
    assert (Hlt : (j < length e)%nat) by lia.
    destruct (live_obj e j) as [[c t]|] eqn:E.
    + destruct (live_obj_own _ _ _ _ E) as [Hp _].
      destruct (Inv_release _ _ _ _ HI Hp) as [Ef HI1].
      replace (do_destroy c t) with (free (T := T) (t_data t)) by now destruct c.
      rewrite Ef.
      destruct (IH (S j) (set_nth j None e) (released m (t_data t))) as (e' & m' & Er & HI' & Hl & Hn).
      * rewrite own_set. exact HI1.
      * rewrite set_nth_length. lia.
      * intros a Ha. rewrite nth_set by auto. destruct (Nat.eqb_spec j a); auto. apply Hd. lia.
      * rewrite set_nth_length in *. exists e', m'. auto.
    + destruct (IH (S j) e m) as (e' & m' & Er & HI' & Hl & Hn); auto; try lia.
      * intros a Ha. destruct (Nat.eq_dec a j) as [->|]; [|apply Hd; lia].
        unfold live_obj in E. destruct (nth_error e j) as [[[? ?]|]|] eqn:E2; try discriminate; auto.
        apply nth_error_None in E2. lia.
      * exists e', m'. auto.
Qed.
End P.

(** * Properties C72, C87, C88: lifetime of layers, networks and trainers *)
From Coq Require Import Permutation.
From Verif Require Import Mem Scalar MemSpec MemLemmas Lique LiqueProofs Functions Optimizer Layer LayerSpec Net Skel FCProofs Copying RegressionProofs CopyingProofs PropLique.
Open Scope Z_scope.

Section Prop_.
Context {T : Type} `{NT : Num T}.
Implicit Types (m : mem T).

(** ** a released block stays released *)
Definition mono {A} (c : M T A) : Prop := forall m a m', c m = Ok (a, m') -> forall b, freed m b -> freed m' b.
Lemma mono_ret A (a : A) : mono (ret a).
Proof. intros m x m' [= <- <-]. auto. Qed.
Lemma mono_bind A B (c : M T A) (k : A -> M T B) : mono c -> (forall a, mono (k a)) -> mono (bind c k).
Proof. intros H1 H2 m x m'. unfold bind. destruct (c m) as [[a m1]|] eqn:E; [|discriminate]. intros E2 b F. eapply H2; eauto. Qed.
Lemma mono_load p i : mono (load p i).
Proof.
  intros m x m'. unfold load. destruct p as [|b o]; [discriminate|]. destruct (nth_error m b) as [[l|]|]; try discriminate.
  destruct (znth l (o + i)) as [[y|]|]; try discriminate. intros [= <- <-]. auto.
Qed.
Lemma mono_free p : mono (free p).
Proof.
  intros m x m'. unfold free. destruct p as [|b o]; [intros [= <- <-]; auto|].
  destruct (nth_error m b) as [[l|]|] eqn:E; try discriminate. destruct (o =? 0); [|discriminate]. intros [= <- <-] b' F.
  destruct (Nat.eq_dec b b') as [<-|N]; [unfold freed in F; congruence|]. unfold freed. now rewrite nth_set_nth_other.
Qed.
Lemma mono_mlist A B (l : list A) (f : A -> B -> M T B) b : (forall a b, mono (f a b)) -> mono (mlist l f b).
Proof. intros H. revert b. induction l as [|a l IH]; intros b; cbn [mlist]; [apply mono_ret|]. apply mono_bind; auto. Qed.
Lemma mono_delete_object p : mono (delete_object p).
Proof. unfold delete_object. destruct p; [apply mono_ret|]. apply mono_bind; [apply mono_load|]. intros _. apply mono_free. Qed.
Lemma mono_delete_layer o : mono (delete_layer o).
Proof.
  unfold delete_layer. destruct (lo_this o); [apply mono_ret|]. apply mono_bind; [apply mono_load|]. intros _.
  apply mono_bind; [apply mono_delete_object|]. intros _. apply mono_bind; [|intros _; apply mono_free]. apply mono_mlist. intros t u. apply mono_free.
Qed.
Lemma load_freed m b o i : freed m b -> load (Ptr b o) i m = UB UseAfterFree.
Proof. intros F. unfold load, freed in *. now rewrite F. Qed.
Lemma free_frees m b o m' x : free (Ptr b o) m = Ok (x, m') -> freed m' b.
Proof.
  unfold free. destruct (nth_error m b) as [[l|]|] eqn:E; try discriminate. destruct (o =? 0); [|discriminate]. intros [= <- <-].
  apply freed_set. now exists l.
Qed.
Lemma delete_layer_frees m o b i x m' : lo_this o = Ptr b i -> delete_layer o m = Ok (x, m') -> freed m' b.
Proof.
  intros E. unfold delete_layer. rewrite E. unfold bind. destruct (load _ _ m) as [[y m1]|]; [|discriminate].
  destruct (delete_object _ m1) as [[y2 m2]|]; [|discriminate]. destruct (mlist _ _ _ m2) as [[y3 m3]|]; [|discriminate]. apply free_frees.
Qed.
Lemma delete_layer_freed m o b i : lo_this o = Ptr b i -> freed m b -> delete_layer o m = UB UseAfterFree.
Proof. intros E F. unfold delete_layer. rewrite E. unfold bind. now rewrite load_freed. Qed.
Lemma net_destroy_frees N m m' x o b i : In o N -> lo_this o = Ptr b i -> net_destroy N m = Ok (x, m') -> freed m' b.
Proof.
  intros I E. revert m I. induction N as [|o' N IH]; [intros m []|]. intros m [->|H]; unfold net_destroy; cbn [mlist]; unfold bind at 1;
    match goal with |- context [delete_layer ?q m] => destruct (delete_layer q m) as [[[] m1]|] eqn:D end; try discriminate.
  - intros R. eapply (mono_mlist _ _ N (fun o _ => delete_layer o)); [intros; apply mono_delete_layer|exact R|]. eapply delete_layer_frees; eauto.
  - intros R. eapply IH; eauto.
Qed.
Lemma net_destroy_freed N m o b i : In o N -> lo_this o = Ptr b i -> freed m b -> exists k, net_destroy N m = UB k.
Proof.
  intros I E. revert m I. induction N as [|o' N IH]; [intros m []|]. intros m [->|H] F; unfold net_destroy; cbn [mlist]; unfold bind at 1.
  - rewrite (delete_layer_freed _ _ _ _ E F). eauto.
  - destruct (delete_layer o' m) as [[[] m1]|] eqn:D; [|eauto]. apply IH; auto. eapply mono_delete_layer; eauto.
Qed.

(** ** C72: copies of networks and of trainers cannot both be destroyed.
    [Ptr] layer pointers only: a network of null pointers is not one any program can run. *)
Theorem C72_net_copy_refuted (N : nobj) o m : In o N -> lo_this o <> Null ->
  exists k, (net_destroy (net_copy N) ;;; net_destroy N) m = UB k.
Proof.
  intros I NN. destruct (lo_this o) as [|b i] eqn:E; [congruence|]. unfold bind.
  destruct (net_destroy (net_copy N) m) as [[[] m1]|k] eqn:D; [|eauto]. eapply net_destroy_freed; eauto. eapply net_destroy_frees; eauto.
Qed.
(** in particular after any construction that succeeds *)
Theorem C72_built_net_copy_refuted es m : es <> [] -> Forall expr_ok es ->
  exists N m1, build_net (T := T) es m = Ok (N, m1) /\ exists k, (net_destroy (net_copy N) ;;; net_destroy N) m1 = UB k.
Proof.
  intros NE He. destruct (wp_elim _ _ _ _ (wp_build_net m es He)) as (N & m1 & R & X & L & O & _).
  exists N, m1. split; [exact R|]. destruct N as [|o N]; [destruct es; [congruence|discriminate]|].
  apply (C72_net_copy_refuted _ o); [now left|]. inversion O as [|? ? (I & _) _]; subst. intros E. rewrite E in I. destruct I; discriminate.
Qed.
Lemma delete_twice p m x m' : p <> Null -> delete_object p m = Ok (x, m') -> forall (c : M T unit), mono c -> exists k, (c ;;; delete_object p) m' = UB k.
Proof.
  intros NN D c Hc. destruct p as [|b i]; [congruence|].
  assert (F : freed m' b). { revert D. unfold delete_object, bind. destruct (load _ _ m) as [[y m1]|]; [|discriminate]. apply free_frees. }
  unfold bind at 1. destruct (c m') as [[[] m2]|] eqn:E; [|eauto]. unfold delete_object, bind. rewrite load_freed; [eauto|]. eapply Hc; eauto.
Qed.
Lemma trainer_destroy_twice t t' m : to_loss t <> Null -> to_loss t' = to_loss t -> exists k, (trainer_destroy t' ;;; trainer_destroy t) m = UB k.
Proof.
  intros NN E. unfold bind, trainer_destroy. destruct ((delete_object (to_loss t') ;;; ten_destroy (to_delta t')) m) as [[[] m1]|] eqn:D; [|eauto].
  revert D. unfold bind at 1. rewrite E. destruct (delete_object (to_loss t) m) as [[[] m2]|] eqn:D1; [|discriminate]. intros D2.
  destruct (delete_twice _ _ _ _ NN D1 (ten_destroy (to_delta t'))) as [k K]; [apply mono_free|]. unfold bind in K. rewrite D2 in K.
  unfold bind at 1. rewrite K. eauto.
Qed.
(** destroyed in either order *)
Theorem C72_trainer_copy_refuted t m : to_loss t <> Null ->
  (exists k, (let* t' := trainer_copy t in trainer_destroy t' ;;; trainer_destroy t) m = UB k) /\
  (exists k, (let* t' := trainer_copy t in trainer_destroy t ;;; trainer_destroy t') m = UB k).
Proof.
  intros NN. unfold trainer_copy. split; unfold bind at 1; unfold bind at 1;
    (destruct (ten_copy_ctor (to_delta t) m) as [[d m1]|]; [|eauto]); apply trainer_destroy_twice; auto.
Qed.
Theorem C72_trainer_move_refuted t m : to_loss t <> Null ->
  let (t', src) := trainer_move t in
  (exists k, (trainer_destroy t' ;;; trainer_destroy src) m = UB k) /\ (exists k, (trainer_destroy src ;;; trainer_destroy t') m = UB k).
Proof. intros NN. cbn. split; apply trainer_destroy_twice; auto. Qed.

(** what does hold: a trainer without a loss can be moved; both are destroyed, the block of [delta] is released once *)
Theorem C72_trainer_move_without_loss_partial t m b : to_loss t = Null -> t_data (to_delta t) = Ptr b 0 -> liveb m b ->
  exists m', (trainer_destroy (snd (trainer_move t)) ;;; trainer_destroy (fst (trainer_move t))) m = Ok (tt, m') /\ freed_exactly [b] m m'.
Proof.
  intros E Ed L. destruct (free_exactly m b L) as [F1 F2]. exists (set_nth b None m). split; [|exact F2].
  destruct t as [d l]. cbn in E, Ed |- *. subst l. unfold bind, trainer_destroy, ten_destroy, bind. cbn. rewrite Ed. exact F1.
Qed.
(** a copy without a loss has its own copy of [delta]; both are destroyed and nothing else changes *)
Theorem C72_trainer_copy_without_loss_partial t m b v : to_loss t = Null -> 0 <= t_size (to_delta t) ->
  t_data (to_delta t) = Ptr b 0 -> liveb m b -> holds m (t_data (to_delta t)) (t_size (to_delta t)) v ->
  exists m', (let* t' := trainer_copy t in trainer_destroy t' ;;; trainer_destroy t) m = Ok (tt, m') /\
    length m' = S (length m) /\ freed m' (length m) /\ freed m' b /\ forall c, (c < length m)%nat -> c <> b -> nth_error m' c = nth_error m c.
Proof.
  intros E Hn Ed L Hv. destruct t as [d l]. cbn in E, Ed, Hv, Hn |- *. subst l.
  assert (exists d' m1, ten_copy_ctor d m = Ok (d', m1) /\ t_data d' = Ptr (length m) 0 /\ extends m m1 /\ length m1 = S (length m)) as (d' & m1 & R & Ed' & X & L1).
  { destruct (C03_tensor_copy_ctor d m v Hn Hv) as (d' & m1 & R & _ & Md & _). exists d', m1. split; [exact R|]. exact (made_extends _ _ _ _ _ Md). }
  destruct (free_exactly m1 (length m)) as [F1 F2]. { apply X. lia. }
  destruct (free_exactly (set_nth (length m) None m1) b) as [F3 F4].
  { destruct L as [l L]. assert ((b < length m)%nat) by (apply nth_error_Some; congruence). eapply freed_exactly_live; [exact F2| |]. { intros [<-|[]]. lia. }
    exists l. rewrite (proj1 (proj2 X)); auto. }
  exists (set_nth b None (set_nth (length m) None m1)). split.
  - unfold trainer_copy, bind. cbn [to_delta to_loss]. rewrite R. unfold trainer_destroy, ten_destroy, bind. cbn. rewrite Ed', F1. cbn. rewrite Ed. exact F3.
  - pose proof (freed_exactly_app _ _ _ _ _ F2 F4) as [Q1 Q2]. split; [lia|]. split; [apply Q2; left; auto|]. split; [apply Q2; right; now left|].
    intros c Hc Nc. rewrite (proj2 (Q2 c)); [apply X; auto|]. cbn. intros [H|[H|[]]]; [lia|congruence].
Qed.

(** ** C87.  [m2] is a later state of the memory [m1]: since then no block was released and nothing
    initialised became uninitialised (allocations, loads and stores: everything feedforward, backprop, the
    optimizers and the layers' other operations do to the blocks of a network). *)
Definition later m1 m2 : Prop := forall b l, nth_error m1 b = Some (Some l) ->
  exists l', nth_error m2 b = Some (Some l') /\ forall i x, znth l i = Some (Some x) -> exists y, znth l' i = Some (Some y).
Lemma later_refl m : later m m. Proof. intros b l E. eauto. Qed.
Lemma later_trans m1 m2 m3 : later m1 m2 -> later m2 m3 -> later m1 m3.
Proof.
  intros A B b l E. destruct (A b l E) as (l' & E' & H'). destruct (B b l' E') as (l2 & E2 & H2). exists l2. split; auto.
  intros i x Ex. destruct (H' i x Ex) as [y Ey]. eauto.
Qed.
Lemma later_live m1 m2 b : later m1 m2 -> liveb m1 b -> liveb m2 b.
Proof. intros A [l E]. destruct (A b l E) as (l' & E' & _). now exists l'. Qed.
Lemma later_init m1 m2 b : later m1 m2 -> initialised m1 (Ptr b 0) -> initialised m2 (Ptr b 0).
Proof.
  intros A [x E]. cbn in E. unfold cell in E. destruct (nth_error m1 b) as [[l|]|] eqn:El; try discriminate.
  destruct (A b l El) as (l' & E' & H). destruct (H 0 x E) as [y Ey]. exists y. cbn. unfold cell. now rewrite E'.
Qed.
Lemma later_object m1 m2 o bs : has_blocks o bs -> later m1 m2 -> object_ok m1 o -> object_ok m2 o.
Proof.
  intros (b & ba & bt & Et & Ea & Em & ->) X (I & Ia & It). split; [|split].
  - rewrite Et in *. eapply later_init; eauto.
  - destruct Ia as [Ia|Ia]; [now left|]. right. destruct Ea as [[Ea _]|(a & Ea & _)]; rewrite Ea in *; [destruct Ia; discriminate|]. eapply later_init; eauto.
  - intros t Ht. destruct (It t Ht) as [O NN]. split; [|exact NN]. destruct (t_data t) as [|c o']; [congruence|]. destruct O as [E [l O]]. split; auto.
    exact (later_live _ _ c X (ex_intro _ l O)).
Qed.
(** every store gives a later state *)
Lemma later_store p i x m y m' : store p i x m = Ok (y, m') -> later m m'.
Proof.
  unfold store. destruct p as [|b o]; [discriminate|]. destruct (nth_error m b) as [[l|]|] eqn:E; try discriminate.
  destruct (znth l (o + i)) as [z|] eqn:Ez; [|discriminate]. intros [= <- <-] b' l' E'.
  destruct (Nat.eq_dec b b') as [<-|N].
  - rewrite E in E'. injection E' as <-. exists (set_nth (Z.to_nat (o + i)) (Some x) l). split.
    { apply nth_set_nth_same. apply nth_error_Some. congruence. }
    intros j v Ej. unfold znth in *. destruct (Z.leb_spec 0 j); [|discriminate].
    destruct (Nat.eq_dec (Z.to_nat (o + i)) (Z.to_nat j)) as [Q|Q].
    + rewrite Q, nth_set_nth_same; [eauto|]. apply nth_error_Some. congruence.
    + rewrite nth_set_nth_other by auto. eauto.
  - exists l'. rewrite nth_set_nth_other by auto. eauto.
Qed.
Lemma later_alloc n m p m' : alloc (T := T) n m = Ok (p, m') -> later m m'.
Proof.
  intros [= <- <-] b l E. exists l. split; [|eauto]. rewrite nth_error_app1; auto. apply nth_error_Some. congruence.
Qed.

(** Building a network from any list of layers succeeds and takes only new blocks; whatever is then computed in
    these blocks, destroying the network succeeds, releases each of the blocks taken, and changes no other. *)
Theorem C87_network_releases_what_it_took es m : Forall expr_ok es ->
  exists N m1, build_net (T := T) es m = Ok (N, m1) /\
    length N = length es /\
    (forall b, (b < length m)%nat -> nth_error m1 b = nth_error m b) /\
    forall m2, later m1 m2 ->
    exists m3, net_destroy N m2 = Ok (tt, m3) /\
      (forall b, (length m <= b < length m1)%nat -> freed m3 b) /\
      (forall b, ~ (length m <= b < length m1)%nat -> nth_error m3 b = nth_error m2 b).
Proof.
  intros He. destruct (wp_elim _ _ _ _ (wp_build_net m es He)) as (N & m1 & R & X & L & O & bss & HB & ND & Hb).
  exists N, m1. split; [exact R|]. split; [exact L|]. split; [apply X|]. intros m2 La.
  destruct (net_destroy_ok m2 N bss HB ND) as (m3 & D & F).
  { clear -HB O La. induction HB as [|o bs N bss H HB IH]; constructor; inversion O; subst; auto. eapply later_object; eauto. }
  exists m3. split; [exact D|]. split; intros b H; apply F; now rewrite Hb.
Qed.

(** ** C88: replacing the activation of a layer, the loss of a trainer *)
Definition has_activation (L : layer) : Prop := match L with LConv _ | LXConv _ => False | _ => True end.
Definition act_of (L : layer) : option activation :=
  match L with LFC L => f_act L | LXFC L => xf_act L | LPool L => p_act L | LXPool L => xp_act L | LConv _ | LXConv _ => None end.
(** [L'] is [L] with activation [a]: every tensor is the same object, the sizes are the same. *)
Definition reconnected (L L' : layer) (a : activation) : Prop :=
  act_of L' = Some a /\ (forall r, part L' r = part L r) /\ l_isize L' = l_isize L /\ l_osize L' = l_osize L.
Lemma members_set_act L a : members (set_act L a) = members L.
Proof. destruct L; reflexivity. Qed.
Lemma connect_eq o p a : has_activation (lo_layer o) ->
  connect (T := T) o p a = (delete_object (lo_act o) ;;; ret (mk_lobj (lo_this o) (set_act (lo_layer o) a) p)).
Proof. unfold connect. destruct (lo_layer o); cbn; intros H; reflexivity || destruct H. Qed.

(** [connect] with another activation object releases the previous one and nothing else; when the layer is deleted
    later, the new one and everything else the layer owns is released, once. *)
Theorem C88_connect_partial o p c a bs m : has_activation (lo_layer o) ->
  has_blocks o bs -> NoDup bs -> object_ok m o -> p = Ptr c 0 -> initialised m p -> ~ In c bs ->
  exists o' m1, connect (T := T) o p a m = Ok (o', m1) /\
    lo_act o' = p /\ reconnected (lo_layer o) (lo_layer o') a /\
    freed_exactly (match lo_act o with Ptr b _ => [b] | Null => [] end) m m1 /\
    exists m2, delete_layer o' m1 = Ok (tt, m2) /\ freed_exactly (c :: bs) m m2.
Proof.
  intros HA HB ND O -> Ip Nc. pose proof HB as (b & ba & bt & Et & Ea & Em & Eb). destruct O as (I & Ia & It).
  assert (exists m1, delete_object (lo_act o) m = Ok (tt, m1) /\ freed_exactly ba m m1) as (m1 & D1 & F1).
  { destruct Ea as [[Ea ->]|(x & Ea & ->)]; rewrite Ea in *.
    - exists m. split; [reflexivity|apply freed_exactly_nil].
    - destruct Ia as [Ia|Ia]; [discriminate|]. now apply delete_object_ok. }
  set (o' := mk_lobj (lo_this o) (set_act (lo_layer o) a) (Ptr c 0)).
  exists o', m1. split. { rewrite connect_eq by auto. unfold bind. now rewrite D1. }
  split; [reflexivity|]. split; [cbn [o' lo_layer]; clear -HA; destruct (lo_layer o); try (destruct HA); repeat split|]. split.
  { destruct Ea as [[Ea ->]|(x & Ea & ->)]; rewrite Ea; exact F1. }
  assert (HB' : has_blocks o' (b :: [c] ++ bt)).
  { exists b, [c], bt. split; [exact Et|]. split; [right; now exists c|]. split; [|reflexivity]. cbn. now rewrite members_set_act. }
  subst bs. assert (ND1 : ~ In b (ba ++ bt)) by (inversion ND; auto). assert (ND2 : NoDup (ba ++ bt)) by (inversion ND; auto).
  assert (NDt : NoDup bt) by (clear -ND2; induction ba; auto; inversion ND2; auto).
  assert (Na : forall c, In c ba -> In c bt -> False).
  { clear -ND2. induction ba as [|x ba IH]; [intros c []|]. cbn in ND2. inversion ND2 as [|? ? H1 H2]; subst. intros c [->|H] Hb; [apply H1, in_or_app; now right|eauto]. }
  destruct (delete_layer_ok m1 o' (b :: [c] ++ bt) HB') as (m2 & D2 & F2).
  { constructor; [|constructor; auto].
    - cbn. intros [H|H]; [apply Nc; now left|]. apply ND1, in_or_app. now right.
    - intros H. apply Nc. right. apply in_or_app. now right. }
  { split; [|split].
    - cbn. rewrite Et in *. destruct I as [x I]. exists x. rewrite <- I. apply (freed_exactly_elem ba); auto. intros H. apply ND1, in_or_app. now left.
    - right. cbn [o' lo_act]. destruct Ip as [x Ip]. exists x. rewrite <- Ip. apply (freed_exactly_elem ba); auto. intros H. apply Nc. right. apply in_or_app. now left.
    - cbn. rewrite members_set_act. intros t Ht. destruct (It t Ht) as [Ow NN]. split; [|exact NN].
      assert (In (t_data t) (starts bt)) as H by (rewrite <- Em; now apply in_map). unfold starts in H. apply in_map_iff in H as (d & E & Hd). rewrite <- E in *.
      destruct Ow as [_ [l Ow]]. split; auto. exists l. rewrite (proj2 (proj2 F1 d)); auto. intros H. eapply Na; eauto. }
  exists m2. split; [exact D2|]. pose proof (freed_exactly_app _ _ _ _ _ F1 F2) as F. eapply freed_exactly_perm; [|exact F].
  intros d. cbn. rewrite !in_app_iff. cbn. tauto.
Qed.
(** With the activation object it already has, [connect] leaves the layer with a dangling pointer: deleting it
    is an error, in every memory. *)
Theorem C88_connect_same_object_refuted o a m : has_activation (lo_layer o) -> lo_act o <> Null -> lo_this o <> Null ->
  exists k, (let* o' := connect (T := T) o (lo_act o) a in delete_layer o') m = UB k.
Proof.
  intros HA NN NT'. rewrite connect_eq by auto. unfold bind at 1. unfold bind at 1.
  destruct (delete_object (lo_act o) m) as [[[] m1]|] eqn:D; [|eauto]. cbn [ret].
  unfold delete_layer. cbn [lo_this lo_act lo_layer]. destruct (lo_this o) as [|b i]; [congruence|].
  unfold bind at 1. destruct (load (Ptr b i) 0 m1) as [[y m2]|] eqn:E; [|eauto]. unfold bind at 1.
  destruct (delete_twice _ _ _ _ NN D (let* _ := load (Ptr b i) 0 in ret tt)) as [k K].
  { apply mono_bind; [apply mono_load|]. intros _. apply mono_ret. }
  unfold bind at 1 in K. unfold bind at 1 in K. rewrite E in K. cbn [ret] in K. rewrite K. eauto.
Qed.
(** Two layers of a network that were given the same activation object cannot be destroyed. *)
Theorem C88_shared_activation_refuted (N1 N2 N3 : nobj) o1 o2 m : lo_this o1 <> Null -> lo_this o2 <> Null ->
  lo_act o1 <> Null -> lo_act o2 = lo_act o1 -> exists k, net_destroy (N1 ++ o1 :: N2 ++ o2 :: N3) m = UB k.
Proof.
  intros T1 T2 A1 A2. destruct (lo_act o1) as [|c j] eqn:Ec; [congruence|].
  assert (S : forall N m o b i, lo_act o = Ptr b i -> lo_this o <> Null -> In o N -> freed m b -> exists k, net_destroy N m = UB k).
  { clear. intros N m o b i Ea Et I F. revert m I F. induction N as [|o' N IH]; [intros m []|]. intros m [->|I] F; unfold net_destroy; cbn [mlist]; unfold bind at 1.
    - unfold delete_layer. destruct (lo_this o); [congruence|]. unfold bind at 1. destruct (load (Ptr b0 o0) 0 m) as [[y m1]|] eqn:E; [|eauto].
      unfold bind at 1. rewrite Ea. unfold delete_object, bind at 1. rewrite load_freed; [eauto|]. eapply mono_load; eauto.
    - destruct (delete_layer o' m) as [[[] m1]|] eqn:D; [|eauto]. apply IH; auto. eapply mono_delete_layer; eauto. }
  revert m. induction N1 as [|o N1 IH]; intros m; cbn [app]; unfold net_destroy; cbn [mlist]; unfold bind at 1.
  - destruct (delete_layer o1 m) as [[[] m1]|] eqn:D; [|eauto]. apply (S _ _ o2 c j); auto; [apply in_or_app; right; now left|].
    revert D. unfold delete_layer. destruct (lo_this o1) as [|b i]; [congruence|]. unfold bind at 1. destruct (load (Ptr b i) 0 m) as [[y m2]|]; [|discriminate].
    unfold bind at 1. rewrite Ec. destruct (delete_object (Ptr c j) m2) as [[[] m3]|] eqn:D; [|discriminate].
    assert (F : freed m3 c). { revert D. unfold delete_object, bind. destruct (load _ _ m2) as [[z m4]|]; [|discriminate]. apply free_frees. }
    intros R. refine (mono_bind _ _ _ _ _ _ _ _ _ R _ F); [apply mono_mlist; intros; apply mono_free|intros; apply mono_free].
  - destruct (delete_layer o m) as [[[] m1]|]; [|eauto]. apply IH.
Qed.
(** [loss(l)] releases the previous loss object and nothing else; destroying the trainer releases [l] and [delta] *)
Theorem C88_loss_partial t b l m : t_data (to_delta t) = Ptr b 0 -> liveb m b ->
  (to_loss t = Null \/ exists c, to_loss t = Ptr c 0 /\ initialised m (Ptr c 0) /\ c <> b /\ c <> l) ->
  initialised m (Ptr l 0) -> l <> b ->
  exists t' m1, trainer_loss t (Ptr l 0) m = Ok (t', m1) /\ to_loss t' = Ptr l 0 /\
    freed_exactly (match to_loss t with Ptr c _ => [c] | Null => [] end) m m1 /\
    exists m2, trainer_destroy t' m1 = Ok (tt, m2) /\
      freed_exactly (l :: b :: match to_loss t with Ptr c _ => [c] | Null => [] end) m m2.
Proof.
  intros Ed L Hl Il Nl. set (old := match to_loss t with Ptr c _ => [c] | Null => [] end).
  assert (exists m1, delete_object (to_loss t) m = Ok (tt, m1) /\ freed_exactly old m m1 /\ ~ In b old /\ ~ In l old) as (m1 & D & F & Nb & Nl').
  { subst old. destruct Hl as [E|(c & E & Ic & Nb & Nl')]; rewrite E.
    - exists m. split; [reflexivity|]. split; [apply freed_exactly_nil|]. cbn. tauto.
    - destruct (delete_object_ok m c Ic) as (m1 & D & F). exists m1. split; [exact D|]. split; [exact F|]. cbn. intuition. }
  exists (mk_tobj (to_delta t) (Ptr l 0)), m1. split. { unfold trainer_loss, bind. now rewrite D. }
  split; [reflexivity|]. split; [exact F|].
  destruct (delete_object_ok m1 l) as (m2 & D2 & F2).
  { destruct Il as [x E]. exists x. rewrite <- E. now apply (freed_exactly_elem old). }
  destruct (free_exactly m2 b) as [D3 F3].
  { eapply freed_exactly_live; [exact F2|intros [H|[]]; auto|]. eapply freed_exactly_live; [exact F| |]; auto. }
  exists (set_nth b None m2). split.
  - unfold trainer_destroy, ten_destroy, bind. cbn [to_loss to_delta]. rewrite D2, Ed. exact D3.
  - pose proof (freed_exactly_app _ _ _ _ _ (freed_exactly_app _ _ _ _ _ F F2) F3) as Q. eapply freed_exactly_perm; [|exact Q].
    intros d. rewrite !in_app_iff. cbn. tauto.
Qed.
(** ... but [loss(l)] with the current loss leaves a dangling pointer: destroying the trainer is an error *)
Theorem C88_loss_same_object_refuted t m : to_loss t <> Null ->
  exists k, (let* t' := trainer_loss t (to_loss t) in trainer_destroy t') m = UB k.
Proof.
  intros NN. unfold trainer_loss. unfold bind at 1. unfold bind at 1.
  destruct (delete_object (to_loss t) m) as [[[] m1]|] eqn:D; [|eauto]. cbn [ret]. unfold trainer_destroy, bind at 1. cbn [to_loss].
  destruct (delete_twice _ _ _ _ NN D (ret tt)) as [k K]; [apply mono_ret|]. unfold bind at 1 in K. cbn [ret] in K. rewrite K. eauto.
Qed.
End Prop_.

(** ** Examples: the hypotheses are met *)
Module Examples.
(** a convolution with two filters, a pooling and a dense layer, built after an unrelated block *)
Definition es : list layer_expr := [NewConv (mk_shape 1 4 4 16) 2 3 3 0 1 1; NewPool 2 2 2 2 2 (Functions.Scalar ReLU); NewFC 2 3 SoftMax].
Example C87_expr : Forall expr_ok es.
Proof. repeat constructor; vm_compute; discriminate. Qed.
Definition m0 : mem Z := [Some [Some 7]].
Definition built : res (nobj * mem Z) := build_net es m0.
(** 27 new blocks: three objects, two activations, and 9 + 4 + 9 tensors *)
Example C87_count : match built with Ok (N, m1) => (length N, length m1) | UB _ => (0, 0)%nat end = (3, 28)%nat.
Proof. vm_compute. reflexivity. Qed.
Example C87_run : match built with Ok (N, m1) => match net_destroy N m1 with Ok (_, m3) => m3 = Some [Some 7] :: repeat None 27 | UB _ => False end | UB _ => False end.
Proof. vm_compute. reflexivity. Qed.
Example C72_run : match built with Ok (N, m1) => (net_destroy (net_copy N) ;;; net_destroy N) m1 = UB UseAfterFree | UB _ => False end.
Proof. vm_compute. reflexivity. Qed.
(** a trainer with a loss object (block 1) and a delta of two elements (block 0) *)
Definition t1 : tobj := mk_tobj (mk_tensor (Ptr 0 0) (mk_shape 1 1 2 2)) (Ptr 1 0).
Definition mt : mem Z := [Some [Some 5; Some 6]; Some [Some 0]; Some [Some 0]].
Example C72_trainer_run : (let* t' := trainer_copy t1 in trainer_destroy t' ;;; trainer_destroy t1) mt = UB UseAfterFree.
Proof. reflexivity. Qed.
Example C88_loss_run : match trainer_loss t1 (Ptr 2 0) mt with Ok (t', m1) => trainer_destroy t' m1 = Ok (tt, [None; None; None]) | UB _ => False end.
Proof. reflexivity. Qed.
Example C88_loss_hyp : t_data (to_delta t1) = Ptr 0 0 /\ liveb mt 0 /\ to_loss t1 = Ptr 1 0 /\ initialised mt (Ptr 1 0) /\ initialised mt (Ptr 2 0).
Proof. split; [reflexivity|]. split; [eexists; reflexivity|]. split; [reflexivity|]. split; eexists; reflexivity. Qed.
Example C72_no_loss_run : (let* t' := trainer_copy (mk_tobj (to_delta t1) Null) in trainer_destroy t' ;;; trainer_destroy (mk_tobj (to_delta t1) Null)) mt =
  Ok (tt, [None; Some [Some 0]; Some [Some 0]; None]).
Proof. reflexivity. Qed.
(** [connect] on a dense layer built by [new_layer], with a new activation object *)
Example C88_connect_run :
  match (let* o := new_layer (NewFC 2 3 SoftMax) in let* p := new_object in let* o' := connect o p (Functions.Scalar ReLU) in delete_layer o') m0 with
  | Ok (_, m3) => m3 = Some [Some 7] :: repeat None 12 | UB _ => False end.
Proof. vm_compute. reflexivity. Qed.
Example C88_connect_twice_run :
  (let* o := new_layer (NewFC 2 3 SoftMax) in let* o' := connect o (lo_act o) (Functions.Scalar ReLU) in delete_layer o') m0 = UB UseAfterFree.
Proof. vm_compute. reflexivity. Qed.
End Examples.

Print Assumptions C72_net_copy_refuted.
Print Assumptions C72_built_net_copy_refuted.
Print Assumptions C72_trainer_copy_refuted.
Print Assumptions C72_trainer_move_refuted.
Print Assumptions C72_trainer_move_without_loss_partial.
Print Assumptions C72_trainer_copy_without_loss_partial.
Print Assumptions C87_network_releases_what_it_took.
Print Assumptions C88_connect_partial.
Print Assumptions C88_connect_same_object_refuted.
Print Assumptions C88_shared_activation_refuted.
Print Assumptions C88_loss_partial.
Print Assumptions C88_loss_same_object_refuted.

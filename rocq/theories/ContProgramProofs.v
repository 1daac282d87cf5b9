(** * Proofs about programs with many containers *)
From Verif Require Import Mem MemSpec MemLemmas Container PropContainer ContProgram ContProgramSpec.

Section Spec.
Context {T : Type}.
Implicit Types (m : mem T) (l : list T) (c : container) (s : list (option kobj)) (A : list (option (aobj T))).

(** the object [x] is as described by [y]: same kind, and for [Holds l cap room]: it reports
    [capacity() = cap] and is a container with contents [l] in storage with room for [room] *)
Definition represents m (x : option kobj) (y : option (aobj T)) : Prop :=
  match x, y with
  | None, None => True
  | Some (lk, c), Some (lk', Holds l cap room) =>
      lk = lk' /\ c_cap c = cap /\ room <= cap /\ contains m (mk_cont (c_data c) (c_size c) room) l
  | Some (lk, c), Some (lk', Gone n cap) => lk = lk' /\ c = mk_cont Null n cap /\ 0 < n <= cap
  | _, _ => False
  end.
(** object number [i] holds block [b] *)
Definition slot (x : option kobj) : ptr := match x with Some (_, c) => c_data c | None => Null end.
Definition holder s (b i : nat) : Prop := exists x, nth_error s i = Some x /\ owns_block (slot x) b.
(** The objects [s] in memory [m] are as described by [A]; no two of them share storage; what
    was in memory before the program ([m0]) is untouched and belongs to none of them; every
    block the program obtained has been released or belongs to an object. *)
Definition good_state (m0 : mem T) s m A : Prop :=
  length s = length A /\
  (forall i x y, nth_error s i = Some x -> nth_error A i = Some y -> represents m x y) /\
  (forall i j b, holder s b i -> holder s b j -> i = j) /\
  keeps (fun _ => False) m0 m /\
  (forall i b, holder s b i -> (length m0 <= b < length m)%nat) /\
  (forall b, (length m0 <= b < length m)%nat -> freed m b \/ exists i, holder s b i).
End Spec.

Section Proofs.
Context {T : Type} (moved : T -> T) (dflt : T).
Implicit Types (m : mem T) (l : list T) (c : container) (s : list (option kobj)) (A : list (option (aobj T))).

#[local] Notation contains_lt := (PropContainer.contains_lt moved dflt) (only parsing).
#[local] Notation contains_keeps := (PropContainer.contains_keeps moved dflt) (only parsing).
#[local] Notation release_ok := (PropContainer.release_ok moved dflt) (only parsing).
#[local] Notation pop_spec := (PropContainer.pop_spec moved dflt) (only parsing).
#[local] Notation write_spec := (PropContainer.write_spec moved dflt) (only parsing).
#[local] Notation new_spec := (PropContainer.new_spec moved dflt) (only parsing).
#[local] Notation emplace_spec := (PropContainer.emplace_spec moved dflt) (only parsing).
#[local] Notation resize_spec := (PropContainer.resize_spec moved dflt) (only parsing).
#[local] Notation reserve_spec := (PropContainer.reserve_spec moved dflt) (only parsing).
#[local] Notation copy_into := (PropContainer.copy_into moved dflt) (only parsing).
#[local] Notation grow_ok := (PropContainer.grow_ok moved dflt) (only parsing).

(** the storage held through [p] in [m] became the one held through [p'] in [m'] *)
Definition reown (p p' : ptr) m m' : Prop :=
  keeps (owns_block p) m m' /\
  (forall b, owns_block p' b -> (owns_block p b \/ (length m <= b)%nat) /\ (b < length m')%nat) /\
  (forall b, owns_block p b \/ (length m <= b < length m')%nat -> ~ owns_block p' b -> freed m' b).

Lemma holder_set s i x b j : (i < length s)%nat ->
  (holder (set_nth i x s) b j <-> (j = i /\ owns_block (slot x) b) \/ (j <> i /\ holder s b j)).
Proof.
  intros Hi. unfold holder. destruct (Nat.eq_dec i j) as [<-|Hne].
  - rewrite nth_set_nth_same by auto. split.
    + intros (y & E & H). injection E as <-. auto.
    + intros [[_ H]|[H _]]; [eauto|lia].
  - rewrite nth_set_nth_other by auto. split; [intros H; right; split; auto|intros [[-> _]|[_ H]]; [lia|auto]].
Qed.
Lemma represents_keeps m m' X x y : represents m x y -> keeps X m m' -> (forall b, owns_block (slot x) b -> ~ X b) -> represents m' x y.
Proof.
  intros H K HX. destruct x as [[lk c]|], y as [[lk' [l cap room|n cap]]|]; cbn in *; auto.
  destruct H as (E & Ec & Hr & HC). split; [auto|]. split; [auto|]. split; [auto|]. eapply contains_keeps; eauto.
Qed.

(** one object changes *)
Lemma change_one m0 s m A a x x' y' m' : good_state m0 s m A -> nth_error s a = Some x ->
  reown (slot x) (slot x') m m' -> represents m' x' y' -> good_state m0 (set_nth a x' s) m' (set_nth a y' A).
Proof.
  intros (L & R & D & (K0 & K1) & B & F) Ha ((L1 & K) & O & Fr) Hr.
  assert (Hla : (a < length s)%nat) by (eapply nth_lt; eauto).
  assert (Hx : forall b, owns_block (slot x) b -> holder s b a) by (intros; exists x; auto).
  split; [now rewrite !set_nth_length|]. split; [|split; [|split; [|split]]].
  - intros i u v. destruct (Nat.eq_dec a i) as [<-|Hne].
    + rewrite !nth_set_nth_same by lia. intros E1 E2. injection E1 as <-. injection E2 as <-. auto.
    + rewrite !nth_set_nth_other by auto. intros E1 E2. specialize (R i u v E1 E2).
      eapply represents_keeps; [exact R|split; eauto|]. intros b Hb Hb'. apply Hne. apply (D a i b); auto. exists u. auto.
  - intros i j b. rewrite !holder_set by auto. intros [[-> H]|[Hi H]] [[-> H']|[Hj H']]; auto.
    + exfalso. destruct (O b H) as [[H1|H1] _]; [apply Hj; apply (D j a b); auto|apply B in H'; lia].
    + exfalso. destruct (O b H') as [[H1|H1] _]; [apply Hi; apply (D i a b); auto|apply B in H; lia].
    + eapply D; eauto.
  - split; [lia|]. intros b Hb _. rewrite K; [apply K1; auto|lia|]. intros H. apply Hx, B in H. lia.
  - intros i b. rewrite holder_set by auto. intros [[-> H]|[Hi H]].
    + destruct (O b H) as [[H1|H1] H2]; [apply Hx, B in H1|]; lia.
    + apply B in H. lia.
  - intros b Hb. destruct (slot x') as [|bp op] eqn:Ep.
    + destruct (Nat.lt_ge_cases b (length m)) as [Hlt|Hge].
      * destruct (F b) as [H|(i & H)]; [lia| |].
        -- destruct (slot x) as [|bx ox] eqn:Ex.
           ++ left. unfold freed in *. rewrite K; auto.
           ++ destruct (Nat.eq_dec b bx) as [->|Hne]; [left; apply Fr; cbn; auto|left; unfold freed in *; rewrite K; auto].
        -- destruct (Nat.eq_dec i a) as [->|Hne].
           ++ left. apply Fr; [left|cbn; auto]. destruct H as (u & E & H). rewrite Ha in E. injection E as <-. auto.
           ++ right. exists i. rewrite holder_set by auto. auto.
      * left. apply Fr; [right; lia|cbn; auto].
    + destruct (Nat.eq_dec b bp) as [->|Hnp].
      * right. exists a. rewrite holder_set by auto. left. rewrite Ep. cbn. auto.
      * destruct (Nat.lt_ge_cases b (length m)) as [Hlt|Hge].
        -- destruct (F b) as [H|(i & H)]; [lia| |].
           ++ destruct (slot x) as [|bx ox] eqn:Ex.
              ** left. unfold freed in *. rewrite K; auto.
              ** destruct (Nat.eq_dec b bx) as [->|Hne]; [left; apply Fr; cbn; auto|left; unfold freed in *; rewrite K; auto].
           ++ destruct (Nat.eq_dec i a) as [->|Hne].
              ** left. apply Fr; [left|cbn; auto]. destruct H as (u & E & H). rewrite Ha in E. injection E as <-. auto.
              ** right. exists i. rewrite holder_set by auto. auto.
        -- left. apply Fr; [right; lia|cbn; auto].
Qed.
(** an object that does not exist yet *)
Lemma grow_state m0 s m A : good_state m0 s m A -> good_state m0 (s ++ [None]) m (A ++ [None]).
Proof.
  intros (L & R & D & K & B & F).
  assert (Ht : forall b i, holder (s ++ [None]) b i <-> holder s b i).
  { intros b i. unfold holder. destruct (Nat.lt_ge_cases i (length s)) as [H|H].
    - now rewrite nth_error_app1.
    - rewrite nth_error_app2 by auto. split.
      + intros (x & E & Hx). destruct (i - length s)%nat as [|[|k]]; cbn in E; try discriminate. injection E as <-. destruct Hx.
      + intros (x & E & Hx). apply nth_error_None in H. congruence. }
  split; [rewrite !app_length; cbn; lia|]. split; [|split; [|split; [auto|split]]].
  - intros i x y. destruct (Nat.lt_ge_cases i (length s)) as [H|H].
    + rewrite !nth_error_app1 by lia. apply R.
    + rewrite !nth_error_app2 by lia. rewrite <- L. destruct (i - length s)%nat as [|[|k]]; cbn; try discriminate.
      intros E1 E2. injection E1 as <-. injection E2 as <-. exact I.
  - intros i j b. rewrite !Ht. apply D.
  - intros i b. rewrite Ht. apply B.
  - intros b Hb. destruct (F b Hb) as [H|(i & H)]; auto. right. exists i. now rewrite Ht.
Qed.
Lemma set_nth_end X (s : list X) x y : set_nth (length s) x (s ++ [y]) = s ++ [x].
Proof. now rewrite (set_nth_app _ s x y []). Qed.
Lemma add_one m0 s m A x' y' m' : good_state m0 s m A ->
  reown Null (slot x') m m' -> represents m' x' y' -> good_state m0 (s ++ [x']) m' (A ++ [y']).
Proof.
  intros G O R. pose proof (proj1 G) as L.
  pose proof (change_one m0 _ m _ (length s) None x' y' m' (grow_state _ _ _ _ G)) as H.
  rewrite set_nth_end in H. rewrite L, set_nth_end in H. apply H; auto.
  rewrite <- L, nth_error_app2, Nat.sub_diag by lia. reflexivity.
Qed.
(** the contents of [i] go to the empty-handed [j] *)
Lemma hand_over m0 s m A i j x u x' u' y' v' : good_state m0 s m A -> i <> j ->
  nth_error s i = Some x -> nth_error s j = Some u -> slot u = Null -> slot u' = slot x -> slot x' = Null ->
  represents m x' y' -> represents m u' v' ->
  good_state m0 (set_nth i x' (set_nth j u' s)) m (set_nth i y' (set_nth j v' A)).
Proof.
  intros (L & R & D & K & B & F) Hne Hi Hj Eu Eu' Ex Rx Ru.
  assert (Li : (i < length s)%nat) by (eapply nth_lt; eauto). assert (Lj : (j < length s)%nat) by (eapply nth_lt; eauto).
  assert (Hx : forall b, owns_block (slot x) b -> holder s b i) by (intros; exists x; auto).
  assert (Ht : forall b k, holder (set_nth i x' (set_nth j u' s)) b k <-> (k = j /\ owns_block (slot x) b) \/ (k <> i /\ k <> j /\ holder s b k)).
  { intros b k. rewrite !holder_set by (rewrite ?set_nth_length; auto). rewrite Ex, Eu'. cbn [owns_block]. intuition (subst; auto; try lia). }
  split; [now rewrite !set_nth_length|]. split; [|split; [|split; [auto|split]]].
  - intros k p q. destruct (Nat.eq_dec i k) as [<-|H1].
    + rewrite !nth_set_nth_same by (rewrite set_nth_length; lia). intros E1 E2. injection E1 as <-. injection E2 as <-. auto.
    + rewrite !(nth_set_nth_other _ i k) by auto. destruct (Nat.eq_dec j k) as [<-|H2].
      * rewrite !nth_set_nth_same by lia. intros E1 E2. injection E1 as <-. injection E2 as <-. auto.
      * rewrite !nth_set_nth_other by auto. apply R.
  - intros p q b. rewrite !Ht. intros [[-> H]|(H1 & H2 & H)] [[-> H']|(H1' & H2' & H')]; auto.
    + exfalso. apply H1'. eapply D; eauto.
    + exfalso. apply H1. eapply D; eauto.
    + eapply D; eauto.
  - intros k b. rewrite Ht. intros [[-> H]|(_ & _ & H)]; eapply B; eauto.
  - intros b Hb. destruct (F b Hb) as [H|(k & H)]; auto. right. destruct (Nat.eq_dec k i) as [->|H1].
    + exists j. rewrite Ht. left. split; auto. destruct H as (w & E & H). rewrite Hi in E. injection E as <-. auto.
    + exists k. rewrite Ht. right. split; auto. split; auto. intros ->. destruct H as (w & E & H). rewrite Hj in E. injection E as <-.
      rewrite Eu in H. destruct H.
Qed.

(** ** the member functions *)
Lemma storage_reown m c l c' l' m' d n1 cap d' n2 cap' : storage c m c' m' -> contains m c l -> contains m' c' l' ->
  c = mk_cont d n1 cap -> c' = mk_cont d' n2 cap' -> reown d d' m m'.
Proof.
  intros (K & O & F) H H' -> ->. cbn [c_data] in *. pose proof (contains_lt _ _ _ H') as Hlt. cbn [c_data] in Hlt.
  split; [auto|]. split; auto. intros b Hb. split; [|auto]. destruct O as [<-|(b' & Hb' & E)]; auto. rewrite E in Hb. cbn in Hb. subst. auto.
Qed.
Lemma lenz l : alen l = zlen l. Proof. reflexivity. Qed.

Lemma k_new_ok m k l : a_new dflt k = Some l ->
  exists c m', k_new dflt k m = Ok (c, m') /\ c_cap c = alen l /\ contains m' c l /\ reown Null (c_data c) m m'.
Proof.
  intros E. set (k' := match k with KDefault => NewDefault | KSized n => NewSized n | KList l => NewList l end).
  assert (Hk : ctor_ok k' /\ list_new dflt k' = l /\ k_new dflt k m = cont_new dflt k' m).
  { unfold k'. destruct k as [|n|l0]; cbn in *; [injection E as <-; auto| |injection E as <-; auto].
    destruct (Z.ltb_spec n 0); [discriminate|]. injection E as <-. auto. }
  destruct Hk as (Hk & El & Em). rewrite Em. destruct (new_spec m k' Hk) as (c & m' & E1 & HC & (Kl & K) & B & B'). rewrite El in HC.
  exists c, m'. split; auto. split; [|split; [auto|]].
  - subst l. destruct k' as [|n|l0]; cbn [cont_new list_new ctor_ok] in *.
    + injection E1 as <- <-. reflexivity.
    + unfold cont_sized in E1. unfold bind in E1 at 1. cbn [alloc] in E1. unfold bind in E1. destruct (mfor _ _ _ _) as [[[] m1]|]; [|discriminate].
      unfold ret in E1. injection E1 as <- <-. cbn. unfold alen. rewrite repeat_length. lia.
    + unfold cont_of_list in E1. unfold bind in E1 at 1. cbn [alloc] in E1. unfold bind in E1. destruct (mfor _ _ _ _) as [[[] m1]|]; [|discriminate].
      unfold ret in E1. injection E1 as <- <-. reflexivity.
  - split; [split; [auto|]|split].
    + intros b Hb _. apply K; auto.
    + intros b Hb. split; [right; auto|eapply contains_lt; eauto].
    + intros b [[]|Hb] Hn. exfalso. apply Hn, B. auto.
Qed.

(** only the tests look at the capacity *)
Lemma emplace_cap d n cap room (x : T) m : n <> cap -> n <> room ->
  cont_emplace_back moved (mk_cont d n cap) (ret x) m =
  match cont_emplace_back moved (mk_cont d n room) (ret x) m with
  | Ok (c', m') => Ok (mk_cont (c_data c') (c_size c') cap, m') | UB e => UB e end.
Proof.
  intros H1 H2. unfold cont_emplace_back. cbn [c_size c_cap].
  destruct (Z.eqb_spec n cap); [lia|]. destruct (Z.eqb_spec n room); [lia|].
  unfold bind, ret. cbn [c_size c_cap c_data]. destruct (construct d n x m) as [[[] m1]|]; reflexivity.
Qed.
Lemma pop_cap d n cap room m :
  cont_pop_back (T := T) (mk_cont d n cap) m =
  match cont_pop_back (mk_cont d n room) m with
  | Ok (c', m') => Ok (mk_cont (c_data c') (c_size c') cap, m') | UB e => UB e end.
Proof.
  unfold cont_pop_back. cbn [c_size c_cap c_data]. unfold bind, ret.
  destruct (destruct_at d _ m) as [[[] m1]|]; reflexivity.
Qed.
Lemma resize_cap d n cap room k (x : T) m : k <= room <= cap ->
  cont_resize moved (mk_cont d n cap) k (fun _ => x) m =
  match cont_resize moved (mk_cont d n room) k (fun _ => x) m with
  | Ok (c', m') => Ok (mk_cont (c_data c') (c_size c') cap, m') | UB e => UB e end.
Proof.
  intros H. unfold cont_resize. cbn [c_size c_cap c_data].
  destruct (Z.ltb_spec cap k); [lia|]. destruct (Z.ltb_spec room k); [lia|].
  destruct (k <? n); unfold bind, ret.
  - destruct (destroy d k n m) as [[[] m1]|]; reflexivity.
  - destruct (mfor _ _ _ m) as [[[] m1]|]; reflexivity.
Qed.
Lemma reserve_cap d n cap room k m : room <= cap < k ->
  cont_reserve moved (mk_cont d n cap) k m = cont_reserve moved (mk_cont d n room) k m.
Proof.
  intros H. unfold cont_reserve. cbn [c_size c_cap c_data].
  destruct (Z.ltb_spec cap k); [|lia]. destruct (Z.ltb_spec room k); [|lia]. reflexivity.
Qed.
Lemma resize_cap_big d n cap room k (x : T) m : room <= cap < k ->
  cont_resize moved (mk_cont d n cap) k (fun _ => x) m = cont_resize moved (mk_cont d n room) k (fun _ => x) m.
Proof.
  intros H. unfold cont_resize. cbn [c_size c_cap c_data].
  destruct (Z.ltb_spec cap k); [|lia]. destruct (Z.ltb_spec room k); [|lia].
  unfold bind. now rewrite (reserve_cap d n cap room k m).
Qed.

Lemma k_op_ok m lk c o v v' : represents m (Some (lk, c)) (Some (lk, v)) ->
  (forall l cap room, v = Holds l cap room -> zlen l < 2 ^ 64) -> a_op o v = Some v' ->
  exists c' m', k_op moved o c m = Ok (c', m') /\ represents m' (Some (lk, c')) (Some (lk, v')) /\ reown (c_data c) (c_data c') m m'.
Proof.
  intros R Hs E. assert (Refl : forall p, reown p p m m \/ True) by auto. clear Refl.
  destruct v as [l cap room|n0 cap]; cbn [represents] in R.
  - destruct R as (_ & Ecap & Hr & HC). specialize (Hs l cap room eq_refl). destruct c as [d n cap0]. cbn [c_data c_size c_cap] in *. subst cap0.
    pose proof HC as (En & Hl & _). cbn [c_size c_cap] in En, Hl. pose proof (zlen_nn _ l).
    assert (Same : reown d d m m).
    { split; [split; [lia|auto]|]. split; [|intros b [Hb|Hb] Hn; [tauto|lia]]. intros b Hb. split; auto. exact (contains_lt _ _ _ HC b Hb). }
    destruct o as [x| |k x|k|i x]; cbn [a_op k_op] in *; rewrite ?lenz in E.
    + destruct (Z.eqb_spec (zlen l) cap) as [Hf|Hf].
      * injection E as <-. assert (room = cap) as -> by lia.
        destruct (emplace_spec m _ l (ret x) x HC) as (c' & m' & E' & HC' & St & _ & C2); [reflexivity|]. cbn [c_size c_cap] in C2.
        destruct (C2 ltac:(lia)) as (C3 & _). destruct c' as [d' n' cap']. cbn [c_cap] in C3. subst cap'.
        exists (mk_cont d' n' (2 * cap + 1)), m'. split; auto. split; [cbn; split; [auto|]; split; [auto|]; split; [lia|exact HC']|].
        cbn [c_data]. eapply storage_reown; eauto.
      * destruct (Z.ltb_spec (zlen l) room) as [Hl'|]; [|discriminate]. injection E as <-.
        destruct (emplace_spec m _ l (ret x) x HC) as (c' & m' & E' & HC' & St & C2 & _); [reflexivity|]. cbn [c_size c_cap c_data] in C2.
        destruct (C2 ltac:(lia)) as (C3 & C4 & _). destruct c' as [d' n' cap']. cbn [c_cap c_data] in C3, C4. subst cap' d'.
        rewrite (emplace_cap d n cap room) by lia. rewrite E'. cbn [c_data c_size]. eexists _, m'. split; [reflexivity|].
        split; [cbn; split; [auto|]; split; [auto|]; split; [auto|exact HC']|]. cbn [c_data]. eapply storage_reown; eauto.
    + destruct (exists_last (l := l)) as (l0 & x & ->); [destruct l; discriminate|].
      assert (E2 : Some (Holds (removelast (l0 ++ [x])) cap room) = Some v') by (destruct (l0 ++ [x]); [discriminate|auto]).
      rewrite removelast_snoc in E2. injection E2 as <-. rewrite zlen_app in Hs. change (zlen [x]) with 1 in Hs.
      destruct (pop_spec m _ l0 x HC) as (c' & m' & E' & HC' & St & C3 & C4); [lia|]. cbn [c_data c_cap] in C3, C4.
      destruct c' as [d' n' cap']. cbn [c_cap c_data] in C3, C4. subst cap' d'.
      rewrite (pop_cap d n cap room). rewrite E'. cbn [c_data c_size]. eexists _, m'. split; [reflexivity|].
      split; [cbn; split; [auto|]; split; [auto|]; split; [auto|exact HC']|]. cbn [c_data]. eapply storage_reown; eauto.
    + destruct (Z.ltb_spec k 0) as [|Hk]; [discriminate|]. destruct (Z.ltb_spec cap k) as [Hc|Hc].
      * injection E as <-. destruct (resize_spec m _ l k (fun _ => x) HC Hk) as (c' & m' & E' & HC' & St & C3 & _). cbn [c_cap] in C3.
        destruct c' as [d' n' cap']. cbn [c_cap] in C3. rewrite Z.max_r in C3 by lia. subst cap'.
        rewrite (resize_cap_big d n cap room) by lia. rewrite E'. eexists _, m'. split; [reflexivity|].
        split; [|cbn [c_data]; eapply storage_reown; eauto].
        cbn. split; [auto|]. split; [auto|]. split; [lia|]. rewrite zvals_const, firstn_all2 in HC' by (unfold zlen in *; lia).
        replace (Z.to_nat k - length l)%nat with (Z.to_nat (k - zlen l)) by (unfold zlen; lia). exact HC'.
      * destruct (Z.leb_spec k room) as [Hc'|]; [|discriminate]. injection E as <-.
        destruct (resize_spec m _ l k (fun _ => x) HC Hk) as (c' & m' & E' & HC' & St & C3 & C4). cbn [c_cap c_data] in C3, C4.
        specialize (C4 Hc'). destruct c' as [d' n' cap']. cbn [c_cap c_data] in C3, C4. rewrite Z.max_l in C3 by lia. subst cap' d'.
        rewrite (resize_cap d n cap room) by lia. rewrite E'. cbn [c_data c_size]. eexists _, m'. split; [reflexivity|].
        split; [|cbn [c_data]; eapply storage_reown; eauto].
        cbn. split; [auto|]. split; [auto|]. split; [lia|]. rewrite zvals_const in HC'.
        replace (Z.to_nat k - length l)%nat with (Z.to_nat (k - zlen l)) by (unfold zlen; lia). exact HC'.
    + injection E as <-. destruct (Z.ltb_spec cap k) as [Hc|Hc].
      * destruct (reserve_spec m _ l k HC) as (c' & m' & E' & HC' & St & C3 & _). cbn [c_cap] in C3.
        destruct c' as [d' n' cap']. cbn [c_cap] in C3. rewrite Z.max_r in C3 by lia. subst cap'.
        rewrite (reserve_cap d n cap room) by lia. rewrite E'. eexists _, m'. split; [reflexivity|].
        split; [cbn; split; [auto|]; split; [auto|]; split; [lia|exact HC']|]. cbn [c_data]. eapply storage_reown; eauto.
      * unfold cont_reserve. cbn [c_cap]. destruct (Z.ltb_spec cap k); [lia|]. eexists _, m. split; [reflexivity|].
        split; [cbn; auto|]. exact Same.
    + destruct (Z.leb_spec 0 i) as [H0|]; [|discriminate]. destruct (Z.ltb_spec i (zlen l)) as [H1|]; [|discriminate]. injection E as <-.
      destruct (write_spec m _ l i x HC) as (m' & E' & HC' & St); [lia|].
      change (cont_set (mk_cont d n room) i x m) with (cont_set (mk_cont d n cap) i x m) in E'.
      erewrite bind_ok by exact E'. eexists _, m'. split; [reflexivity|].
      split; [cbn; split; [auto|]; split; [auto|]; split; [auto|exact HC']|]. cbn [c_data]. eapply storage_reown; eauto.
  - destruct R as (_ & -> & Hn). cbn [c_data].
    assert (Same : reown Null Null m m).
    { split; [split; [lia|auto]|]. split; [intros b []|intros b [[]|Hb]; lia]. }
    destruct o as [x| |k x|k|i x]; cbn [a_op k_op] in *; try discriminate.
    + destruct (Z.eqb_spec k 0) as [->|Hk].
      * injection E as <-. unfold cont_resize. cbn [c_cap c_size c_data]. destruct (Z.ltb_spec cap 0); [lia|].
        destruct (Z.ltb_spec 0 n0); [|lia]. cbn [destroy]. eexists _, m. split; [reflexivity|]. split; [|exact Same].
        cbn. split; [auto|]. split; [auto|]. split; [lia|]. repeat split; cbn; lia.
      * destruct (Z.eqb_spec k n0) as [->|]; [|discriminate]. injection E as <-.
        unfold cont_resize. cbn [c_cap c_size c_data]. destruct (Z.ltb_spec cap n0); [lia|].
        destruct (Z.ltb_spec n0 n0); [lia|]. erewrite bind_ok by (apply mfor_done; lia).
        eexists _, m. split; [reflexivity|]. split; [cbn; auto|exact Same].
    + unfold cont_reserve. cbn [c_cap]. destruct (Z.ltb_spec cap k); [discriminate|]. injection E as <-.
      eexists _, m. split; [reflexivity|]. split; [cbn; auto|exact Same].
Qed.

(** releasing whatever an object has *)
Lemma release_any m lk c v : represents m (Some (lk, c)) (Some (lk, v)) ->
  exists m', (destroy (c_data c) 0 (c_size c) ;;; deallocate (c_data c)) m = Ok (tt, m') /\ reown (c_data c) Null m m' /\ length m' = length m.
Proof.
  intros R. destruct v as [l cap room|n0 cap]; cbn [represents] in R.
  - destruct R as (_ & Ecap & Hr & HC). destruct (release_ok m _ l HC) as (m' & E & K & F & L). cbn [c_data c_size] in *.
    exists m'. split; auto. split; [|auto]. split; [auto|]. split; [intros b []|]. intros b [Hb|Hb] _; [auto|lia].
  - destruct R as (_ & -> & Hn). cbn [c_data c_size destroy]. exists m. split; [reflexivity|]. split; [|auto].
    split; [split; [lia|auto]|]. split; [intros b []|intros b [[]|Hb]; lia].
Qed.

(** ** one statement *)
Lemma reown_new m m' : keeps (fun _ => False) m m' -> length m' = S (length m) -> reown Null (Ptr (length m) 0) m m'.
Proof.
  intros (K1 & K) L. split; [split; [auto|]|split].
  - intros b Hb _. apply K; auto.
  - cbn. intros b ->. split; [right; auto|lia].
  - cbn. intros b [[]|Hb] Hn. lia.
Qed.
Lemma look m0 s m A a lk v : good_state m0 s m A -> a_get A a = Some (lk, v) ->
  exists c, nth_error s a = Some (Some (lk, c)) /\ represents m (Some (lk, c)) (Some (lk, v)) /\ nth_error A a = Some (Some (lk, v)).
Proof.
  intros (L & R & _) E. unfold a_get in E. destruct (nth_error A a) as [[o|]|] eqn:EA; try discriminate. injection E as ->.
  destruct (nth_error s a) as [x|] eqn:Es.
  - specialize (R a x _ Es EA). destruct x as [[lk' c]|]; [|destruct R]. assert (lk' = lk) as -> by (destruct v; apply R).
    exists c. auto.
  - apply nth_error_None in Es. apply nth_lt in EA. lia.
Qed.
Lemma look_none m0 s m A a : good_state m0 s m A -> a_get A a = None -> k_get (T := T) s a m = UB BadCall.
Proof.
  intros (L & R & _) E. unfold a_get in E. unfold k_get. destruct (nth_error s a) as [[x|]|] eqn:Es; auto.
  destruct (nth_error A a) as [[o|]|] eqn:EA; try discriminate.
  - exfalso. specialize (R a _ _ Es EA). destruct x. exact R.
  - apply nth_error_None in EA. apply nth_lt in Es. lia.
Qed.
Lemma k_get_ok s a ob m : nth_error s a = Some (Some ob) -> k_get (T := T) s a m = Ok (ob, m).
Proof. unfold k_get. now intros ->. Qed.
Lemma fits_get A a lk l cap room : fits A = true -> a_get A a = Some (lk, Holds l cap room) -> zlen l < 2 ^ 64.
Proof.
  unfold fits, a_get. rewrite forallb_forall. intros H E. destruct (nth_error A a) as [[o|]|] eqn:EA; try discriminate. injection E as ->.
  specialize (H _ (nth_error_In _ _ EA)). cbn in H. apply Z.ltb_lt in H. exact H.
Qed.
Lemma represents_moved m lk c v : represents m (Some (lk, c)) (Some (lk, v)) ->
  represents m (Some (lk, mk_cont Null (c_size c) (c_cap c))) (Some (lk, a_moved v)).
Proof.
  destruct v as [l cap room|n cap]; cbn [represents a_moved].
  - intros (_ & Ec & Hr & HC). pose proof HC as (En & Hl & _). cbn [c_size c_cap] in En, Hl. destruct l as [|x l].
    + cbn [represents]. cbn [c_cap c_data c_size]. split; [auto|]. split; [auto|]. split; [change (zlen (@nil T)) with 0 in Hl; lia|].
      split; [exact En|]. split; cbn; lia.
    + split; [auto|]. split; [f_equal; auto|]. unfold alen, zlen in *. cbn [length] in *. lia.
  - intros (_ & -> & H). split; [auto|]. split; [auto|auto].
Qed.
Lemma represents_lk m c v lk lk' : represents m (Some (lk, c)) (Some (lk, v)) -> represents m (Some (lk', c)) (Some (lk', v)).
Proof. destruct v; cbn; intuition. Qed.


Lemma copy_ok m c l cap room : c_cap c = cap -> room <= cap -> contains m (mk_cont (c_data c) (c_size c) room) l ->
  exists m', cont_copy c m = Ok (mk_cont (Ptr (length m) 0) (zlen l) cap, m') /\
    contains m' (mk_cont (Ptr (length m) 0) (zlen l) (zlen l)) l /\ reown Null (Ptr (length m) 0) m m'.
Proof.
  intros Ec Hr HC. pose proof HC as (En & Hl & _). cbn [c_size c_cap] in En, Hl.
  destruct (copy_into m _ l (c_size c) HC) as (m' & E & N & K & L); [lia|]. cbn [c_size c_data] in E.
  exists m'. unfold cont_copy. split; [|split; [|apply reown_new; auto]].
  - erewrite bind_ok by reflexivity. erewrite bind_ok by exact E. now rewrite En, Ec.
  - split; [reflexivity|]. split; [cbn; lia|]. cbn. split; auto. now rewrite N, En.
Qed.
(** copy assignment between different objects, after the target was released *)
Lemma copy_in_ok m c l cap room : c_cap c = cap -> room <= cap -> contains m (mk_cont (c_data c) (c_size c) room) l ->
  exists m', (let* p := alloc (c_cap c) in
    mfor 0 (c_size c) (fun i => let* x := load (c_data c) i in construct p i x) ;;;
    ret (mk_cont p (c_size c) (c_cap c))) m = Ok (mk_cont (Ptr (length m) 0) (zlen l) cap, m') /\
    contains m' (mk_cont (Ptr (length m) 0) (zlen l) cap) l /\ reown Null (Ptr (length m) 0) m m'.
Proof.
  intros Ec Hr HC. pose proof HC as (En & Hl & _). cbn [c_size c_cap] in En, Hl.
  destruct (copy_into m _ l (c_cap c) HC) as (m' & E & N & K & L); [lia|]. cbn [c_size c_data] in E.
  exists m'. split; [|split; [|apply reown_new; auto]].
  - erewrite bind_ok by reflexivity. erewrite bind_ok by exact E. now rewrite En, Ec.
  - split; [reflexivity|]. split; [cbn; lia|]. cbn. split; auto. now rewrite N, Ec.
Qed.
Lemma set_nth_app1 X (s : list X) i x y : (i < length s)%nat -> set_nth i x (s ++ [y]) = set_nth i x s ++ [y].
Proof. revert i; induction s as [|u s IH]; destruct i; cbn; intros; auto; try lia. rewrite IH; auto. lia. Qed.

Lemma k_step_ok m0 s m A q A' : good_state m0 s m A -> fits A = true -> a_step dflt q A = Some A' ->
  exists s' m', k_step moved dflt q s m = Ok (s', m') /\ good_state m0 s' m' A'.
Proof.
  intros G Hf E. pose proof (proj1 G) as Len. destruct q as [lk k|lk src|lk src|a o|a src|a src|a]; cbn [a_step k_step] in *.
  - destruct (a_new dflt k) as [l|] eqn:En; [|discriminate]. injection E as <-.
    destruct (k_new_ok m k l En) as (c & m' & E & Ec & HC & O). erewrite bind_ok by exact E.
    eexists _, m'. split; [reflexivity|]. eapply add_one; eauto. cbn. split; [auto|]. split; [auto|]. split; [lia|].
    rewrite <- Ec. destruct c. exact HC.
  - destruct (a_get A src) as [[lk' [l cap room|]]|] eqn:Eg; try discriminate. injection E as <-.
    destruct (look _ _ _ _ _ _ _ G Eg) as (c & Hs & R & _). erewrite bind_ok by (apply k_get_ok; eauto). cbn [snd].
    destruct R as (_ & Ec & Hr & HC). pose proof HC as (En & Hl & _). cbn [c_size c_cap] in En, Hl.
    destruct (copy_ok m c l cap room Ec Hr HC) as (m' & E & HC' & O). erewrite bind_ok by exact E.
    eexists _, m'. split; [reflexivity|]. eapply add_one; eauto.
    cbn. split; [auto|]. split; [auto|]. split; [unfold alen, zlen in *; lia|]. exact HC'.
  - destruct (a_get A src) as [[lk' v]|] eqn:Eg; [|discriminate]. destruct (lk' && negb lk) eqn:El; [discriminate|]. injection E as <-.
    destruct (look _ _ _ _ _ _ _ G Eg) as (c & Hs & R & HA). erewrite bind_ok by (apply k_get_ok; eauto). cbn [fst snd]. rewrite El. cbn [cont_move].
    eexists _, m. split; [reflexivity|]. pose proof (nth_lt _ _ _ _ Hs) as Hlt.
    pose proof (hand_over m0 _ m _ src (length s) (Some (lk', c)) None (Some (lk', mk_cont Null (c_size c) (c_cap c))) (Some (lk, mk_cont (c_data c) (c_size c) (c_cap c)))
      (Some (lk', a_moved v)) (Some (lk, v)) (grow_state _ _ _ _ G)) as H.
    rewrite set_nth_end in H. rewrite Len, set_nth_end in H. rewrite !set_nth_app1 in H by lia. apply H; auto; clear H.
    + lia.
    + rewrite nth_error_app1 by lia. auto.
    + rewrite <- Len, nth_error_app2, Nat.sub_diag by lia. reflexivity.
    + apply represents_moved; auto.
    + apply (represents_lk m _ v lk'). destruct c. exact R.
  - destruct (a_get A a) as [[lk v]|] eqn:Eg; [|discriminate]. destruct (a_offered lk o) eqn:Eo; [|discriminate].
    destruct (a_op o v) as [v'|] eqn:Ev; [|discriminate]. injection E as <-.
    destruct (look _ _ _ _ _ _ _ G Eg) as (c & Hs & R & HA). erewrite bind_ok by (apply k_get_ok; eauto). cbn [fst snd].
    replace (k_offered lk o) with true by (symmetry; destruct lk, o; auto).
    destruct (k_op_ok m lk c o v v' R) as (c' & m' & E & R' & O); auto.
    { intros l cap room ->. eapply fits_get; eauto. }
    erewrite bind_ok by exact E. eexists _, m'. split; [reflexivity|]. eapply change_one; eauto.
  - destruct (a_get A a) as [[[|] va]|] eqn:Ea; try discriminate. destruct (a_get A src) as [[lk v]|] eqn:Eg; [|discriminate].
    destruct (look _ _ _ _ _ _ _ G Ea) as (ca & Ha & Ra & HAa). destruct (look _ _ _ _ _ _ _ G Eg) as (c & Hs & R & HA).
    erewrite bind_ok by (apply k_get_ok; eauto). erewrite bind_ok by (apply k_get_ok; eauto). cbn [fst snd].
    unfold cont_copy_assign. destruct (Nat.eqb_spec a src) as [->|Hne].
    + injection E as <-. erewrite bind_ok by reflexivity. eexists _, m. split; [reflexivity|]. rewrite set_nth_id by auto. exact G.
    + destruct v as [l cap room|]; [|discriminate]. injection E as <-.
      destruct (release_any m false ca va Ra) as (m1 & E1 & O1 & L1). unfold bind in E1 |- *.
      destruct (destroy (c_data ca) 0 (c_size ca) m) as [[[] m1']|]; [|discriminate]. rewrite E1.
      assert (G1 : good_state m0 (set_nth a None s) m1 (set_nth a None A)) by (eapply change_one; eauto; exact I).
      destruct G1 as (Len1 & Rep1 & G1). pose proof (conj Len1 (conj Rep1 G1) : good_state m0 (set_nth a None s) m1 (set_nth a None A)) as G2.
      assert (R1 : represents m1 (Some (lk, c)) (Some (lk, Holds l cap room))).
      { apply (Rep1 src); rewrite nth_set_nth_other by auto; auto. }
      destruct R1 as (_ & Ec & Hr & HC).
      destruct (copy_in_ok m1 c l cap room Ec Hr HC) as (m' & E & HC' & O). unfold bind in E. rewrite E.
      eexists _, m'. split; [reflexivity|].
      rewrite <- (set_nth_set_nth _ a _ None s), <- (set_nth_set_nth _ a _ None A). apply (change_one m0 _ m1 _ a None); auto.
      * apply nth_set_nth_same. eapply nth_lt; eauto.
      * cbn. split; [auto|]. split; [auto|]. split; [lia|exact HC'].
  - destruct (a_get A a) as [[[|] va]|] eqn:Ea; try discriminate. destruct (a_get A src) as [[[|] v]|] eqn:Eg; try discriminate.
    destruct (look _ _ _ _ _ _ _ G Ea) as (ca & Ha & Ra & HAa). destruct (look _ _ _ _ _ _ _ G Eg) as (c & Hs & R & HA).
    erewrite bind_ok by (apply k_get_ok; eauto). erewrite bind_ok by (apply k_get_ok; eauto). cbn [fst snd orb].
    unfold cont_move_assign. destruct (Nat.eqb_spec a src) as [->|Hne].
    + injection E as <-. erewrite bind_ok by reflexivity. cbn [fst snd]. eexists _, m. split; [reflexivity|].
      assert (c = ca) as -> by congruence. rewrite !set_nth_id; auto. rewrite set_nth_id; auto.
    + injection E as <-.
      destruct (release_any m false ca va Ra) as (m1 & E1 & O1 & L1). unfold bind in E1 |- *.
      destruct (destroy (c_data ca) 0 (c_size ca) m) as [[[] m1']|]; [|discriminate]. rewrite E1.
      assert (G1 : good_state m0 (set_nth a None s) m1 (set_nth a None A)) by (eapply change_one; eauto; exact I).
      destruct G1 as (Len1 & Rep1 & G1). pose proof (conj Len1 (conj Rep1 G1) : good_state m0 (set_nth a None s) m1 (set_nth a None A)) as G2.
      assert (R1 : represents m1 (Some (false, c)) (Some (false, v))).
      { apply (Rep1 src); rewrite nth_set_nth_other by auto; auto. }
      eexists _, m1. split; [reflexivity|]. cbn [fst snd].
      rewrite <- (set_nth_set_nth _ a _ None s), <- (set_nth_set_nth _ a _ None A).
      apply (hand_over m0 _ m1 _ src a (Some (false, c)) None); auto.
      * rewrite nth_set_nth_other by auto. auto.
      * apply nth_set_nth_same. eapply nth_lt; eauto.
      * apply represents_moved. auto.
      * destruct c. exact R1.
  - destruct (a_get A a) as [[lk v]|] eqn:Ea; [|discriminate]. injection E as <-.
    destruct (look _ _ _ _ _ _ _ G Ea) as (c & Hs & R & HA). erewrite bind_ok by (apply k_get_ok; eauto). cbn [snd].
    destruct (release_any m lk c v R) as (m1 & E1 & O1 & L1). unfold cont_destroy. erewrite bind_ok by exact E1.
    eexists _, m1. split; [reflexivity|]. eapply change_one; eauto. exact I.
Qed.

(** ** statements that are not allowed *)
Lemma mfor_stop lo hi (body : Z -> M T unit) m e : lo < hi -> body lo m = UB e -> mfor lo hi body m = UB e.
Proof.
  intros Hn Hb. unfold mfor, mfold. replace (Z.to_nat (hi - lo)) with (S (Z.to_nat (hi - lo - 1))) by lia.
  cbn [mfold_n]. unfold bind at 1. now rewrite Hb.
Qed.
Lemma mfor_cut : forall k lo mid hi (body : Z -> M T unit) m m1, k = Z.to_nat (mid - lo) -> lo <= mid <= hi ->
  mfor lo mid body m = Ok (tt, m1) -> mfor lo hi body m = mfor mid hi body m1.
Proof.
  induction k as [|k IH]; intros lo mid hi body m m1 Ek H E.
  - assert (lo = mid) as <- by lia. rewrite mfor_done in E by lia. now injection E as ->.
  - assert (Hb : exists m2, body lo m = Ok (tt, m2)).
    { destruct (body lo m) as [[[] m2]|e] eqn:Eb; eauto. rewrite (mfor_stop _ _ _ _ e) in E by (auto; lia). discriminate. }
    destruct Hb as (m2 & Hb). rewrite (mfor_step lo mid body m m2) in E by (auto; lia). rewrite (mfor_step lo hi body m m2) by (auto; lia).
    eapply IH; eauto; lia.
Qed.
Lemma bind_ub X Y (k : M T X) (f : X -> M T Y) m e : k m = UB e -> bind k f m = UB e.
Proof. unfold bind. now intros ->. Qed.
(** storage with room for [room] objects *)
Lemma construct_beyond m d n l room x : contains m (mk_cont d n room) l -> exists e, construct d room x m = UB e.
Proof.
  intros (En & Hl & H). cbn [c_data c_cap c_size] in *. destruct d as [|b o]; cbn; [eauto|].
  destruct H as [-> H]. rewrite H. replace (znth _ (0 + room)) with (@None (option T)); eauto.
  pose proof (zlen_nn _ l). unfold znth. destruct (Z.leb_spec 0 (0 + room)); auto. symmetry. apply nth_error_None.
  rewrite app_length, map_length, repeat_length. unfold zlen in *. lia.
Qed.
Lemma at_raw m b l room i : contains m (mk_cont (Ptr b 0) (zlen l) room) l -> i < 0 \/ zlen l <= i ->
  exists L, nth_error m b = Some (Some L) /\ (znth L i = None \/ znth L i = Some None).
Proof.
  intros (En & Hl & H) Hi. cbn [c_data c_cap c_size] in *. destruct H as [_ H]. eexists. split; [exact H|].
  unfold znth. destruct (Z.leb_spec 0 i); auto. destruct Hi as [|Hi]; [lia|]. unfold zlen in *.
  rewrite nth_error_app2 by (rewrite map_length; lia).
  clear H. destruct (nth_error _ _) as [z|] eqn:E; auto. apply nth_error_In, repeat_spec in E. subst. auto.
Qed.
Lemma k_op_ub m lk c o v : represents m (Some (lk, c)) (Some (lk, v)) ->
  (forall l cap room, v = Holds l cap room -> zlen l < 2 ^ 64) -> a_op o v = None -> exists e, k_op moved o c m = UB e.
Proof.
  intros R Hs E. destruct v as [l cap room|n0 cap]; cbn [represents] in R.
  - destruct R as (_ & Ecap & Hr & HC). specialize (Hs l cap room eq_refl). destruct c as [d n cap0]. cbn [c_data c_size c_cap] in *. subst cap0.
    pose proof HC as (En & Hl & Hd). cbn [c_size c_cap c_data] in En, Hl, Hd. pose proof (zlen_nn _ l).
    destruct o as [x| |k x|k|i x]; cbn [a_op k_op] in *; rewrite ?lenz in E.
    + destruct (Z.eqb_spec (zlen l) cap) as [|Hf]; [discriminate|]. destruct (Z.ltb_spec (zlen l) room); [discriminate|].
      destruct (construct_beyond m d n l room x HC) as (e & Hc). exists e.
      unfold cont_emplace_back. cbn [c_size c_cap]. destruct (Z.eqb_spec n cap); [lia|].
      erewrite bind_ok by reflexivity. erewrite bind_ok by reflexivity. cbn [c_data c_size]. apply bind_ub.
      replace n with room by lia. exact Hc.
    + destruct l; [|discriminate]. change (zlen (@nil T)) with 0 in *. subst n.
      unfold cont_pop_back. cbn [c_size c_data]. change (u64 (0 - 1)) with (2 ^ 64 - 1). destruct d as [|b o]; [eexists; apply bind_ub; reflexivity|].
      destruct Hd as [-> Hd]. destruct (at_raw m b [] room (2 ^ 64 - 1) HC) as (L & HL & HZ); [right; cbn; lia|].
      destruct HZ as [HZ|HZ]; eexists; apply bind_ub; unfold destruct_at; rewrite HL, Z.add_0_l, HZ; reflexivity.
    + unfold cont_resize. cbn [c_size c_cap c_data]. destruct (Z.ltb_spec k 0) as [Hk|Hk].
      * destruct (Z.ltb_spec cap k); [lia|]. destruct (Z.ltb_spec k n); [|lia].
        assert (Hds : exists e, destruct_at d k m = UB e).
        { destruct d as [|b o]; [eexists; reflexivity|]. destruct Hd as [-> Hd]. unfold destruct_at. rewrite Hd. unfold znth.
          destruct (Z.leb_spec 0 (0 + k)); [lia|]. eauto. }
        destruct Hds as (e & Hds). exists e. apply bind_ub. unfold destroy.
        destruct d; [destruct k; [lia|lia|]|]; apply mfor_stop; auto; lia.
      * destruct (Z.ltb_spec cap k); [discriminate|]. destruct (Z.leb_spec k room); [discriminate|].
        destruct (Z.ltb_spec k n); [lia|].
        destruct (grow_ok m _ l room (fun _ => x) HC) as (m1 & E1 & HC1 & _); [cbn; lia|]. cbn [c_size c_data c_cap] in *.
        destruct (construct_beyond _ _ _ _ _ x (HC1 room eq_refl)) as (e & Hc). exists e. apply bind_ub.
        rewrite (mfor_cut _ n room k _ m m1 eq_refl) by (auto; lia). apply mfor_stop; [lia|exact Hc].
    + discriminate.
    + unfold cont_set. cbn [c_data]. assert (Hi : i < 0 \/ zlen l <= i).
      { destruct (Z.leb_spec 0 i); [|auto]. destruct (Z.ltb_spec i (zlen l)); [discriminate|auto]. }
      destruct d as [|b o]; [eexists; apply bind_ub; apply bind_ub; reflexivity|]. destruct Hd as [-> Hd]. subst n.
      destruct (at_raw m b l room i HC Hi) as (L & HL & HZ).
      destruct HZ as [HZ|HZ]; eexists; apply bind_ub; apply bind_ub; unfold load; rewrite HL, Z.add_0_l, HZ; reflexivity.
  - destruct R as (_ & -> & Hn).
    assert (Res : forall k, cap < k -> exists e, cont_reserve moved (mk_cont Null n0 cap) k m = UB e).
    { intros k Hk. unfold cont_reserve. cbn [c_cap c_size c_data]. destruct (Z.ltb_spec cap k); [|lia].
      eexists. erewrite bind_ok by reflexivity. apply bind_ub. apply mfor_stop; [lia|]. apply bind_ub. apply bind_ub. reflexivity. }
    destruct o as [x| |k x|k|i x]; cbn [a_op k_op] in *.
    + unfold cont_emplace_back. cbn [c_size c_cap]. destruct (Z.eqb_spec n0 cap) as [Hq|Hq].
      * destruct (Res (cap * 2 + 1)) as (e & He); [lia|]. exists e. apply bind_ub. exact He.
      * eexists. erewrite bind_ok by reflexivity. erewrite bind_ok by reflexivity. apply bind_ub. reflexivity.
    + eexists. apply bind_ub. reflexivity.
    + destruct (Z.eqb_spec k 0) as [|Hk]; [discriminate|]. destruct (Z.eqb_spec k n0) as [|Hk']; [discriminate|].
      unfold cont_resize. cbn [c_cap c_size c_data]. destruct (Z.ltb_spec cap k) as [Hc|Hc].
      * destruct (Res k Hc) as (e & He). exists e. apply bind_ub. exact He.
      * destruct (Z.ltb_spec k n0).
        -- eexists. apply bind_ub. unfold destroy. destruct k; [lia| |]; apply mfor_stop; auto; reflexivity.
        -- eexists. apply bind_ub. apply mfor_stop; [lia|]. reflexivity.
    + destruct (Z.ltb_spec cap k); [auto|discriminate].
    + eexists. apply bind_ub. apply bind_ub. reflexivity.
Qed.
Lemma k_step_ub m0 s m A q : good_state m0 s m A -> fits A = true -> a_step dflt q A = None ->
  exists e, k_step moved dflt q s m = UB e.
Proof.
  intros G Hf E. destruct q as [lk k|lk src|lk src|a o|a src|a src|a]; cbn [a_step k_step] in *.
  - destruct (a_new dflt k) as [l|] eqn:En; [discriminate|]. destruct k as [|n|l]; try discriminate. cbn in En |- *.
    destruct (n <? 0); [|discriminate]. eexists. apply bind_ub. reflexivity.
  - destruct (a_get A src) as [[lk' [l cap room|n cap]]|] eqn:Eg; try discriminate.
    + destruct (look _ _ _ _ _ _ _ G Eg) as (c & Hs & R & _). destruct R as (_ & -> & Hn).
      eexists. erewrite bind_ok by (apply k_get_ok; eauto). apply bind_ub. unfold cont_copy. cbn [snd c_size c_data c_cap].
      erewrite bind_ok by reflexivity. apply bind_ub. apply mfor_stop; [lia|]. apply bind_ub. reflexivity.
    + eexists. apply bind_ub. eapply look_none; eauto.
  - destruct (a_get A src) as [[lk' v]|] eqn:Eg; [|eexists; apply bind_ub; eapply look_none; eauto].
    destruct (lk' && negb lk) eqn:El; [|discriminate]. destruct (look _ _ _ _ _ _ _ G Eg) as (c & Hs & R & _).
    erewrite bind_ok by (apply k_get_ok; eauto). cbn [fst]. rewrite El. eexists. reflexivity.
  - destruct (a_get A a) as [[lk v]|] eqn:Eg; [|eexists; apply bind_ub; eapply look_none; eauto].
    destruct (look _ _ _ _ _ _ _ G Eg) as (c & Hs & R & _). erewrite bind_ok by (apply k_get_ok; eauto). cbn [fst snd].
    replace (k_offered lk o) with (a_offered lk o) by (destruct lk, o; auto). destruct (a_offered lk o); [|eexists; reflexivity].
    destruct (a_op o v) as [v'|] eqn:Ev; [discriminate|]. destruct (k_op_ub m lk c o v R) as (e & He); auto.
    { intros l cap room ->. eapply fits_get; eauto. }
    exists e. apply bind_ub. exact He.
  - destruct (a_get A a) as [[lka va]|] eqn:Ea; [|eexists; apply bind_ub; eapply look_none; eauto].
    destruct (look _ _ _ _ _ _ _ G Ea) as (ca & Ha & Ra & HAa). erewrite bind_ok by (apply k_get_ok; eauto).
    destruct (a_get A src) as [[lk v]|] eqn:Eg; [|eexists; apply bind_ub; eapply look_none; eauto].
    destruct (look _ _ _ _ _ _ _ G Eg) as (c & Hs & R & HA). erewrite bind_ok by (apply k_get_ok; eauto). cbn [fst snd].
    destruct lka; [eexists; reflexivity|]. unfold cont_copy_assign. destruct (Nat.eqb a src); [discriminate|].
    destruct v as [|n cap]; [discriminate|]. destruct R as (_ & -> & Hn).
    destruct (release_any m false ca va Ra) as (m1 & E1 & O1 & L1). unfold bind in E1.
    eexists. apply bind_ub. unfold bind at 1. destruct (destroy (c_data ca) 0 (c_size ca) m) as [[[] m1']|]; [|discriminate].
    erewrite bind_ok by exact E1. cbn [c_size c_data c_cap].
    erewrite bind_ok by reflexivity. apply bind_ub. apply mfor_stop; [lia|]. apply bind_ub. reflexivity.
  - destruct (a_get A a) as [[lka va]|] eqn:Ea; [|eexists; apply bind_ub; eapply look_none; eauto].
    destruct (look _ _ _ _ _ _ _ G Ea) as (ca & Ha & Ra & HAa). erewrite bind_ok by (apply k_get_ok; eauto).
    destruct (a_get A src) as [[lk v]|] eqn:Eg; [|eexists; apply bind_ub; eapply look_none; eauto].
    destruct (look _ _ _ _ _ _ _ G Eg) as (c & Hs & R & HA). erewrite bind_ok by (apply k_get_ok; eauto). cbn [fst snd].
    destruct lka, lk; try (eexists; reflexivity). destruct (Nat.eqb a src); discriminate.
  - destruct (a_get A a) as [[lk v]|] eqn:Ea; [discriminate|]. eexists. apply bind_ub. eapply look_none; eauto.
Qed.
End Proofs.

(** * Optimizers: one update, any state (proof infrastructure) *)
From Verif Require Import Mem Scalar MemSpec MemLemmas Lique LiqueProofs LinearProofs Optimizer OptimizerSpec Bufs.
Open Scope Z_scope.

Section OptProofs.
Context {T : Type} `{NT : Num T} {Nm : Type} `{NI : Names Nm}.
Implicit Types (m : mem T) (o : opt T).

Lemma same_refl (k : Nm) : same k k = true. Proof. destruct (same_spec k k); congruence. Qed.
(** per-element state: parameter, first and second accumulator *)
Record est := mk_est { e_w : T; e_v : T; e_s : T }.
Definition elem_step (k : opt_kind T) (lr t1 t2 : T) (x : est) (g : T) : est :=
  let 'mk_est w v s := x in
  match k with
  | GradDescent => mk_est (sub w (mul g lr)) v s
  | StoGradDescent alpha => mk_est (sub (mul w alpha) (mul g lr)) v s
  | Momentum mu => let v' := sub (mul v mu) (mul lr g) in mk_est (add w v') v' s
  | Nestorov mu => let v' := sub (mul v mu) (mul lr g) in mk_est (add (sub w (mul lr g)) (mul mu v')) v' s
  | AdaGrad => let v' := add v (mul g g) in mk_est (sub w (mul (mul (invert_sqrt v') g) lr)) v' s
  | RMSProp b rb => let v' := add (mul v b) (mul (mul g g) rb) in mk_est (sub w (mul (mul (invert_sqrt v') g) lr)) v' s
  | Adam b1 b2 rb1 rb2 =>
      let v' := add (mul v b1) (mul rb1 g) in let s' := add (mul s b2) (mul (mul g g) rb2) in
      mk_est (sub w (mul (mul (invert_sqrt (mul (div one (sub one t2)) s')) v') (div lr (sub one t1)))) v' s'
  end.
(** the running powers of beta1 and beta2 after an update *)
Definition next_t1 (k : opt_kind T) (t : T) : T := match k with Adam b1 _ _ _ => mul t b1 | _ => t end.
Definition next_t2 (k : opt_kind T) (t : T) : T := match k with Adam _ b2 _ _ => mul t b2 | _ => t end.
Definition scales_grad (k : opt_kind T) : Prop := match k with GradDescent | StoGradDescent _ => True | _ => False end.

Inductive tabid := TBuff | TM | TS.
Definition tab o (i : tabid) : table := match i with TBuff => o_buff o | TM => o_m o | TS => o_s o end.
Definition sel (i : tabid) (x : est) : T := match i with TBuff => e_w x | TM => e_v x | TS => e_s x end.

(** The tensors: number [k] lives at [P k], has [N k] elements. *)
Context (addr : ptr -> Z) (P : Nm -> ptr) (N : Nm -> Z).
Definition entry o (i : tabid) (k : Nm) : range := tab o i (addr (P k)).

Definition tensors_ok : Prop :=
  (forall k k', addr (P k) = addr (P k') -> k = k') /\
  (forall k k', k <> k' -> disjoint (P k) (N k) (P k') (N k')) /\ (forall k, 0 <= N k).

Definition entry_ok m (r : range) (n : Z) (i : tabid) (f : Z -> T) : Prop :=
  r = (Null, 0) /\ (forall j, 0 <= j < n -> i <> TBuff -> f j = zero) \/
  exists b c, r = (Ptr b c, n) /\ room m (Ptr b c) n /\ (i <> TBuff -> holds m (Ptr b c) n f).

Definition inv o m (X : Nm -> Z -> est) : Prop :=
  (forall k, holds m (P k) (N k) (fun j => e_w (X k j))) /\
  (forall i k, entry_ok m (entry o i k) (N k) i (fun j => sel i (X k j))) /\
  (forall i k i' k', i <> i' \/ k <> k' -> disjoint (fst (entry o i k)) (N k) (fst (entry o i' k')) (N k')) /\
  (forall i k k', disjoint (fst (entry o i k)) (N k) (P k') (N k')).

Lemma disjoint_null n q c : disjoint Null n q c. Proof. intros b i []. Qed.
Lemma disjoint_null_r n q c : disjoint q c Null n. Proof. intros b i _ []. Qed.
Lemma room_fresh m n p c : room m p c -> disjoint (Ptr (length m) 0) n p c.
Proof.
  intros Hr b i [-> _] H2. destruct p as [|b' o]; [exact H2|]. destruct H2 as [<- H2].
  specialize (Hr (i - o) ltac:(lia)). apply Hr. cbn. unfold cell.
  destruct (nth_error m (length m)) eqn:E; auto. exfalso.
  assert (length m < length m)%nat by (apply nth_error_Some; congruence). lia.
Qed.
Lemma keeps_holds m m' p n v : keeps (fun _ => False) m m' -> holds m p n v -> holds m' p n v.
Proof.
  intros Hk Hh i Hi. specialize (Hh i Hi). destruct p as [|b c]; [discriminate|]. cbn in *.
  eapply keeps_cell; eauto.
Qed.
Lemma keeps_room m m' p n : keeps (fun _ => False) m m' -> room m p n -> room m' p n.
Proof.
  intros Hk Hh i Hi. specialize (Hh i Hi). destruct p as [|b c]; [exact Hh|]. cbn in *.
  destruct (cell m b (c + i)) as [x|] eqn:E; [|congruence]. assert (cell m' b (c + i) = Some x) by (eapply keeps_cell; eauto). congruence.
Qed.
Lemma entry_room o m X i k : inv o m X -> fst (entry o i k) = Null \/ room m (fst (entry o i k)) (N k).
Proof.
  intros (_ & H & _). destruct (H i k) as [[-> _]|(b & c & -> & Hr & _)]; [now left|now right].
Qed.

(** get: the entry exists afterwards *)
Definition set_tab o (i : tabid) (t : table) : opt T :=
  mk_opt (o_kind o) (o_lr o) (match i with TBuff => t | _ => o_buff o end) (match i with TM => t | _ => o_m o end)
         (match i with TS => t | _ => o_s o end) (o_t1 o) (o_t2 o).
Lemma tab_set_same o i t : tab (set_tab o i t) i = t. Proof. now destruct i. Qed.
Lemma tab_set_other o i t i' : i' <> i -> tab (set_tab o i t) i' = tab o i'. Proof. destruct i, i'; cbn; congruence. Qed.

Definition get_post o m X i k (rt : range * table) m' : Prop :=
  let o' := set_tab o i (snd rt) in
  inv o' m' X /\ keeps (fun _ => False) m m' /\ entry o' i k = fst rt /\ fst (fst rt) <> Null /\ snd (fst rt) = N k /\
  (forall i' k', i' <> i \/ k' <> k -> entry o' i' k' = entry o i' k') /\
  (forall q c, room m q c -> (forall i k, disjoint q c (fst (entry o i k)) (N k)) -> forall i k, disjoint q c (fst (entry o' i k)) (N k)) /\
  (fst (entry o' i k) = fst (entry o i k) \/ exists b, fst (entry o' i k) = Ptr b 0 /\ (length m <= b)%nat).
Lemma wp_opt_get o m X i k : tensors_ok -> inv o m X ->
  wp (opt_get (tab o i) (addr (P k)) (N k)) m (get_post o m X i k).
Proof.
  intros (Hinj & Hdis & HN) Hinv. pose proof Hinv as (I1 & I2 & I3 & I4). unfold opt_get.
  destruct (fst (tab o i (addr (P k)))) as [|b c] eqn:En.
  - (* new entry *)
    apply wp_bind, wp_alloc. eapply wp_bind'.
    { apply wp_assign_val_cpy. apply room_alloc. }
    intros [] m' S. apply wp_ret. set (p := Ptr (length m) 0) in *.
    assert (Hmade : made m (N k) (fun _ => zero) p m') by (apply made_of_sets; auto).
    destruct Hmade as (_ & _ & Hz & Hk & _).
    set (t' := fun k0 => if k0 =? addr (P k) then (p, N k) else tab o i k0).
    assert (E1 : forall i' k', i' <> i \/ k' <> k -> entry (set_tab o i t') i' k' = entry o i' k').
    { intros i' k' H. unfold entry.
      assert (Hd : i' = i \/ i' <> i) by (destruct i, i'; auto; right; discriminate).
      destruct Hd as [->|Hne]; [|now rewrite tab_set_other]. rewrite tab_set_same. unfold t'.
      destruct (Z.eqb_spec (addr (P k')) (addr (P k))) as [E|E]; [|reflexivity]. apply Hinj in E. subst. destruct H; congruence. }
    assert (E2 : entry (set_tab o i t') i k = (p, N k)).
    { unfold entry. rewrite tab_set_same. unfold t'. now rewrite Z.eqb_refl. }
    assert (Hcase : forall i' k', (i' = i /\ k' = k) \/ (i' <> i \/ k' <> k)).
    { intros i' k'. assert (Hd : i' = i \/ i' <> i) by (destruct i, i'; auto; right; discriminate).
      destruct (reflect_dec _ _ (same_spec k' k)); tauto. }
    assert (Hfresh : forall i' k', disjoint p (N k) (fst (entry o i' k')) (N k')).
    { intros i' k'. destruct (entry_room o m X i' k' Hinv) as [E|Hr]; [rewrite E; apply disjoint_null_r|now apply room_fresh]. }
    unfold get_post. cbn [snd fst]. fold t'. repeat split.
    + intros k'. eapply keeps_holds; eauto.
    + intros i' k'. destruct (Hcase i' k') as [[-> ->]|Hne].
      * rewrite E2. right. exists (length m), 0. split; [reflexivity|]. split; [eapply holds_room; eauto|].
        intros Hb. destruct (I2 i k) as [[_ H0]|(b & c & E & _)]; [|unfold entry in E; rewrite E in En; discriminate].
        eapply holds_ext; [|exact Hz]. intros j Hj. symmetry. apply H0; auto.
      * rewrite E1 by auto. destruct (I2 i' k') as [H0|(b & c & E & Hr & Hh)]; [now left|]. right. exists b, c. split; auto.
        split; [eapply keeps_room; eauto|]. intros Hb. eapply keeps_holds; eauto.
    + intros i1 k1 i2 k2 Hne. destruct (Hcase i1 k1) as [[-> ->]|H1], (Hcase i2 k2) as [[-> ->]|H2].
      * destruct Hne; congruence.
      * rewrite E2, E1 by auto. apply Hfresh.
      * rewrite E2, (E1 i1 k1) by auto. apply disjoint_sym, Hfresh.
      * rewrite !E1 by auto. auto.
    + intros i1 k1 k2. destruct (Hcase i1 k1) as [[-> ->]|H1]; [|rewrite E1 by auto; auto].
      rewrite E2. apply room_fresh. eapply holds_room; eauto.
    + apply Hk.
    + apply Hk.
    + exact E2.
    + discriminate.
    + exact E1.
    + intros q c Hq Hall i1 k1. destruct (Hcase i1 k1) as [[-> ->]|H1]; [|rewrite E1 by auto; auto].
      rewrite E2. apply disjoint_sym, room_fresh. auto.
    + right. exists (length m). rewrite E2. split; [reflexivity|lia].
  - apply wp_ret. unfold get_post. cbn [snd fst].
    assert (E0 : set_tab o i (tab o i) = o) by (destruct i, o; reflexivity). rewrite E0.
    split; [exact Hinv|]. split; [split; auto|]. split; [reflexivity|]. rewrite En. split; [discriminate|]. split.
    + destruct (I2 i k) as [[E _]|(b' & c' & E & _)]; unfold entry in E; rewrite E in En |- *; [discriminate|reflexivity].
    + auto.
Qed.

(** the invariant after an update of tensor [k] *)
Lemma inv_frame o m X k gp gn X' m' (W : nat -> Z -> Prop) : tensors_ok -> inv o m X ->
  only W m m' ->
  (forall b c, W b c -> inside (P k) (N k) b c \/ (exists i, inside (fst (entry o i k)) (N k) b c) \/ inside gp gn b c) ->
  (forall k', disjoint gp gn (P k') (N k')) -> (forall i k', disjoint gp gn (fst (entry o i k')) (N k')) ->
  (forall k', k' <> k -> X' k' = X k') ->
  holds m' (P k) (N k) (fun j => e_w (X' k j)) ->
  (forall i, entry_ok m' (entry o i k) (N k) i (fun j => sel i (X' k j))) ->
  inv o m' X'.
Proof.
  intros (Hinj & Hdis & HN) (I1 & I2 & I3 & I4) Ho HW G1 G2 HX Hw He. split; [|split; [|split]]; auto.
  - intros k'. destruct (reflect_dec _ _ (same_spec k' k)) as [->|Hne]; [exact Hw|]. rewrite HX by auto.
    eapply only_holds; [exact Ho| |apply I1]. intros b c H1 H2. apply HW in H2 as [H2|[(i & H2)|H2]].
    + eapply (Hdis k' k); eauto.
    + eapply I4; eauto.
    + eapply G1; eauto.
  - intros i k'. destruct (reflect_dec _ _ (same_spec k' k)) as [->|Hne]; [apply He|]. rewrite HX by auto.
    destruct (I2 i k') as [H0|(b & c & E & Hr & Hh)]; [now left|]. right. exists b, c. split; auto. split.
    + eapply only_room; eauto.
    + intros Hb. eapply only_holds; [exact Ho| |apply Hh; auto]. intros b1 c1 H1 H2.
      assert (H1' : inside (fst (entry o i k')) (N k') b1 c1) by (rewrite E; exact H1).
      apply HW in H2 as [H2|[(i' & H2)|H2]].
      * eapply I4; eauto.
      * eapply (I3 i k' i' k); eauto.
      * eapply G2; eauto.
Qed.

Definition upd_state (X : Nm -> Z -> est) (k : Nm) (f : Z -> est) : Nm -> Z -> est :=
  fun k' => if same k' k then f else X k'.
Definition grad_ok o (gp : ptr) (k : Nm) : Prop :=
  (forall k', disjoint gp (N k) (P k') (N k')) /\ (forall i k', disjoint gp (N k) (fst (entry o i k')) (N k')).
Definition upd_post o m X k gp (g : Z -> T) o' m' : Prop :=
  let t1 := next_t1 (o_kind o) (o_t1 o) in let t2 := next_t2 (o_kind o) (o_t2 o) in
  inv o' m' (upd_state X k (fun j => elem_step (o_kind o) (o_lr o) t1 t2 (X k j) (g j))) /\
  o_kind o' = o_kind o /\ o_lr o' = o_lr o /\ o_t1 o' = t1 /\ o_t2 o' = t2 /\
  (forall q c v, holds m q c v -> disjoint q c (P k) (N k) -> (forall i, disjoint q c (fst (entry o i k)) (N k)) ->
     (scales_grad (o_kind o) -> disjoint q c gp (N k)) -> holds m' q c v) /\
  (scales_grad (o_kind o) -> holds m' gp (N k) (fun j => mul (g j) (o_lr o))) /\
  (forall q c, room m q c -> (forall i k, disjoint q c (fst (entry o i k)) (N k)) ->
     forall i k, disjoint q c (fst (entry o' i k)) (N k)) /\
  (forall q c, room m q c -> room m' q c).

(** gradient descent *)
Lemma upd_state_same X k f : upd_state X k f k = f. Proof. unfold upd_state. now rewrite same_refl. Qed.
Lemma upd_state_other X k f k' : k' <> k -> upd_state X k f k' = X k'.
Proof. intros. unfold upd_state. destruct (same_spec k' k); congruence. Qed.

Definition fam2 (p0 p1 : ptr) (i : nat) : ptr := match i with O => p0 | _ => p1 end.
Definition fam4 (p0 p1 p2 p3 : ptr) (i : nat) : ptr := match i with O => p0 | 1%nat => p1 | 2%nat => p2 | _ => p3 end.
Definition fam5 (p0 p1 p2 p3 p4 : ptr) (i : nat) : ptr := match i with O => p0 | 1%nat => p1 | 2%nat => p2 | 3%nat => p3 | _ => p4 end.
Definition env4 (f0 f1 f2 f3 f4 : option (Z -> T)) : nat -> option (Z -> T) :=
  fun i => match i with O => f0 | 1%nat => f1 | 2%nat => f2 | 3%nat => f3 | _ => f4 end.

Tactic Notation "bstep" uconstr(L) := eapply wp_bind'; [eapply L; [..|eassumption]; first [exact I | discriminate | lia | reflexivity]|intros [] ? ?].
Lemma wp_gd o m X k gp g : scales_grad (o_kind o) -> tensors_ok -> inv o m X -> grad_ok o gp k -> holds m gp (N k) g ->
  wp (opt_update addr o (P k, N k) (gp, N k)) m (upd_post o m X k gp g).
Proof.
  intros Hs Ht Hinv [G1 G2] Hg. pose proof Hinv as (I1 & I2 & I3 & I4).
  set (B := fam2 (P k) gp).
  assert (HB : forall i j, (i < 2)%nat -> (j < 2)%nat -> i <> j -> disjoint (B i) (N k) (B j) (N k)).
  { intros [|[|?]] [|[|?]] Hi Hj Hij; try lia; cbn; [apply disjoint_sym|]; apply G1. }
  set (e0 := env4 (Some (fun j => e_w (X k j))) (Some g) None None None).
  assert (S0 : st B (N k) 2 (fun _ => True) m e0 m).
  { apply st_init.
    - intros [|[|?]] Hi; try lia; cbn; eapply holds_room; eauto.
    - intros [|[|?]] f Hi; try lia; cbn; intros [= <-]; auto. }
  assert (Hfin : forall e m' w', st B (N k) 2 (fun _ => True) m e m' -> e 0%nat = Some w' ->
     (forall j, w' j = e_w (elem_step (o_kind o) (o_lr o) (next_t1 (o_kind o) (o_t1 o)) (next_t2 (o_kind o) (o_t2 o)) (X k j) (g j))) ->
     e 1%nat = Some (fun j => mul (g j) (o_lr o)) -> upd_post o m X k gp g o m').
  { intros e m' w' (Sr & Sh & So) Ew Hw Eg. unfold upd_post.
    assert (Hvs : forall j i, i <> TBuff -> sel i (elem_step (o_kind o) (o_lr o) (next_t1 (o_kind o) (o_t1 o)) (next_t2 (o_kind o) (o_t2 o)) (X k j) (g j)) = sel i (X k j)).
    { intros j i Hi. destruct (X k j) as [w v s]. destruct (o_kind o); cbn in Hs; try tauto; destruct i; cbn; congruence. }
    split; [|split; [|split; [|split; [|split; [|split; [|split; [|split]]]]]]]; auto.
    - eapply (inv_frame o m X k gp (N k)); eauto.
      + intros b c (i & _ & Hi & H). destruct i as [|[|?]]; try lia; cbn in H; auto.
      + intros k' Hk. now apply upd_state_other.
      + rewrite upd_state_same. eapply holds_ext; [|apply (Sh 0%nat); [lia|exact Ew]]. auto.
      + intros i. rewrite upd_state_same. destruct (I2 i k) as [[E H0]|(b & c & E & Hr & Hh)].
        * left. split; auto. intros j Hj Hb. rewrite Hvs by auto. auto.
        * right. exists b, c. split; auto. split; [eapply only_room; eauto|]. intros Hb.
          eapply holds_ext; [intros j Hj; symmetry; apply Hvs; auto|].
          eapply only_holds; [exact So| |apply Hh; auto]. intros b1 c1 H1 (i1 & _ & Hi1 & H2).
          assert (H1' : inside (fst (entry o i k)) (N k) b1 c1) by (rewrite E; exact H1).
          destruct i1 as [|[|?]]; try lia; cbn in H2; [eapply I4; eauto|eapply G2; eauto].
    - destruct (o_kind o); cbn in Hs |- *; tauto.
    - destruct (o_kind o); cbn in Hs |- *; tauto.
    - intros q c v Hq D1 _ D2. eapply only_holds; [exact So| |exact Hq]. intros b1 c1 H1 (i1 & _ & Hi1 & H2).
      destruct i1 as [|[|?]]; try lia; cbn in H2; [eapply D1; eauto|eapply D2; eauto].
    - intros _. apply (Sh 1%nat); [lia|exact Eg].
    - intros q c. apply only_room with (1 := So). }
  unfold opt_update. destruct (o_kind o) as [|alpha| | | | |] eqn:Ek; cbn in Hs; try tauto; unfold r_join, r_op; cbn [fst snd].
  - bstep (s_assign_val B (N k) 2 HB (fun _ => True) m e0 m 1%nat).
    bstep (s_assign_src B (N k) 2 HB (fun _ => True) m _ _ 0%nat OpSub 1%nat).
    apply wp_ret. eapply Hfin; [eassumption|reflexivity| |reflexivity].
    intros j. cbn. destruct (X k j). reflexivity.
  - bstep (s_assign_val B (N k) 2 HB (fun _ => True) m e0 m 1%nat).
    bstep (s_assign_val B (N k) 2 HB (fun _ => True) m _ _ 0%nat).
    bstep (s_assign_src B (N k) 2 HB (fun _ => True) m _ _ 0%nat OpSub 1%nat).
    apply wp_ret. eapply Hfin; [eassumption|reflexivity| |reflexivity].
    intros j. cbn. destruct (X k j). reflexivity.
Qed.

(** after the gets of buffer and first accumulator (and second, for Adam) *)
Lemma finish o o' m m1 X k gp g e m' (useS : bool) :
  tensors_ok -> ~ scales_grad (o_kind o) -> inv o' m1 X -> keeps (fun _ => False) m m1 ->
  o_kind o' = o_kind o -> o_lr o' = o_lr o ->
  o_t1 o' = next_t1 (o_kind o) (o_t1 o) -> o_t2 o' = next_t2 (o_kind o) (o_t2 o) ->
  (forall q c, room m q c -> (forall i k, disjoint q c (fst (entry o i k)) (N k)) ->
     forall i k, disjoint q c (fst (entry o' i k)) (N k)) ->
  (forall i, fst (entry o' i k) = fst (entry o i k) \/ fst (entry o' i k) = Null \/ exists b, fst (entry o' i k) = Ptr b 0 /\ (length m <= b)%nat) ->
  grad_ok o' gp k ->
  entry o' TBuff k = (fst (entry o' TBuff k), N k) -> entry o' TM k = (fst (entry o' TM k), N k) ->
  (useS = true -> entry o' TS k = (fst (entry o' TS k), N k)) ->
  fst (entry o' TM k) <> Null -> fst (entry o' TBuff k) <> Null -> (useS = true -> fst (entry o' TS k) <> Null) ->
  st (fam5 (P k) gp (fst (entry o' TBuff k)) (fst (entry o' TM k)) (fst (entry o' TS k))) (N k) (if useS then 5 else 4)
     (fun i => i <> 1%nat) m1 e m' ->
  let r := fun j => elem_step (o_kind o) (o_lr o) (o_t1 o') (o_t2 o') (X k j) (g j) in
  (exists w', e 0%nat = Some w' /\ forall j, w' j = e_w (r j)) ->
  (exists v', e 3%nat = Some v' /\ forall j, v' j = e_v (r j)) ->
  (if useS then exists s', e 4%nat = Some s' /\ forall j, s' j = e_s (r j) else forall j, e_s (r j) = e_s (X k j)) ->
  upd_post o m X k gp g o' m'.
Proof.
  intros Ht Hns Hinv Hk Ek El E1 E2 Hdis' Hent [G1 G2] EB EM ES NM NB NS (Sr & Sh & So) r (w' & Ew & Hw) (v' & Ev & Hv) Hs.
  pose proof Hinv as (I1 & I2 & I3 & I4).
  set (K := if useS then 5%nat else 4%nat) in *. assert (HK : (4 <= K <= 5)%nat) by (unfold K; destruct useS; lia).
  unfold upd_post. rewrite <- E1, <- E2. fold r.
  split; [|split; [|split; [|split; [|split; [|split; [|split; [|split]]]]]]]; auto.
  - eapply (inv_frame o' m1 X k gp (N k)); eauto.
    + intros b c (i & Hi1 & Hi & H). destruct i as [|[|[|[|[|?]]]]]; try lia; cbn in H; [now left|right; left; now exists TBuff|right; left; now exists TM|right; left; now exists TS].
    + intros k' Hk'. now apply upd_state_other.
    + rewrite upd_state_same. eapply holds_ext; [|apply (Sh 0%nat); [lia|exact Ew]]. auto.
    + intros i. rewrite upd_state_same. destruct i.
      * right. destruct (fst (entry o' TBuff k)) as [|b c] eqn:Ef; [congruence|]. exists b, c. split; [now rewrite EB|]. split.
        -- specialize (Sr 2%nat ltac:(lia)). cbn in Sr. exact Sr.
        -- intros Hb. now destruct Hb.
      * right. destruct (fst (entry o' TM k)) as [|b c] eqn:Ef; [congruence|]. exists b, c. split; [now rewrite EM|].
        assert (Hh : holds m' (Ptr b c) (N k) (fun j => sel TM (r j))).
        { eapply holds_ext; [|apply (Sh 3%nat); [lia|exact Ev]]. auto. }
        split; [eapply holds_room; exact Hh|auto].
      * destruct useS.
        -- right. destruct (fst (entry o' TS k)) as [|b c] eqn:Ef; [specialize (NS eq_refl); congruence|]. exists b, c. split; [now rewrite ES|].
           destruct Hs as (s' & Es & Hs').
           assert (Hh : holds m' (Ptr b c) (N k) (fun j => sel TS (r j))).
           { eapply holds_ext; [|apply (Sh 4%nat); [unfold K; lia|exact Es]]. auto. }
           split; [eapply holds_room; exact Hh|auto].
        -- destruct (I2 TS k) as [[E H0]|(b & c & E & Hr & Hh)].
           ++ left. split; auto. intros j Hj Hb. cbn [sel]. rewrite Hs. apply H0; auto.
           ++ right. exists b, c. split; auto. split; [eapply only_room; eauto|]. intros Hb.
              eapply holds_ext; [intros j Hj; symmetry; apply Hs|].
              eapply only_holds; [exact So| |apply Hh; auto]. intros b1 c1 H1 (i1 & Hn1 & Hi1 & H2).
              assert (H1' : inside (fst (entry o' TS k)) (N k) b1 c1) by (rewrite E; exact H1).
              unfold K in Hi1. destruct i1 as [|[|[|[|?]]]]; try lia; cbn in H2.
              ** eapply I4; eauto.
              ** eapply (I3 TS k TBuff k); [left; discriminate|exact H1'|exact H2].
              ** eapply (I3 TS k TM k); [left; discriminate|exact H1'|exact H2].
  - intros q c v Hq D1 D2 _. assert (Hq1 : holds m1 q c v) by (eapply keeps_holds; eauto).
    assert (De : forall i, disjoint q c (fst (entry o' i k)) (N k)).
    { intros i. destruct (Hent i) as [->|[->|(b & -> & Hb)]]; auto; [apply disjoint_null_r|].
      intros b1 c1 H1 [-> H2]. destruct q as [|qb qo]; [exact H1|]. destruct H1 as [-> H1].
      specialize (Hq (c1 - qo) ltac:(lia)). cbn in Hq. apply cell_lt in Hq. lia. }
    eapply only_holds; [exact So| |exact Hq1]. intros b1 c1 H1 (i1 & Hn1 & Hi1 & H2).
    destruct i1 as [|[|[|[|[|?]]]]]; try lia; cbn in H2; [eapply D1; eauto|eapply (De TBuff); eauto|eapply (De TM); eauto|eapply (De TS); eauto].
  - tauto.
  - intros q c Hr. eapply only_room; [exact So|]. eapply keeps_room; eauto.
Qed.

Definition ready o m X k gp g o' m1 (useS : bool) : Prop :=
  inv o' m1 X /\ keeps (fun _ => False) m m1 /\
  (forall q c, room m q c -> (forall i k, disjoint q c (fst (entry o i k)) (N k)) ->
     forall i k, disjoint q c (fst (entry o' i k)) (N k)) /\
  (forall i, fst (entry o' i k) = fst (entry o i k) \/ exists b, fst (entry o' i k) = Ptr b 0 /\ (length m <= b)%nat) /\
  grad_ok o' gp k /\ holds m1 gp (N k) g /\
  (forall i, (useS = false -> i <> TS) -> fst (entry o' i k) <> Null /\ entry o' i k = (fst (entry o' i k), N k)).

Lemma keeps_trans m m1 m2 : keeps (fun _ => False) m m1 -> keeps (fun _ => False) m1 m2 -> keeps (fun _ => False) m m2.
Proof.
  intros [L1 H1] [L2 H2]. split; [lia|]. intros b Hb Hn. rewrite H2 by (auto; lia). auto.
Qed.
Lemma get_chain o m X k gp g o1 m1 i rt m2 (A : tabid -> Prop) :
  inv o1 m1 X -> keeps (fun _ => False) m m1 ->
  (forall q c, room m q c -> (forall i k, disjoint q c (fst (entry o i k)) (N k)) ->
     forall i k, disjoint q c (fst (entry o1 i k)) (N k)) ->
  (forall i, fst (entry o1 i k) = fst (entry o i k) \/ exists b, fst (entry o1 i k) = Ptr b 0 /\ (length m <= b)%nat) ->
  grad_ok o1 gp k -> holds m1 gp (N k) g ->
  (forall i, A i -> fst (entry o1 i k) <> Null /\ entry o1 i k = (fst (entry o1 i k), N k)) ->
  get_post o1 m1 X i k rt m2 ->
  let o2 := set_tab o1 i (snd rt) in
  inv o2 m2 X /\ keeps (fun _ => False) m m2 /\
  (forall q c, room m q c -> (forall i k, disjoint q c (fst (entry o i k)) (N k)) ->
     forall i k, disjoint q c (fst (entry o2 i k)) (N k)) /\
  (forall i, fst (entry o2 i k) = fst (entry o i k) \/ exists b, fst (entry o2 i k) = Ptr b 0 /\ (length m <= b)%nat) /\
  grad_ok o2 gp k /\ holds m2 gp (N k) g /\
  (forall i', A i' \/ i' = i -> fst (entry o2 i' k) <> Null /\ entry o2 i' k = (fst (entry o2 i' k), N k)).
Proof.
  intros Hinv Hk Hd He [G1 G2] Hg HA (Hinv2 & Hk2 & E & Hnn & En & Eo & Hd2 & Hf) o2. fold o2 in Hinv2, E, Eo, Hd2, Hf.
  assert (Hcase : forall i', i' = i \/ i' <> i) by (intros i'; destruct i, i'; auto; right; discriminate).
  split; [exact Hinv2|]. split; [eapply keeps_trans; eauto|]. split; [|split; [|split; [|split]]].
  - intros q c Hr Hq. apply Hd2; [eapply keeps_room; eauto|]. auto.
  - intros i'. destruct (Hcase i') as [->|Hne].
    + destruct Hf as [->|(b & Eb & Hb)]; [auto|]. right. exists b. split; auto. destruct Hk; lia.
    + rewrite Eo by auto. auto.
  - split; [exact G1|]. apply Hd2; [eapply holds_room; eauto|auto].
  - eapply keeps_holds; eauto.
  - intros i' Hi. destruct (Hcase i') as [->|Hne].
    + rewrite E. split; [exact Hnn|]. destruct rt as [[p c] t]. cbn in *. congruence.
    + rewrite Eo by auto. destruct Hi as [Hi| ->]; [auto|congruence].
Qed.

Lemma wp_two {A} o m X k gp g (F : range -> table -> range -> table -> M T A) Q :
  tensors_ok -> inv o m X -> grad_ok o gp k -> holds m gp (N k) g ->
  (forall b tb v tm m2, let o2 := set_tab (set_tab o TBuff tb) TM tm in ready o m X k gp g o2 m2 false ->
     entry o2 TBuff k = b -> entry o2 TM k = v -> wp (F b tb v tm) m2 Q) ->
  wp (let* b := opt_get (o_buff o) (addr (P k)) (N k) in let '(buff, tb) := b in
      let* v := opt_get (o_m o) (addr (P k)) (N k) in let '(optimized, tm) := v in F buff tb optimized tm) m Q.
Proof.
  intros Ht Hinv Hgo Hg HF.
  eapply wp_bind'; [apply (wp_opt_get o m X TBuff k); auto|]. intros [b tb] m1 P1.
  pose proof P1 as (_ & _ & Eb & _).
  destruct (get_chain o m X k gp g o m TBuff (b, tb) m1 (fun _ => False)) as (C1 & C2 & C3 & C4 & C5 & C6 & C7); auto; [split; auto|tauto|].
  cbn [snd fst] in *. set (o1 := set_tab o TBuff tb) in *.
  eapply wp_bind'; [apply (wp_opt_get o1 m1 X TM k); auto|]. intros [v tm] m2 P2.
  pose proof P2 as (_ & _ & Ev & _ & _ & Eo & _). cbn [snd fst] in Ev, Eo.
  destruct (get_chain o m X k gp g o1 m1 TM (v, tm) m2 (fun i => i = TBuff)) as (D1 & D2 & D3 & D4 & D5 & D6 & D7); auto.
  cbn [snd fst] in *. apply HF; auto.
  - split; [exact D1|]. split; [exact D2|]. split; [exact D3|]. split; [exact D4|]. split; [exact D5|]. split; [exact D6|].
    intros i Hi. apply D7. destruct i; auto. destruct (Hi eq_refl). reflexivity.
Qed.
Lemma wp_three {A} o m X k gp g (F : range -> table -> range -> table -> range -> table -> M T A) Q :
  tensors_ok -> inv o m X -> grad_ok o gp k -> holds m gp (N k) g ->
  (forall b tb v tm s ts m2, let o2 := set_tab (set_tab (set_tab o TBuff tb) TM tm) TS ts in ready o m X k gp g o2 m2 true ->
     entry o2 TBuff k = b -> entry o2 TM k = v -> entry o2 TS k = s -> wp (F b tb v tm s ts) m2 Q) ->
  wp (let* b := opt_get (o_buff o) (addr (P k)) (N k) in let '(buff, tb) := b in
      let* v := opt_get (o_m o) (addr (P k)) (N k) in let '(optimized, tm) := v in
      let* s := opt_get (o_s o) (addr (P k)) (N k) in let '(opts, ts) := s in
      F buff tb optimized tm opts ts) m Q.
Proof.
  intros Ht Hinv Hgo Hg HF.
  eapply (wp_two o m X k gp g (fun buff tb optimized tm => let* s := opt_get (o_s o) (addr (P k)) (N k) in let '(opts, ts) := s in
      F buff tb optimized tm opts ts)); eauto.
  intros b tb v tm m2 o2 R Eb Ev. pose proof R as (C1 & C2 & C3 & C4 & C5 & C6 & C7).
  eapply wp_bind'; [apply (wp_opt_get o2 m2 X TS k); auto|]. intros [s ts] m3 P3.
  pose proof P3 as (_ & _ & Es & _ & _ & Eo & _). cbn [snd fst] in Es, Eo.
  destruct (get_chain o m X k gp g o2 m2 TS (s, ts) m3 (fun i => i <> TS)) as (D1 & D2 & D3 & D4 & D5 & D6 & D7); auto.
  cbn [snd fst] in *. apply HF; auto.
  - split; [exact D1|]. split; [exact D2|]. split; [exact D3|]. split; [exact D4|]. split; [exact D5|]. split; [exact D6|].
    intros i Hi. apply D7. destruct i; auto; left; discriminate.
Qed.

Lemma ready_st o m X k gp g o' m1 useS : ready o m X k gp g o' m1 useS ->
  let B := fam5 (P k) gp (fst (entry o' TBuff k)) (fst (entry o' TM k)) (fst (entry o' TS k)) in
  let K := if useS then 5%nat else 4%nat in
  (forall i j, (i < K)%nat -> (j < K)%nat -> i <> j -> disjoint (B i) (N k) (B j) (N k)) /\
  st B (N k) K (fun i => i <> 1%nat) m1
     (env4 (Some (fun j => e_w (X k j))) (Some g) None (Some (fun j => e_v (X k j)))
           (if useS then Some (fun j => e_s (X k j)) else None)) m1.
Proof.
  intros ((I1 & I2 & I3 & I4) & R2 & R3 & R4 & [G1 G2] & R6 & R7) B K.
  assert (HK : (4 <= K <= 5)%nat) by (unfold K; destruct useS; lia).
  assert (Hroom : forall i, (useS = false -> i <> TS) -> exists b c, fst (entry o' i k) = Ptr b c /\ room m1 (Ptr b c) (N k) /\
     (i <> TBuff -> holds m1 (Ptr b c) (N k) (fun j => sel i (X k j)))).
  { intros i Hi. destruct (R7 i Hi) as [Hn He]. destruct (I2 i k) as [[E _]|(b & c & E & Hr & Hh)].
    - rewrite E in Hn. now destruct Hn.
    - exists b, c. rewrite E. auto. }
  split.
  - assert (Hlt : forall i j, (i < j)%nat -> (j < 5)%nat -> disjoint (B i) (N k) (B j) (N k)).
    { intros i j Hij Hj.
      destruct i as [|[|[|[|[|?]]]]]; try lia; destruct j as [|[|[|[|[|?]]]]]; try lia; unfold B; cbn [fam5];
      first [ apply G2 | apply disjoint_sym, G1 | apply disjoint_sym, I4 | apply I3; left; discriminate ]. }
    intros i j Hi Hj Hij. destruct (Nat.lt_ge_cases i j); [apply Hlt; lia|apply disjoint_sym, Hlt; lia].
  - apply st_init.
    + intros i Hi. destruct i as [|[|[|[|[|?]]]]]; try lia; unfold B; cbn [fam5].
      * eapply holds_room; eauto.
      * eapply holds_room; eauto.
      * destruct (Hroom TBuff) as (b & c & -> & Hr & _); auto; discriminate.
      * destruct (Hroom TM) as (b & c & -> & Hr & _); auto; discriminate.
      * unfold K in Hi. destruct useS; [|lia]. destruct (Hroom TS) as (b & c & -> & Hr & _); auto; discriminate.
    + intros i f Hi. destruct i as [|[|[|[|[|?]]]]]; try lia; unfold B; cbn [fam5 env4]; try (intros [= <-]); auto; try discriminate.
      * destruct (Hroom TM) as (b & c & -> & _ & Hr); try discriminate. apply Hr. discriminate.
      * unfold K in Hi. destruct useS; [|lia]. intros [= <-]. destruct (Hroom TS) as (b & c & -> & _ & Hr); try discriminate. apply Hr. discriminate.
Qed.
Lemma ready_finish o m X k gp g o' m1 useS e m' :
  tensors_ok -> ~ scales_grad (o_kind o) -> ready o m X k gp g o' m1 useS ->
  o_kind o' = o_kind o -> o_lr o' = o_lr o ->
  o_t1 o' = next_t1 (o_kind o) (o_t1 o) -> o_t2 o' = next_t2 (o_kind o) (o_t2 o) ->
  st (fam5 (P k) gp (fst (entry o' TBuff k)) (fst (entry o' TM k)) (fst (entry o' TS k))) (N k) (if useS then 5 else 4)
     (fun i => i <> 1%nat) m1 e m' ->
  let r := fun j => elem_step (o_kind o) (o_lr o) (o_t1 o') (o_t2 o') (X k j) (g j) in
  (exists w', e 0%nat = Some w' /\ forall j, w' j = e_w (r j)) ->
  (exists v', e 3%nat = Some v' /\ forall j, v' j = e_v (r j)) ->
  (if useS then exists s', e 4%nat = Some s' /\ forall j, s' j = e_s (r j) else forall j, e_s (r j) = e_s (X k j)) ->
  upd_post o m X k gp g o' m'.
Proof.
  intros Ht Hns R Ek El E1 E2 S r Hw Hv Hs. pose proof R as (I & R2 & R3 & R4 & R5 & R6 & R7).
  eapply (finish o o' m m1 X k gp g e m' useS); eauto.
  - intros i. destruct (R4 i) as [H|H]; auto.
  - apply R7. discriminate.
  - apply R7. discriminate.
  - intros ->. apply R7. discriminate.
  - apply R7. discriminate.
  - apply R7. discriminate.
  - intros ->. apply R7. discriminate.
Qed.

Ltac ent o2 := match goal with |- st (fam5 _ _ (fst ?a) (fst ?b) (fst ?c)) (N ?k) _ _ _ _ _ =>
  change a with (entry o2 TBuff k); change b with (entry o2 TM k); change c with (entry o2 TS k) end.
Ltac efin Xkj := cbv beta iota delta [eset env4 Nat.eqb]; eexists; split; [reflexivity|]; let j := fresh "j" in intros j; cbn; destruct (Xkj j); reflexivity.
Lemma wp_update o m X k gp g : tensors_ok -> inv o m X -> grad_ok o gp k -> holds m gp (N k) g ->
  wp (opt_update addr o (P k, N k) (gp, N k)) m (upd_post o m X k gp g).
Proof.
  intros Ht Hinv Hgo Hg.
  destruct o as [[| alpha | mu | mu | | b rb | b1 b2 rb1 rb2] lr tb0 tm0 ts0 t1 t2] eqn:Eo.
  1, 2: apply wp_gd; auto; exact I.
  all: rewrite <- Eo in Hinv, Hgo |- *; unfold opt_update; rewrite Eo at 1; cbn [fst snd o_kind o_lr o_t1 o_t2].
  1-4: eapply wp_two; eauto; intros [pB nB] tb [pM nM] tm m2 o2 R Eb Ev;
    assert (nB = N k) as -> by (destruct R as (_ & _ & _ & _ & _ & _ & R7); destruct (R7 TBuff) as [_ E]; [discriminate|]; rewrite Eb in E; cbn in E; congruence);
    assert (nM = N k) as -> by (destruct R as (_ & _ & _ & _ & _ & _ & R7); destruct (R7 TM) as [_ E]; [discriminate|]; rewrite Ev in E; cbn in E; congruence);
    destruct (ready_st _ _ _ _ _ _ _ _ _ R) as [HB S0];
    rewrite Eb, Ev in HB, S0; cbn [fst snd] in HB, S0; set (B := fam5 _ _ _ _ _) in *; set (W := fun i : nat => i <> 1%nat) in *;
    set (e0 := env4 _ _ _ _ _) in *;
    unfold r_join, r_join_src, r_op, r_op2, r_apply, r_apply_src; cbn [fst snd].
  - bstep (s_assign_val B (N k) 4 HB W _ _ _ 3%nat).
    bstep (s_assign_val_src B (N k) 4 HB W _ _ _ 2%nat OpMul _ 1%nat).
    bstep (s_assign_src B (N k) 4 HB W _ _ _ 3%nat OpSub 2%nat).
    bstep (s_assign_src B (N k) 4 HB W _ _ _ 0%nat OpAdd 3%nat).
    apply wp_ret. subst o. eapply (ready_finish _ m X k gp g _ _ false); [assumption|tauto|exact R|reflexivity..|ent o2; rewrite Eb, Ev; eassumption|efin (X k)|efin (X k)|].
    intros j. destruct (X k j). reflexivity.
  - bstep (s_assign_val B (N k) 4 HB W _ _ _ 3%nat).
    bstep (s_assign_val_src B (N k) 4 HB W _ _ _ 2%nat OpMul _ 1%nat).
    bstep (s_assign_src B (N k) 4 HB W _ _ _ 3%nat OpSub 2%nat).
    bstep (s_assign_src B (N k) 4 HB W _ _ _ 0%nat OpSub 2%nat).
    bstep (s_assign_val_src B (N k) 4 HB W _ _ _ 2%nat OpMul _ 3%nat).
    bstep (s_assign_src B (N k) 4 HB W _ _ _ 0%nat OpAdd 2%nat).
    apply wp_ret. subst o. eapply (ready_finish _ m X k gp g _ _ false); [assumption|tauto|exact R|reflexivity..|ent o2; rewrite Eb, Ev; eassumption|efin (X k)|efin (X k)|].
    intros j. destruct (X k j). reflexivity.
  - bstep (s_assign2 B (N k) 4 HB W _ _ _ 2%nat OpMul 1%nat 1%nat).
    bstep (s_assign_src B (N k) 4 HB W _ _ _ 3%nat OpAdd 2%nat).
    bstep (s_apply_src B (N k) 4 HB W _ _ _ 2%nat _ 3%nat).
    bstep (s_assign_src B (N k) 4 HB W _ _ _ 2%nat OpMul 1%nat).
    bstep (s_assign_val B (N k) 4 HB W _ _ _ 2%nat).
    bstep (s_assign_src B (N k) 4 HB W _ _ _ 0%nat OpSub 2%nat).
    apply wp_ret. subst o. eapply (ready_finish _ m X k gp g _ _ false); [assumption|tauto|exact R|reflexivity..|ent o2; rewrite Eb, Ev; eassumption|efin (X k)|efin (X k)|].
    intros j. destruct (X k j). reflexivity.
  - bstep (s_assign_val B (N k) 4 HB W _ _ _ 3%nat).
    bstep (s_assign2 B (N k) 4 HB W _ _ _ 2%nat OpMul 1%nat 1%nat).
    bstep (s_assign_val B (N k) 4 HB W _ _ _ 2%nat).
    bstep (s_assign_src B (N k) 4 HB W _ _ _ 3%nat OpAdd 2%nat).
    bstep (s_apply_src B (N k) 4 HB W _ _ _ 2%nat _ 3%nat).
    bstep (s_assign_src B (N k) 4 HB W _ _ _ 2%nat OpMul 1%nat).
    bstep (s_assign_val B (N k) 4 HB W _ _ _ 2%nat).
    bstep (s_assign_src B (N k) 4 HB W _ _ _ 0%nat OpSub 2%nat).
    apply wp_ret. subst o. eapply (ready_finish _ m X k gp g _ _ false); [assumption|tauto|exact R|reflexivity..|ent o2; rewrite Eb, Ev; eassumption|efin (X k)|efin (X k)|].
    intros j. destruct (X k j). reflexivity.
  - eapply wp_three; eauto; intros [pB nB] tb [pM nM] tm [pS nS] ts m2 o2 R Eb Ev Es.
    assert (nB = N k) as -> by (destruct R as (_ & _ & _ & _ & _ & _ & R7); destruct (R7 TBuff) as [_ E]; [discriminate|]; rewrite Eb in E; cbn in E; congruence).
    assert (nM = N k) as -> by (destruct R as (_ & _ & _ & _ & _ & _ & R7); destruct (R7 TM) as [_ E]; [discriminate|]; rewrite Ev in E; cbn in E; congruence).
    assert (nS = N k) as -> by (destruct R as (_ & _ & _ & _ & _ & _ & R7); destruct (R7 TS) as [_ E]; [discriminate|]; rewrite Es in E; cbn in E; congruence).
    destruct (ready_st _ _ _ _ _ _ _ _ _ R) as [HB S0].
    rewrite Eb, Ev, Es in HB, S0; cbn [fst snd] in HB, S0; set (B := fam5 _ _ _ _ _) in *; set (W := fun i : nat => i <> 1%nat) in *.
    set (e0 := env4 _ _ _ _ _) in *.
    unfold r_join, r_join_src, r_op, r_op2, r_apply, r_apply_src; cbn [fst snd].
    bstep (s_assign_val B (N k) 5 HB W _ _ _ 3%nat).
    bstep (s_assign_val_src B (N k) 5 HB W _ _ _ 2%nat OpMul _ 1%nat).
    bstep (s_assign_src B (N k) 5 HB W _ _ _ 3%nat OpAdd 2%nat).
    bstep (s_assign_val B (N k) 5 HB W _ _ _ 4%nat).
    bstep (s_assign2 B (N k) 5 HB W _ _ _ 2%nat OpMul 1%nat 1%nat).
    bstep (s_assign_val B (N k) 5 HB W _ _ _ 2%nat).
    bstep (s_assign_src B (N k) 5 HB W _ _ _ 4%nat OpAdd 2%nat).
    bstep (s_assign_val_src B (N k) 5 HB W _ _ _ 2%nat OpMul _ 4%nat).
    bstep (s_apply B (N k) 5 HB W _ _ _ 2%nat).
    bstep (s_assign_src B (N k) 5 HB W _ _ _ 2%nat OpMul 3%nat).
    bstep (s_assign_val B (N k) 5 HB W _ _ _ 2%nat).
    bstep (s_assign_src B (N k) 5 HB W _ _ _ 0%nat OpSub 2%nat).
    apply wp_ret. subst o. eapply (ready_finish _ m X k gp g _ _ true); [assumption|tauto|exact R|reflexivity..|ent o2; rewrite Eb, Ev, Es; eassumption|efin (X k)|efin (X k)|efin (X k)].
Qed.
End OptProofs.

(** * Training runs with any optimizer on networks in memory (proofs for C105, C106) *)
From Verif Require Import Mem Scalar MemSpec MemLemmas Lique LiqueSpec LiqueProofs LiqueProofs2 Linear LinearProofs Functions FunctionSpec FunctionProofs
  Skel Bufs Optimizer OptimizerSpec OptimizerProofs OptimizerHist Layer LayerSpec FCProofs Cells ConvSpec ConvProofs ConvProofs2 PoolSpec PoolProofs PropFC PropConv PropPool
  Net NetPlan NetProofs NetBack PropNet Schedule PropTraining Descent.
Open Scope Z_scope.

Section Grow.
Context {T : Type} `{NT : Num T}.
(** ** an update releases nothing *)
Definition grows {A} (c : M T A) : Prop := forall m a m', c m = Ok (a, m') -> forall b n, live m b n -> live m' b n.
Lemma grows_still A (c : M T A) : still c -> grows c.
Proof. intros S m a m' E b n L. eapply live_skel; [apply (S m a m' E)|exact L]. Qed.
Lemma grows_bind A B (c : M T A) (f : A -> M T B) : grows c -> (forall a, grows (f a)) -> grows (bind c f).
Proof. intros G H m a m' E b n L. apply bind_inv in E as (x & m1 & E1 & E2). eapply H; [exact E2|]. eapply G; eauto. Qed.
Lemma grows_ret A (a : A) : grows (ret a). Proof. apply grows_still, still_ret. Qed.
Lemma grows_alloc n : grows (alloc (T := T) n).
Proof.
  intros m a m' E b k (l & H & Ln). unfold alloc in E. injection E as <- <-. exists l. split; [|exact Ln]. rewrite nth_error_app1; [exact H|]. apply nth_error_Some. congruence.
Qed.
Lemma grows_get t key n : grows (opt_get (T := T) t key n).
Proof.
  unfold opt_get. destruct (fst (t key)); [|apply grows_ret]. apply grows_bind; [apply grows_alloc|]. intros p. apply grows_bind; [apply grows_still, still_assign_val|]. intros []. apply grows_ret.
Qed.
Lemma grows_update addr o p g : grows (opt_update addr o p g).
Proof.
  unfold opt_update. destruct (o_kind o);
  repeat first [ apply grows_ret
    | apply grows_bind; [first [ apply grows_get | apply grows_still; first [ apply still_assign_val | apply still_assign_src | apply still_assign_val_src | apply still_assign2 | apply still_apply | apply still_apply_src ] ]|intros]
    | match goal with |- grows (let '(_, _) := ?a in _) => destruct a end ].
Qed.
End Grow.

Section Any.
Context {T : Type} `{NT : Num T}.
Implicit Types (m : mem T) (l : list (node T)) (d : node T) (o : opt T).

(** ** what an update does to the contents of a layer *)
(** contents of the layer's tensors, accumulators kept for them, running powers of beta1 and beta2 *)
Record ost := mk_ost { os_s : contents T; os_x : role -> Z -> T * T; os_t1 : T; os_t2 : T }.
Definition scalesb (kd : opt_kind T) : bool := match kd with GradDescent | StoGradDescent _ => true | _ => false end.
Lemma scalesb_spec kd : scales_grad kd <-> scalesb kd = true.
Proof. destruct kd; cbn; split; intros; try tauto; try discriminate; auto. Qed.
Definition t_elem (kd : opt_kind T) (lr : T) (st : ost) (rp rg : role) (j : Z) : est :=
  elem_step kd lr (next_t1 kd (os_t1 st)) (next_t2 kd (os_t2 st)) (mk_est (os_s st rp j) (fst (os_x st rp j)) (snd (os_x st rp j))) (os_s st rg j).
Definition t_step (kd : opt_kind T) (lr : T) (st : ost) (pg : role * role) : ost :=
  let '(rp, rg) := pg in
  mk_ost (set_role (if scalesb kd then set_role (os_s st) rg (fun j => mul (os_s st rg j) lr) else os_s st) rp (fun j => e_w (t_elem kd lr st rp rg j)))
    (fun r => if role_eq_dec r rp then fun j => (e_v (t_elem kd lr st rp rg j), e_s (t_elem kd lr st rp rg j)) else os_x st r)
    (next_t1 kd (os_t1 st)) (next_t2 kd (os_t2 st)).
Definition n_pairs d : list (role * role) :=
  match n_layer d, n_plan d with
  | LFC L, _ => [(RB, rGB L); (RW 0, rGW L)]
  | LConv _, PConv g => map (fun f => (RW f, RGradW f)) (zrange 0 (g_f g)) ++ [(RB, RGradB)]
  | _, _ => []
  end.
Definition n_scaled (alpha : T) d : contents T :=
  match n_layer d with LFC L => fc_scaled L alpha (n_data d) | LConv _ => conv_scaled alpha (n_data d) | _ => n_data d end.
Definition o_layer (kd : opt_kind T) (lr alpha : T) d (x : role -> Z -> T * T) (t1 t2 : T) : ost :=
  fold_left (t_step kd lr) (n_pairs d) (mk_ost (n_scaled alpha d) x t1 t2).
(** the whole network: layers, accumulators of tensor (layer, role), powers *)
Record nst := mk_nst { ns_l : list (node T); ns_x : nat -> role -> Z -> T * T; ns_t1 : T; ns_t2 : T }.
Definition with_data d (s : contents T) : node T := mk_node (n_layer d) (n_plan d) s.
Fixpoint o_layers (kd : opt_kind T) (lr alpha : T) (i : nat) (l : list (node T)) (x : nat -> role -> Z -> T * T) (t1 t2 : T) : nst :=
  match l with
  | [] => mk_nst [] x t1 t2
  | d :: l =>
      let st := o_layer kd lr alpha d (x i) t1 t2 in
      let r := o_layers kd lr alpha (S i) l (fun i' => if Nat.eqb i' i then os_x st else x i') (os_t1 st) (os_t2 st) in
      mk_nst (with_data d (os_s st) :: ns_l r) (ns_x r) (ns_t1 r) (ns_t2 r)
  end.
Definition o_net kd lr alpha (st : nst) : nst := o_layers kd lr alpha 0 (ns_l st) (ns_x st) (ns_t1 st) (ns_t2 st).

(** ** parts of all layers *)
Definition prole (r : role) : bool := match r with RB | RW _ => true | _ => false end.
Definition part_of (Ls : list layer) (i : nat) (r : role) : option tensor := match nth_error Ls i with Some L => part L r | None => None end.
Lemma part_of_in l i r t : part_of (layers l) i r = Some t -> exists d, nth_error l i = Some d /\ part (n_layer d) r = Some t.
Proof. unfold part_of, layers. rewrite nth_error_map. destruct (nth_error l i) as [d|]; cbn; [|discriminate]. eauto. Qed.
Lemma part_of_nth l i d r : nth_error l i = Some d -> part_of (layers l) i r = part (n_layer d) r.
Proof. intros E. unfold part_of, layers. rewrite nth_error_map, E. reflexivity. Qed.
Lemma net_layer_at m l i d : net_at m l -> nth_error l i = Some d -> layer_at m (n_layer d) (n_data d).
Proof. intros [F _] E. rewrite Forall_forall in F. apply F. eapply nth_error_In; eauto. Qed.
Lemma net_pairs l : forall m i i' d d' b, net_at m l -> nth_error l i = Some d -> nth_error l i' = Some d' -> i <> i' -> block_in (n_layer d) b -> block_in (n_layer d') b -> False.
Proof.
  induction l as [|e l IH]; intros m i i' d d' b A E E' Ne B B'; [destruct i; discriminate|]. apply net_at_cons in A as (_ & _ & A & D).
  destruct i as [|i], i' as [|i']; cbn in E, E'; [congruence| | |].
  - injection E as ->. apply (D b B). exists d'. split; [eapply nth_error_In; eauto|exact B'].
  - injection E' as ->. apply (D b B'). exists d. split; [eapply nth_error_In; eauto|exact B].
  - eapply (IH m i i'); eauto.
Qed.
Lemma part_ptr_of m l i r t : net_at m l -> part_of (layers l) i r = Some t -> t_data t = Ptr (block_of t) 0.
Proof. intros A E. apply part_of_in in E as (d & E & P). eapply part_ptr; [eapply net_layer_at; eauto|eauto]. Qed.
Lemma parts_blocks m l i i' r r' t t' : net_at m l -> part_of (layers l) i r = Some t -> part_of (layers l) i' r' = Some t' -> (i, r) <> (i', r') -> block_of t <> block_of t'.
Proof.
  intros A E E' Ne. pose proof (part_of_in _ _ _ _ E) as (d & N & P). pose proof (part_of_in _ _ _ _ E') as (d' & N' & P').
  destruct (Nat.eq_dec i i') as [<-|Ni].
  - assert (d' = d) by congruence. subst d'. eapply (net_layer_at _ _ _ _ A N); eauto. congruence.
  - intros Q. eapply (net_pairs l m i i' d d' (block_of t)); eauto; [exists r, t; auto|exists r', t'; auto].
Qed.
Lemma parts_disj m l i i' r r' t t' n k : net_at m l -> part_of (layers l) i r = Some t -> part_of (layers l) i' r' = Some t' -> (i, r) <> (i', r') ->
  disjoint (t_data t) n (t_data t') k.
Proof.
  intros A E E' Ne. rewrite (part_ptr_of _ _ _ _ _ A E), (part_ptr_of _ _ _ _ _ A E'). apply disjoint_blocks. eapply parts_blocks; eauto.
Qed.
(** new contents in the layers, same objects: the network is in memory again *)
Lemma net_at_again m m' l l' : net_at m l -> layers l' = layers l -> plans l' = plans l ->
  (forall b n, live m b n -> live m' b n) ->
  (forall i d r t, nth_error l' i = Some d -> part (n_layer d) r = Some t -> holds m' (t_data t) (t_size t) (n_data d r)) -> net_at m' l'.
Proof.
  intros A EL EP G H.
  assert (B : forall i d', nth_error l' i = Some d' -> exists d, nth_error l i = Some d /\ n_layer d' = n_layer d /\ n_plan d' = n_plan d).
  { intros i d' E. pose proof (f_equal (fun q => nth_error q i) EL) as Q1. pose proof (f_equal (fun q => nth_error q i) EP) as Q2. unfold layers, plans in Q1, Q2. cbv beta in Q1, Q2.
    rewrite !nth_error_map, E in Q1, Q2. destruct (nth_error l i) as [d|]; cbn in Q1, Q2; [|discriminate]. exists d. split; [reflexivity|]. split; congruence. }
  split.
  - apply Forall_forall. intros d' Hd. apply In_nth_error in Hd as (i & E). destruct (B i d' E) as (d & E1 & E2 & E3). pose proof A as [F _]. rewrite Forall_forall in F.
    destruct (F d ltac:(eapply nth_error_In; eauto)) as [F1 F2]. rewrite E2, E3. split; [exact F1|]. split; [|apply F2].
    intros r t P. rewrite <- E2 in P. split; [|eapply H; eauto]. rewrite E2 in P. destruct (proj1 F2 r t P) as [[O1 (b & O2 & O3)] _]. split; [exact O1|]. exists b. split; [exact O2|]. now apply G.
  - destruct A as [_ A]. clear -A EL. revert l' EL. induction A as [|d l H A IH]; intros [|d' l'] EL; try discriminate; [constructor|]. cbn in EL. injection EL as E1 E2. constructor; [|auto].
    rewrite E1. apply Forall_forall. intros e He. rewrite Forall_forall in H. apply (in_map n_layer) in He. fold (layers l') in He. unfold layers in He. rewrite E2 in He. apply in_map_iff in He as (e' & <- & He). now apply H.
Qed.
Lemma ready_any m l t lo idata odata xs ys m' l' : ready m l t lo idata odata xs ys -> plans l' = plans l ->
  (Forall train_class (layers l) -> Forall train_class (layers l')) -> (forall b, net_block l' b <-> net_block l b) ->
  net_at m' l' -> (forall b n, live m b n -> live m' b n) ->
  (forall i x, 0 <= i < Z.of_nat (length idata) -> znth idata i = Some x -> holds m (t_data x) (t_size x) (xs i) -> net_outside l (t_data x) ->
    disjoint (t_data (tr_delta t)) (t_size (tr_delta t)) (t_data x) (t_size x) -> holds m' (t_data x) (t_size x) (xs i)) ->
  (forall i y, 0 <= i < Z.of_nat (length idata) -> znth odata i = Some y -> holds m (t_data y) (t_size (tr_delta t)) (ys i) -> net_outside l (t_data y) ->
    disjoint (t_data (tr_delta t)) (t_size (tr_delta t)) (t_data y) (t_size (tr_delta t)) -> holds m' (t_data y) (t_size (tr_delta t)) (ys i)) ->
  ready m' l' t lo idata odata xs ys.
Proof.
  intros (Hn & Tr & A & (El & Wb & Od & Ow) & Da) Ep Tc Nb A' G Kx Ky.
  assert (Len : length l' = length l) by (pose proof (f_equal (@length _) Ep) as Q; unfold plans in Q; now rewrite !map_length in Q).
  assert (No : forall p, net_outside l p -> net_outside l' p). { intros [|b i] Q; cbn in *; [exact Q|]. now rewrite Nb. }
  split; [now rewrite Len|]. split; [auto|]. split; [exact A'|]. split.
  - split; [exact El|]. split; [now rewrite Ep|]. split; [now apply No|]. destruct Ow as [E1 (b & E2 & lv)]. split; [exact E1|]. exists b. split; [exact E2|]. now apply G.
  - intros i Hi. destruct (Da i Hi) as (x & y & Zx & Zy & (W & Hx & Ox) & Dx & (Hy & Oy & Dy)). exists x, y. split; [exact Zx|]. split; [exact Zy|].
    split; [|split; [exact Dx|]].
    + split; [now rewrite Ep|]. split; [now apply Kx|now apply No].
    + split; [now apply Ky|]. split; [now apply No|exact Dy].
Qed.

(** ** network, trainer, data and optimizer together *)
Section Run.
Context (addr : ptr -> Z) (t : trainer) (lo : loss) (idata odata : list tensor) (xs ys : Z -> Z -> T).
Notation ready m l := (ready m l t lo idata odata xs ys).
Context {Nm : Type} `{NI : Names Nm} (loc : Nm -> nat * role) (P : Nm -> ptr) (N : Nm -> Z) (L0 : list layer).
(** [loc] names exactly the parameter tensors of [L0] *)
Definition names_params : Prop :=
  (forall k, exists t', prole (snd (loc k)) = true /\ part_of L0 (fst (loc k)) (snd (loc k)) = Some t' /\ P k = t_data t' /\ N k = t_size t') /\
  (forall k k', loc k = loc k' -> k = k') /\
  (forall i r t', prole r = true -> part_of L0 i r = Some t' -> exists k, loc k = (i, r) /\ P k = t_data t' /\ N k = t_size t').
Context (HL : names_params) (HT : tensors_ok addr P N).
(** memory set aside: what the optimizer does not own *)
Context (Rs : ptr -> Z -> Prop).
Definition reserves : Prop :=
  (forall i r t', part_of L0 i r = Some t' -> Rs (t_data t') (t_size t')) /\
  Rs (t_data (tr_delta t)) (t_size (tr_delta t)) /\
  (forall i x, 0 <= i < Z.of_nat (length idata) -> znth idata i = Some x -> Rs (t_data x) (t_size x)) /\
  (forall i y, 0 <= i < Z.of_nat (length idata) -> znth odata i = Some y -> Rs (t_data y) (t_size (tr_delta t))).
Context (HR : reserves).
Definition same_parts l : Prop := forall i r, part_of (layers l) i r = part_of L0 i r.
Definition cont l (i : nat) (r : role) : Z -> T := match nth_error l i with Some d => n_data d r | None => fun _ => zero end.
Definition ests l (x : nat -> role -> Z -> T * T) (k : Nm) (j : Z) : est :=
  mk_est (cont l (fst (loc k)) (snd (loc k)) j) (fst (x (fst (loc k)) (snd (loc k)) j)) (snd (x (fst (loc k)) (snd (loc k)) j)).
Definition apart m o : Prop := forall q c, Rs q c -> room m q c /\ forall i k, disjoint q c (fst (entry addr P o i k)) (N k).
Definition full m l o x : Prop := ready m l /\ same_parts l /\ OptimizerProofs.inv addr P N o m (ests l x) /\ apart m o.
Definition mine (b : nat) (i : Z) : Prop := (exists i' r t', part_of L0 i' r = Some t' /\ b = block_of t') \/ inside (t_data (tr_delta t)) (t_size (tr_delta t)) b i.
Definition frame m m' : Prop := forall q c v, Rs q c -> (forall b i, inside q c b i -> ~ mine b i) -> holds m q c v -> holds m' q c v.
Lemma frame_trans m m1 m2 : frame m m1 -> frame m1 m2 -> frame m m2.
Proof. intros A B q c v R D H. apply B; auto. Qed.
Lemma frame_refl m : frame m m. Proof. intros q c v _ _ H. exact H. Qed.
Lemma parts_block l b : same_parts l -> (net_block l b <-> exists i r t', part_of L0 i r = Some t' /\ b = block_of t').
Proof.
  intros S. split.
  - intros (d & Hd & r & t' & E & ->). apply In_nth_error in Hd as (i & Hi). exists i, r, t'. split; [|reflexivity]. rewrite <- S. erewrite part_of_nth by exact Hi. exact E.
  - intros (i & r & t' & E & ->). rewrite <- S in E. apply part_of_in in E as (d & Hd & E). exists d. split; [eapply nth_error_In; eauto|]. exists r, t'. auto.
Qed.
Lemma train_mine l b i : same_parts l -> (train_mem l t b i <-> mine b i).
Proof. intros S. unfold train_mem, mine. rewrite (parts_block l b S). reflexivity. Qed.
Lemma inv_ext o m X X' : OptimizerProofs.inv addr P N o m X -> (forall k j, 0 <= j < N k -> X k j = X' k j) -> OptimizerProofs.inv addr P N o m X'.
Proof.
  intros (I1 & I2 & I3 & I4) E. split; [|split; [|split; auto]].
  - intros k. eapply holds_ext; [|apply I1]. intros j Hj. cbv beta. now rewrite E.
  - intros i k. destruct (I2 i k) as [[Q H]|(b & c & Q & Hr & H)].
    + left. split; [exact Q|]. intros j Hj Hi. rewrite <- E by auto. now apply H.
    + right. exists b, c. split; [exact Q|]. split; [exact Hr|]. intros Hi. eapply holds_ext; [|exact (H Hi)]. intros j Hj. cbv beta. now rewrite E.
Qed.
Lemma part_of_live m l i r t' : net_at m l -> same_parts l -> part_of L0 i r = Some t' -> exists b, t_data t' = Ptr b 0 /\ block_of t' = b /\ live m b (t_size t').
Proof.
  intros A S E. rewrite <- S in E. apply part_of_in in E as (d & Hd & E). pose proof (net_layer_at _ _ _ _ A Hd) as Q. exists (block_of t'). split; [eapply part_ptr; eauto|]. split; [reflexivity|]. eapply part_live; eauto.
Qed.
(** the optimizer's memory is outside the network and the trainer *)
Lemma entry_not_mine m l o x i k b j : full m l o x -> room m (fst (entry addr P o i k)) (N k) -> inside (fst (entry addr P o i k)) (N k) b j -> ~ mine b j.
Proof.
  intros ((_ & _ & A & _) & S & _ & Ap) Hr Hi [(i' & r & t' & E & ->)|Q].
  - destruct (part_of_live _ _ _ _ _ A S E) as (b & Eb & Bb & (c & Ec & Ln)). destruct (Ap (t_data t') (t_size t')) as [_ D]; [destruct HR as (R1 & _); eauto|].
    apply (D i k b j); [|now rewrite <- Bb]. rewrite Eb. cbn. split; [reflexivity|]. rewrite Bb in *.
    destruct (fst (entry addr P o i k)) as [|b' c']; [destruct Hi|]. destruct Hi as [<- Hi]. specialize (Hr (j - c') ltac:(lia)). cbn in Hr. replace (c' + (j - c')) with j in Hr by lia.
    unfold cell in Hr. rewrite Ec in Hr. destruct (znth c j) eqn:Z; [|congruence]. apply znth_bound in Z. lia.
  - destruct (Ap (t_data (tr_delta t)) (t_size (tr_delta t))) as [_ D]; [apply HR|]. exact (D i k b j Q Hi).
Qed.
(** events that do not involve the optimizer *)
Lemma quiet m l o x m' l' : full m l o x -> ready m' l' -> same_parts l' -> only (train_mem l t) m m' -> full m' l' o x /\ frame m m'.
Proof.
  intros Fu R' S' O. pose proof Fu as (R & S & (I1 & I2 & I3 & I4) & Ap). split; [split; [exact R'|split; [exact S'|split]]|].
  - split; [|split; [|split; auto]].
    + intros k. destruct HL as (H1 & _ & _). destruct (H1 k) as (t' & Pr & E & -> & ->). unfold ests, cont. cbn [e_w].
      rewrite <- S' in E. apply part_of_in in E as (d & Hd & E). rewrite Hd. eapply holds_ext; [reflexivity|]. eapply part_holds; [eapply net_layer_at; [apply R'|exact Hd]|exact E].
    + intros i k. destruct (I2 i k) as [[Q H]|(b & c & Q & Hr & H)].
      * left. split; [exact Q|]. intros j Hj Hi. rewrite <- (H j Hj Hi). destruct i; [congruence|reflexivity|reflexivity].
      * right. exists b, c. split; [exact Q|]. split; [eapply only_room; eauto|]. intros Hi. eapply only_holds; [exact O| |].
        -- intros b' j Hj W. apply (train_mine l b' j S) in W. revert W. eapply (entry_not_mine m l o x i k); [exact Fu|now rewrite Q|]. rewrite Q. exact Hj.
        -- eapply holds_ext; [|exact (H Hi)]. intros j _. destruct i; [congruence|reflexivity|reflexivity].
  - intros q c Hq. destruct (Ap q c Hq) as [A1 A2]. split; [eapply only_room; eauto|exact A2].
  - intros q c v Hq D H. eapply only_holds; [exact O| |exact H]. intros b i Hi W. apply (train_mine l b i S) in W. exact (D b i Hi W).
Qed.

(** ** one call of the optimizer *)
Definition setx (x : nat -> role -> Z -> T * T) (i : nat) (y : role -> Z -> T * T) : nat -> role -> Z -> T * T := fun i' => if Nat.eqb i' i then y else x i'.
Lemma full_ext m l o x x' : full m l o x -> (forall i r j, x i r j = x' i r j) -> full m l o x'.
Proof. intros (A & B & C & D) E. split; [exact A|]. split; [exact B|]. split; [|exact D]. eapply inv_ext; [exact C|]. intros k j _. unfold ests. now rewrite E. Qed.
Lemma nth_mid {A} (pre : list A) (d : A) suf : nth_error (pre ++ d :: suf) (length pre) = Some d.
Proof. rewrite nth_error_app2, Nat.sub_diag by lia. reflexivity. Qed.
Lemma nth_mid_other {A} (pre : list A) (d e : A) suf i : i <> length pre -> nth_error (pre ++ e :: suf) i = nth_error (pre ++ d :: suf) i.
Proof.
  intros Ne. destruct (Nat.lt_ge_cases i (length pre)).
  - now rewrite !nth_error_app1 by auto.
  - rewrite !nth_error_app2 by auto. destruct (i - length pre)%nat as [|q] eqn:E; [lia|reflexivity].
Qed.
Lemma layers_mid pre d s suf : layers (pre ++ with_data d s :: suf) = layers (pre ++ d :: suf).
Proof. unfold layers. now rewrite !map_app. Qed.
Lemma plans_mid pre d s suf : plans (pre ++ with_data d s :: suf) = plans (pre ++ d :: suf).
Proof. unfold plans. now rewrite !map_app. Qed.
Lemma tensor_run pre d suf m o x st rp rg tp tg :
  full m (pre ++ with_data d (os_s st) :: suf) o (setx x (length pre) (os_x st)) -> o_t1 o = os_t1 st -> o_t2 o = os_t2 st ->
  part (n_layer d) rp = Some tp -> prole rp = true -> part (n_layer d) rg = Some tg -> prole rg = false -> t_size tg = t_size tp ->
  let st' := t_step (o_kind o) (o_lr o) st (rp, rg) in
  exists o' m', opt_update addr o (rng tp) (rng tg) m = Ok (o', m') /\
    full m' (pre ++ with_data d (os_s st') :: suf) o' (setx x (length pre) (os_x st')) /\ frame m m' /\
    o_kind o' = o_kind o /\ o_lr o' = o_lr o /\ o_t1 o' = os_t1 st' /\ o_t2 o' = os_t2 st'.
Proof.
  intros Fu T1 T2 Ep Rp Eg Rg Es st'. set (l := pre ++ with_data d (os_s st) :: suf) in *. set (l' := pre ++ with_data d (os_s st') :: suf).
  set (i0 := length pre) in *. pose proof Fu as (R & S & Iv & Ap). pose proof R as (_ & _ & A & _).
  assert (Nl : nth_error l i0 = Some (with_data d (os_s st))) by apply nth_mid.
  assert (Pp : part_of (layers l) i0 rp = Some tp) by (erewrite part_of_nth by exact Nl; exact Ep).
  assert (Pg : part_of (layers l) i0 rg = Some tg) by (erewrite part_of_nth by exact Nl; exact Eg).
  assert (Ngp : rg <> rp) by (intros ->; congruence).
  destruct HL as (H1 & H2 & H3). pose proof HR as (R1 & R2 & R3 & R4).
  destruct (H3 i0 rp tp Rp) as (k & Lk & EP & EN); [rewrite <- S; exact Pp|].
  assert (Go : grad_ok addr P N o (t_data tg) k).
  { split.
    - intros k'. destruct (H1 k') as (t' & Pr & E & -> & _). rewrite <- S in E. eapply parts_disj; [exact A|exact Pg|exact E|]. intros Q. injection Q as _ Q. rewrite <- Q in Pr. congruence.
    - intros i k'. rewrite EN, <- Es. apply (Ap (t_data tg) (t_size tg)). apply (R1 i0 rg). now rewrite <- S. }
  assert (Hg : holds m (t_data tg) (N k) (os_s st rg)).
  { rewrite EN, <- Es. eapply (part_holds m (n_layer d)); [exact (net_layer_at _ _ _ _ A Nl)|exact Eg]. }
  destruct (wp_elim _ _ _ _ (wp_update addr P N o m _ k (t_data tg) (os_s st rg) HT Iv Go Hg)) as (o' & m' & E & I' & Ek & El & E1 & E2 & Fr & Sg & Dj & Rm).
  rewrite EP, EN in E. exists o', m'. split; [unfold rng; rewrite Es; exact E|].
  pose proof (grows_update addr o (t_data tp, t_size tp) (t_data tg, t_size tp) m o' m' E) as Gr.
  assert (Est : forall j, ests l (setx x i0 (os_x st)) k j = mk_est (os_s st rp j) (fst (os_x st rp j)) (snd (os_x st rp j))).
  { intros j. unfold ests, cont, setx. rewrite Lk. cbn [fst snd]. rewrite Nl, Nat.eqb_refl. reflexivity. }
  assert (Eel : forall j, elem_step (o_kind o) (o_lr o) (next_t1 (o_kind o) (o_t1 o)) (next_t2 (o_kind o) (o_t2 o)) (ests l (setx x i0 (os_x st)) k j) (os_s st rg j) =
    t_elem (o_kind o) (o_lr o) st rp rg j).
  { intros j. rewrite Est, T1, T2. reflexivity. }
  assert (Nl' : nth_error l' i0 = Some (with_data d (os_s st'))) by apply nth_mid.
  assert (No' : forall i, i <> i0 -> nth_error l' i = nth_error l i) by (intros i Hi; now apply nth_mid_other).
  (* the values in memory afterwards *)
  assert (Keep : forall q c v, Rs q c -> holds m q c v -> disjoint q c (t_data tp) (t_size tp) -> (scalesb (o_kind o) = true -> disjoint q c (t_data tg) (t_size tp)) -> holds m' q c v).
  { intros q c v Hq Hh D1 D2. apply Fr; auto; rewrite ?EP, ?EN; auto.
    - intros i. rewrite <- EN. apply (Ap q c Hq).
    - intros Q. apply D2. now apply scalesb_spec. }
  assert (Val : forall i d0 r t', nth_error l' i = Some d0 -> part (n_layer d0) r = Some t' -> holds m' (t_data t') (t_size t') (n_data d0 r)).
  { intros i d0 r t' E0 Er. destruct (Nat.eq_dec i i0) as [->|Ni].
    - rewrite Nl' in E0. injection E0 as <-. cbn [with_data n_layer n_data] in *. unfold st'. cbn [t_step os_s].
      assert (Pr : part_of (layers l) i0 r = Some t') by (erewrite part_of_nth by exact Nl; exact Er).
      destruct (role_eq_dec r rp) as [->|Nr].
      + assert (t' = tp) by congruence. subst t'. rewrite set_role_same. destruct I' as (I1 & _). specialize (I1 k). rewrite upd_state_same, EP, EN in I1.
        eapply holds_ext; [|exact I1]. intros j _. cbv beta. now rewrite Eel.
      + rewrite set_role_other by auto. destruct (role_eq_dec r rg) as [->|Nr'].
        * assert (t' = tg) by congruence. subst t'. destruct (scalesb (o_kind o)) eqn:Sc.
          -- rewrite set_role_same. rewrite Es, <- EN. apply Sg. now apply scalesb_spec.
          -- rewrite Es, <- EN. apply Fr; [exact Hg|apply Go|intros; apply Go|]. rewrite scalesb_spec. congruence.
        * replace ((if scalesb (o_kind o) then set_role (os_s st) rg (fun j => mul (os_s st rg j) (o_lr o)) else os_s st) r) with (os_s st r).
          2:{ destruct (scalesb (o_kind o)); [now rewrite set_role_other by auto|reflexivity]. }
          apply Keep.
          -- apply (R1 i0 r). now rewrite <- S.
          -- eapply (part_holds m (n_layer d)); [exact (net_layer_at _ _ _ _ A Nl)|exact Er].
          -- eapply parts_disj; [exact A|exact Pr|exact Pp|]. congruence.
          -- intros _. eapply parts_disj; [exact A|exact Pr|exact Pg|]. congruence.
    - rewrite No' in E0 by auto. assert (Pr : part_of (layers l) i r = Some t') by (erewrite part_of_nth by exact E0; exact Er). apply Keep.
      + apply (R1 i r). now rewrite <- S.
      + eapply part_holds; [exact (net_layer_at _ _ _ _ A E0)|exact Er].
      + eapply parts_disj; [exact A|exact Pr|exact Pp|]. congruence.
      + intros _. eapply parts_disj; [exact A|exact Pr|exact Pg|]. congruence. }
  assert (EL : layers l' = layers l) by (unfold l, l'; now rewrite !layers_mid).
  assert (EPl : plans l' = plans l) by (unfold l, l'; now rewrite !plans_mid).
  assert (A' : net_at m' l') by (eapply net_at_again; eauto).
  assert (Out : forall q c, (forall b i, inside q c b i -> ~ mine b i) -> forall i r t' n, part_of L0 i r = Some t' -> disjoint q c (t_data t') n).
  { intros q c D i r t' n Er b j Hj Hj'. apply (D b j Hj). left. exists i, r, t'. split; [exact Er|]. destruct (part_of_live _ _ _ _ _ A S Er) as (b' & Eb & Bb & _). rewrite Eb in Hj'. destruct Hj' as [-> _]. auto. }
  assert (Fm : frame m m').
  { intros q c v Hq D Hh. apply Keep; auto; [|intros _]; eapply Out; eauto; rewrite <- S; eauto. }
  assert (Nm' : forall p, net_outside l p -> disjoint (t_data (tr_delta t)) (t_size (tr_delta t)) p (t_size (tr_delta t)) \/ True -> forall c, (forall b i, inside p c b i -> ~ (exists i' r t', part_of L0 i' r = Some t' /\ b = block_of t'))).
  { intros p Op _ c b i Hi Q. apply (parts_block l b S) in Q. destruct p as [|b' c']; [destruct Hi|]. destruct Hi as [-> _]. exact (Op Q). }
  split; [split; [|split; [|split]]|split; [exact Fm|]].
  - eapply ready_any; [exact R|exact EPl|now rewrite EL| |exact A'|exact Gr| |].
    + intros b. rewrite (net_block_same l' l); [reflexivity|exact EL].
    + intros i y Hi Zi Hh Oy Dy. apply Fm; [eauto| |exact Hh]. intros b j Hj [Q|Q]; [eapply Nm'; eauto|exact (Dy b j Q Hj)].
    + intros i y Hi Zi Hh Oy Dy. apply Fm; [eauto| |exact Hh]. intros b j Hj [Q|Q]; [eapply Nm'; eauto|exact (Dy b j Q Hj)].
  - intros i r. rewrite EL. apply S.
  - eapply inv_ext; [exact I'|]. intros k' j Hj. destruct (same_spec k' k) as [->|Nk].
    + rewrite upd_state_same, Eel. unfold ests, cont, setx. rewrite Lk. cbn [fst snd]. rewrite Nl', Nat.eqb_refl. cbn [with_data n_data]. unfold st'. cbn [t_step os_s os_x]. rewrite set_role_same.
      destruct (role_eq_dec rp rp); [|congruence]. cbn [fst snd]. now destruct (t_elem (o_kind o) (o_lr o) st rp rg j).
    + rewrite upd_state_other by auto. unfold ests, setx. destruct (loc k') as [i r] eqn:Ek'. cbn [fst snd].
      assert (Nir : (i, r) <> (i0, rp)) by (intros Q; apply Nk, H2; congruence).
      assert (Pr : prole r = true). { destruct (H1 k') as (t' & Pr & _). now rewrite Ek' in Pr. }
      unfold cont. destruct (Nat.eqb_spec i i0) as [->|Ni].
      * rewrite Nl, Nl'. cbn [with_data n_data]. unfold st'. cbn [t_step os_s os_x]. assert (Nr : r <> rp) by congruence. rewrite set_role_other by auto. destruct (role_eq_dec r rp); [congruence|].
        assert (r <> rg) by (intros ->; congruence). destruct (scalesb (o_kind o)); [now rewrite set_role_other by auto|reflexivity].
      * now rewrite No' by auto.
  - intros q c Hq. destruct (Ap q c Hq) as [B1 B2]. split; [now apply Rm|]. now apply Dj.
  - split; [exact Ek|]. split; [exact El|]. unfold st'. cbn [t_step os_t1 os_t2]. now rewrite <- T1, <- T2.
Qed.

(** ** one layer, all layers *)
Lemma net_at_mid pre d suf m m1 s' : net_at m (pre ++ d :: suf) -> layer_at m1 (n_layer d) s' -> only (fun b _ => block_in (n_layer d) b) m m1 -> net_at m1 (pre ++ with_data d s' :: suf).
Proof.
  revert m. induction pre as [|e pre IH]; intros m A H O; cbn [app] in *.
  - apply net_at_cons in A as (F & _ & A & D). apply net_at_cons. split; [exact F|]. split; [exact H|]. split; [|exact D]. eapply net_at_frame; [exact A|exact O|]. cbn. intros b _ Q. now apply D.
  - apply net_at_cons in A as (F & Al & A & D). apply net_at_cons. split; [exact F|]. split; [|split; [eapply IH; eauto|]].
    + eapply layer_at_only; [exact Al|exact O|]. cbn. intros b _ Q Q'. apply (D b Q'). exists d. split; [apply in_or_app; right; left; reflexivity|exact Q].
    + intros b Q. specialize (D b Q). rewrite (net_block_same (pre ++ with_data d s' :: suf) (pre ++ d :: suf)); [exact D|apply layers_mid].
Qed.
Lemma mid_quiet pre d suf m m1 o x s' : full m (pre ++ d :: suf) o x -> layer_at m1 (n_layer d) s' -> only (fun b _ => block_in (n_layer d) b) m m1 ->
  full m1 (pre ++ with_data d s' :: suf) o x /\ frame m m1.
Proof.
  intros Fu H O. pose proof Fu as (R & S & _). pose proof R as (_ & _ & A & _).
  assert (O' : only (train_mem (pre ++ d :: suf) t) m m1).
  { eapply only_weaken; [|exact O]. cbn. intros b i Q. left. exists d. split; [apply in_or_app; right; left; reflexivity|exact Q]. }
  eapply quiet; [exact Fu| | |exact O'].
  - eapply ready_step; [exact R|apply plans_mid|now rewrite layers_mid| |eapply net_at_mid; eauto|exact O'].
    intros b. rewrite (net_block_same (pre ++ with_data d s' :: suf) (pre ++ d :: suf)); [reflexivity|apply layers_mid].
  - intros i r. rewrite layers_mid. apply S.
Qed.
Lemma with_data_same d s : n_data d = s -> with_data d s = d. Proof. intros <-. now destruct d. Qed.
Lemma znth_le {A} (q : list A) i a : znth q i = Some a -> 0 <= i < Z.of_nat (length q). Proof. apply znth_bound. Qed.
Lemma zrange_S' n : 0 <= n -> zrange 0 (n + 1) = zrange 0 n ++ [n].
Proof. intros H. unfold zrange. replace (Z.to_nat (n + 1 - 0)) with (S (Z.to_nat (n - 0))) by lia. rewrite seq_S, map_app. cbn [map]. do 2 f_equal. lia. Qed.
Lemma layer_run alpha pre d suf m o x : full m (pre ++ d :: suf) o x ->
  let st' := o_layer (o_kind o) (o_lr o) alpha d (x (length pre)) (o_t1 o) (o_t2 o) in
  exists o' m', l_update addr (n_layer d) o alpha m = Ok (o', m') /\
    full m' (pre ++ with_data d (os_s st') :: suf) o' (setx x (length pre) (os_x st')) /\ frame m m' /\
    o_kind o' = o_kind o /\ o_lr o' = o_lr o /\ o_t1 o' = os_t1 st' /\ o_t2 o' = os_t2 st'.
Proof.
  intros Fu st'. pose proof Fu as (R & S & _). pose proof R as (_ & Tr & A & _).
  assert (Td : train_class (n_layer d)). { rewrite Forall_forall in Tr. apply Tr. unfold layers. apply in_map. apply in_or_app. right. now left. }
  assert (Fd : fits (n_layer d) (n_plan d) /\ layer_at m (n_layer d) (n_data d)). { destruct A as [A _]. rewrite Forall_forall in A. apply A. apply in_or_app. right. now left. }
  destruct Fd as [Ft Al].
  assert (Xe : forall (m1 : mem T) s, full m1 (pre ++ with_data d s :: suf) o x -> full m1 (pre ++ with_data d s :: suf) o (setx x (length pre) (x (length pre)))).
  { intros m1 s Q. eapply full_ext; [exact Q|]. intros i r j. unfold setx. destruct (Nat.eqb_spec i (length pre)) as [->|]; reflexivity. }
  unfold st', o_layer, n_pairs, n_scaled. destruct (n_layer d) as [L|L|L|L|L|L] eqn:EL; cbn [train_class] in Td; try tauto; cbn [l_update].
  - destruct (n_plan d) as [a n k| |] eqn:Epl; cbn [fits] in Ft; try tauto. pose proof Ft as (D & _). pose proof (fcd L n k D) as Dd.
    destruct (fc_update_scaled L n k D addr alpha m (n_data d) Al) as (m1 & H1 & O1 & E). rewrite E. clear E.
    destruct (mid_quiet pre d suf m m1 o x (fc_scaled L alpha (n_data d)) Fu) as [F1 G1].
    { rewrite EL. exact H1. } { rewrite EL. eapply only_weaken; [|exact O1]. cbn. intros b _ [Q|Q]; eapply block_at_in; exact Q. }
    apply Xe in F1. set (st0 := mk_ost (fc_scaled L alpha (n_data d)) (x (length pre)) (o_t1 o) (o_t2 o)) in *.
    assert (Sb : t_size (f_B L) = k) by tauto. assert (Sw : t_size (f_W L) = n * k) by tauto.
    destruct (tensor_run pre d suf m1 o x st0 RB (rGB L) (f_B L) (tGB L) F1 eq_refl eq_refl) as (o2 & m2 & E2 & F2 & G2 & K2 & R2 & T12 & T22).
    { now rewrite EL. } { reflexivity. } { rewrite EL. apply part_GB. } { unfold rGB. now destruct (f_acc L). } { rewrite (size_GB L n k D). congruence. }
    destruct (tensor_run pre d suf m2 o2 x _ (RW 0) (rGW L) (f_W L) (tGW L) F2 T12 T22) as (o3 & m3 & E3 & F3 & G3 & K3 & R3 & T13 & T23).
    { now rewrite EL. } { reflexivity. } { rewrite EL. apply part_GW. } { unfold rGW. now destruct (f_acc L). } { rewrite (size_GW L n k D). congruence. }
    rewrite K2, R2 in F3, T13, T23. exists o3, m3. cbn [fold_left].
    unfold rng in E2, E3. rewrite (size_GB L n k D), Sb in E2. rewrite (size_GW L n k D), Sw in E3. erewrite bind_eq by exact E2. split; [exact E3|]. split; [exact F3|].
    split; [eapply frame_trans; [exact G1|eapply frame_trans; eauto]|]. split; [congruence|]. split; [congruence|]. auto.
  - destruct (n_plan d) as [| g |] eqn:Epl; cbn [fits] in Ft; try tauto.
    destruct (conv_update_scaled L g Ft addr alpha m (n_data d) Al) as (m1 & H1 & O1 & E). rewrite E. clear E.
    destruct (mid_quiet pre d suf m m1 o x (conv_scaled alpha (n_data d)) Fu) as [F1 G1]. { rewrite EL. exact H1. } { rewrite EL. exact O1. }
    apply Xe in F1. set (st0 := mk_ost (conv_scaled alpha (n_data d)) (x (length pre)) (o_t1 o) (o_t2 o)) in *.
    pose proof (proj1 (proj1 Ft)) as GF. pose proof Ft as (_ & _ & _ & _ & _ & _ & _ & _ & L1 & L2 & _ & SB & SGB & _).
    match goal with |- exists o' m', bind ?c _ m1 = _ /\ _ => assert (W : wp c m1 (fun o2 m2 => let st2 := fold_left (t_step (o_kind o) (o_lr o)) (map (fun f => (RW f, RGradW f)) (zrange 0 (g_f g))) st0 in
      full m2 (pre ++ with_data d (os_s st2) :: suf) o2 (setx x (length pre) (os_x st2)) /\ frame m m2 /\
      o_kind o2 = o_kind o /\ o_lr o2 = o_lr o /\ o_t1 o2 = os_t1 st2 /\ o_t2 o2 = os_t2 st2)) end.
    { eapply (wp_mfold _ 0 (g_f g) _ (fun k o2 m2 => let st2 := fold_left (t_step (o_kind o) (o_lr o)) (map (fun f => (RW f, RGradW f)) (zrange 0 k)) st0 in
        full m2 (pre ++ with_data d (os_s st2) :: suf) o2 (setx x (length pre) (os_x st2)) /\ frame m m2 /\
        o_kind o2 = o_kind o /\ o_lr o2 = o_lr o /\ o_t1 o2 = os_t1 st2 /\ o_t2 o2 = os_t2 st2)); [lia| | |].
      - cbn [zrange Z.to_nat Z.sub seq map fold_left]. split; [exact F1|]. split; [exact G1|]. auto.
      - intros k o2 m2 Hk (F2 & G2 & K2 & R2 & T12 & T22). cbv zeta. rewrite zrange_S' by lia. rewrite map_app, fold_left_app. cbn [map fold_left].
        set (st2 := fold_left (t_step (o_kind o) (o_lr o)) (map (fun f => (RW f, RGradW f)) (zrange 0 k)) st0) in *.
        destruct (c_parts L g Ft k Hk) as (Wk & GW & EW & EG & TW & TG).
        apply wp_bind. unfold nth_of. rewrite EW. apply wp_ret. apply wp_bind. rewrite EG. apply wp_ret.
        destruct (tensor_run pre d suf m2 o2 x st2 (RW k) (RGradW k) Wk GW F2 T12 T22) as (o3 & m3 & E3 & F3 & G3 & K3 & R3 & T13 & T23).
        { rewrite EL. exact EW. } { reflexivity. } { rewrite EL. exact EG. } { reflexivity. }
        { destruct TW as (_ & _ & _ & -> & _). destruct TG as (_ & _ & _ & -> & _). reflexivity. }
        unfold wp. rewrite E3. rewrite K2, R2 in F3, T13, T23. split; [exact F3|]. split; [eapply frame_trans; eauto|]. split; [congruence|]. split; [congruence|]. auto.
      - auto. }
    apply wp_elim in W as (o2 & m2 & E2 & F2 & G2 & K2 & R2 & T12 & T22). erewrite bind_eq by exact E2.
    rewrite fold_left_app. cbn [fold_left].
    set (st2 := fold_left (t_step (o_kind o) (o_lr o)) (map (fun f => (RW f, RGradW f)) (zrange 0 (g_f g))) st0) in *.
    destruct (tensor_run pre d suf m2 o2 x st2 RB RGradB (c_B L) (c_gradB L) F2 T12 T22) as (o3 & m3 & E3 & F3 & G3 & K3 & R3 & T13 & T23).
    { now rewrite EL. } { reflexivity. } { now rewrite EL. } { reflexivity. } { congruence. }
    rewrite K2, R2 in F3, T13, T23. exists o3, m3. split; [exact E3|]. split; [exact F3|]. split; [eapply frame_trans; eauto|]. split; [congruence|]. split; [congruence|]. auto.
  - cbn [fold_left os_s os_x os_t1 os_t2]. exists o, m. split; [reflexivity|]. rewrite with_data_same by reflexivity. split.
    + eapply full_ext; [exact Fu|]. intros i r j. unfold setx. destruct (Nat.eqb_spec i (length pre)) as [->|]; reflexivity.
    + split; [apply frame_refl|auto].
Qed.
Lemma layers_run alpha suf : forall pre m o x, full m (pre ++ suf) o x ->
  let r := o_layers (o_kind o) (o_lr o) alpha (length pre) suf x (o_t1 o) (o_t2 o) in
  exists o' m', mlist (T := T) (layers suf) (fun L o => l_update addr L o alpha) o m = Ok (o', m') /\
    full m' (pre ++ ns_l r) o' (ns_x r) /\ frame m m' /\ o_kind o' = o_kind o /\ o_lr o' = o_lr o /\ o_t1 o' = ns_t1 r /\ o_t2 o' = ns_t2 r.
Proof.
  induction suf as [|d suf IH]; intros pre m o x Fu r.
  - exists o, m. split; [reflexivity|]. split; [exact Fu|]. split; [apply frame_refl|auto].
  - destruct (layer_run alpha pre d suf m o x Fu) as (o1 & m1 & E1 & F1 & G1 & K1 & R1 & T11 & T21).
    unfold r. cbn [o_layers ns_l ns_x ns_t1 ns_t2]. set (st := o_layer (o_kind o) (o_lr o) alpha d (x (length pre)) (o_t1 o) (o_t2 o)) in *.
    destruct (IH (pre ++ [with_data d (os_s st)]) m1 o1 (setx x (length pre) (os_x st))) as (o2 & m2 & E2 & F2 & G2 & K2 & R2 & T12 & T22).
    { rewrite <- app_assoc. exact F1. }
    rewrite app_length in *. cbn [length] in *. rewrite Nat.add_1_r in *. rewrite K1, R1, T11, T21 in F2, T12, T22. rewrite <- app_assoc in F2. cbn [app] in F2.
    exists o2, m2. cbn [layers map mlist]. erewrite bind_eq by exact E1. split; [exact E2|]. split; [exact F2|]. split; [eapply frame_trans; eauto|]. split; [congruence|]. split; [congruence|]. auto.
Qed.

(** ** the schedule *)
Notation run := (Schedule.run addr t idata odata).
Notation l_present := (l_present lo xs ys).
Context (kd : opt_kind T) (lr : T).
Definition at_state m o (st : nst) : Prop :=
  full m (ns_l st) o (ns_x st) /\ o_kind o = kd /\ o_lr o = lr /\ o_t1 o = ns_t1 st /\ o_t2 o = ns_t2 st.
Definition with_l (st : nst) l : nst := mk_nst l (ns_x st) (ns_t1 st) (ns_t2 st).
Definition o_round (st : nst) (is : list Z) : nst :=
  o_net kd lr (div one (ofZ (Z.of_nat (length is)))) (with_l st (fold_left l_present is (map n_reset (ns_l st)))).
Definition o_step (st : nst) (i : Z) : nst := o_net kd lr one (with_l st (l_sample lo (xs i) (ys i) (ns_l st))).
Lemma same_parts_map f l : same_parts l -> (forall d r, part (n_layer (f d)) r = part (n_layer d) r) -> same_parts (map f l).
Proof.
  intros S H i r. rewrite <- S. unfold part_of, layers. rewrite !nth_error_map. destruct (nth_error l i) as [d|]; cbn; [apply H|reflexivity].
Qed.
Lemma part_reset d r : part (n_layer (n_reset d)) r = part (n_layer d) r.
Proof. unfold n_reset. destruct d as [[L|L|L|L|L|L] p s]; cbn; auto; destruct r; reflexivity. Qed.
Lemma part_accum d r : part (n_layer (n_accum d)) r = part (n_layer d) r.
Proof. unfold n_accum. destruct d as [[L|L|L|L|L|L] p s]; cbn; auto; destruct r; reflexivity. Qed.
Lemma quiet_state m l' o st m' : at_state m o st -> ready m' l' -> same_parts l' -> only (train_mem (ns_l st) t) m m' -> at_state m' o (with_l st l') /\ frame m m'.
Proof. intros (F & E) R S O. destruct (quiet _ _ _ _ _ _ F R S O) as [F' G]. split; [split; [exact F'|exact E]|exact G]. Qed.
Lemma sample_event i m o st es : at_state m o st -> valid idata i ->
  exists m', run (Feed i :: Backprop i i :: es) (layers (ns_l st), o) m = run es (layers (l_sample lo (xs i) (ys i) (ns_l st)), o) m' /\
    at_state m' o (with_l st (l_sample lo (xs i) (ys i) (ns_l st))) /\ frame m m'.
Proof.
  intros A V. pose proof A as ((R & S & _) & _). destruct (sample_run addr t lo idata odata xs ys i m (ns_l st) o es R V) as (m' & E & R' & O). exists m'. split; [exact E|].
  eapply quiet_state; eauto. intros i' r. rewrite layers_sample. apply S.
Qed.
Lemma reset_event m o st es : at_state m o st ->
  exists m', run (Reset :: es) (layers (ns_l st), o) m = run es (layers (map n_reset (ns_l st)), o) m' /\ at_state m' o (with_l st (map n_reset (ns_l st))) /\ frame m m'.
Proof.
  intros A. pose proof A as ((R & S & _) & _). destruct (reset_run addr t lo idata odata xs ys m (ns_l st) o es R) as (m' & E & R' & O). exists m'. split; [exact E|].
  eapply quiet_state; eauto. apply same_parts_map; [exact S|apply part_reset].
Qed.
Lemma presents_event is : forall m o st es, at_state m o st -> Forall (valid idata) is ->
  exists m', run (flat_map present is ++ es) (layers (ns_l st), o) m = run es (layers (fold_left l_present is (ns_l st)), o) m' /\
    at_state m' o (with_l st (fold_left l_present is (ns_l st))) /\ frame m m'.
Proof.
  induction is as [|i is IH]; intros m o st es A V.
  - exists m. split; [reflexivity|]. split; [destruct st; exact A|apply frame_refl].
  - apply Forall_cons_iff in V as [V1 V2]. cbn [flat_map fold_left]. rewrite <- app_assoc.
    pose proof A as ((R & S & _) & _). destruct (present_run addr t lo idata odata xs ys i m (ns_l st) o (flat_map present is ++ es) R V1) as (m1 & E1 & R1 & O1).
    assert (S1 : same_parts (l_present (ns_l st) i)). { unfold Descent.l_present. apply same_parts_map; [|apply part_accum]. intros i' r. rewrite layers_sample. apply S. }
    destruct (quiet_state _ _ _ _ _ A R1 S1 O1) as [A1 G1].
    destruct (IH m1 o (with_l st (l_present (ns_l st) i)) es A1 V2) as (m2 & E2 & A2 & G2). exists m2. rewrite E1. split; [exact E2|]. split; [exact A2|]. eapply frame_trans; eauto.
Qed.
Lemma layers_o_layers alpha l : forall i x t1 t2, layers (ns_l (o_layers kd lr alpha i l x t1 t2)) = layers l /\ plans (ns_l (o_layers kd lr alpha i l x t1 t2)) = plans l.
Proof.
  induction l as [|d l IH]; intros i x t1 t2; [split; reflexivity|]. cbn [o_layers ns_l]. unfold layers, plans in *. cbn [map].
  set (st := o_layer kd lr alpha d (x i) t1 t2). destruct (IH (S i) (fun i' => if Nat.eqb i' i then os_x st else x i') (os_t1 st) (os_t2 st)) as [E1 E2]. rewrite E1, E2. split; reflexivity.
Qed.
Lemma layers_o_net alpha st : layers (ns_l (o_net kd lr alpha st)) = layers (ns_l st) /\ plans (ns_l (o_net kd lr alpha st)) = plans (ns_l st).
Proof. apply layers_o_layers. Qed.
Lemma update_event alpha m o st es : at_state m o st ->
  exists o' m', run (Update alpha :: es) (layers (ns_l st), o) m = run es (layers (ns_l (o_net kd lr alpha st)), o') m' /\ at_state m' o' (o_net kd lr alpha st) /\ frame m m'.
Proof.
  intros (F & K & El & T1 & T2). destruct (layers_run alpha (ns_l st) [] m o (ns_x st) F) as (o' & m' & E & F' & G & K' & El' & T1' & T2').
  cbn [length app] in F', T1', T2'. rewrite K, El, T1, T2 in F', T1', T2'. exists o', m'. split; [|split; [|exact G]].
  - cbn [Schedule.run run_event]. unfold bind, ret. rewrite E. now rewrite (proj1 (layers_o_net alpha st)).
  - split; [exact F'|]. split; [congruence|]. split; [congruence|]. auto.
Qed.
Lemma round_event is m o st es : at_state m o st -> Forall (valid idata) is ->
  exists o' m', run (round is ++ es) (layers (ns_l st), o) m = run es (layers (ns_l (o_round st is)), o') m' /\ at_state m' o' (o_round st is) /\ frame m m'.
Proof.
  intros A V. unfold round. cbn [app]. rewrite <- app_assoc. cbn [app].
  destruct (reset_event m o st (flat_map present is ++ Update (div one (ofZ (Z.of_nat (length is)))) :: es) A) as (m1 & E1 & A1 & G1).
  destruct (presents_event is m1 o _ (Update (div one (ofZ (Z.of_nat (length is)))) :: es) A1 V) as (m2 & E2 & A2 & G2). cbn [with_l ns_l ns_x ns_t1 ns_t2] in A2, E2.
  destruct (update_event (div one (ofZ (Z.of_nat (length is)))) m2 o _ es A2) as (o' & m3 & E3 & A3 & G3). cbn [with_l ns_l ns_x ns_t1 ns_t2] in A3, E3.
  exists o', m3. rewrite E1, E2. split; [exact E3|]. split; [exact A3|]. eapply frame_trans; [exact G1|eapply frame_trans; eauto].
Qed.
Lemma step_event i m o st es : at_state m o st -> valid idata i ->
  exists o' m', run (step_on i ++ es) (layers (ns_l st), o) m = run es (layers (ns_l (o_step st i)), o') m' /\ at_state m' o' (o_step st i) /\ frame m m'.
Proof.
  intros A V. unfold step_on. cbn [app]. destruct (sample_event i m o st (Update one :: es) A V) as (m1 & E1 & A1 & G1).
  destruct (update_event one m1 o _ es A1) as (o' & m2 & E2 & A2 & G2). cbn [with_l ns_l ns_x ns_t1 ns_t2] in A2, E2.
  exists o', m2. rewrite E1. split; [exact E2|]. split; [exact A2|]. eapply frame_trans; eauto.
Qed.
Lemma rounds_event iss : forall m o st, at_state m o st -> Forall (Forall (valid idata)) iss ->
  exists o' m', run (flat_map round iss) (layers (ns_l st), o) m = Ok ((layers (ns_l (fold_left o_round iss st)), o'), m') /\ at_state m' o' (fold_left o_round iss st) /\ frame m m'.
Proof.
  induction iss as [|is iss IH]; intros m o st A V.
  - exists o, m. split; [reflexivity|]. split; [exact A|apply frame_refl].
  - apply Forall_cons_iff in V as [V1 V2]. cbn [flat_map fold_left]. destruct (round_event is m o st (flat_map round iss) A V1) as (o1 & m1 & E1 & A1 & G1).
    destruct (IH m1 o1 _ A1 V2) as (o2 & m2 & E2 & A2 & G2). exists o2, m2. rewrite E1. split; [exact E2|]. split; [exact A2|]. eapply frame_trans; eauto.
Qed.
Lemma steps_event is : forall m o st, at_state m o st -> Forall (valid idata) is ->
  exists o' m', run (flat_map step_on is) (layers (ns_l st), o) m = Ok ((layers (ns_l (fold_left o_step is st)), o'), m') /\ at_state m' o' (fold_left o_step is st) /\ frame m m'.
Proof.
  induction is as [|i is IH]; intros m o st A V.
  - exists o, m. split; [reflexivity|]. split; [exact A|apply frame_refl].
  - apply Forall_cons_iff in V as [V1 V2]. cbn [flat_map fold_left]. destruct (step_event i m o st (flat_map step_on is) A V1) as (o1 & m1 & E1 & A1 & G1).
    destruct (IH m1 o1 _ A1 V2) as (o2 & m2 & E2 & A2 & G2). exists o2, m2. rewrite E1. split; [exact E2|]. split; [exact A2|]. eapply frame_trans; eauto.
Qed.
Lemma rounds_same_plans iss : forall st, plans (ns_l (fold_left o_round iss st)) = plans (ns_l st).
Proof.
  induction iss as [|is iss IH]; intros st; [reflexivity|]. cbn [fold_left]. rewrite IH. unfold o_round. rewrite (proj2 (layers_o_net _ _)). cbn [with_l ns_l].
  rewrite <- (proj1 (alike_map n_reset (ns_l st) alike_reset)). generalize (map n_reset (ns_l st)). induction is as [|i is IHi]; intros l'; [reflexivity|]. cbn [fold_left]. rewrite IHi. unfold Descent.l_present.
  rewrite (proj1 (alike_map n_accum _ alike_accum)). apply plans_sample.
Qed.
Lemma steps_same_plans is : forall st, plans (ns_l (fold_left o_step is st)) = plans (ns_l st) /\ layers (ns_l (fold_left o_step is st)) = layers (ns_l st).
Proof.
  induction is as [|i is IH]; intros st; [auto|]. cbn [fold_left]. destruct (IH (o_step st i)) as [-> ->]. unfold o_step. destruct (layers_o_net one (with_l st (l_sample lo (xs i) (ys i) (ns_l st)))) as [-> ->].
  cbn [with_l ns_l]. split; [apply plans_sample|apply layers_sample].
Qed.
End Run.
End Any.

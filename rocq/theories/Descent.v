(** * Training runs with gradient descent on networks in memory: what each event does (proofs for C89-C91) *)
From Verif Require Import Mem Scalar MemSpec MemLemmas Lique LiqueSpec LiqueProofs LiqueProofs2 Linear LinearProofs Functions FunctionSpec FunctionProofs
  Optimizer Layer LayerSpec FCProofs Cells ConvSpec ConvProofs ConvProofs2 PoolSpec PoolProofs PropFC PropConv PropPool
  Net NetPlan NetProofs NetBack PropNet Schedule PropTraining.
Open Scope Z_scope.

Section Any.
Context {T : Type} `{NT : Num T}.
Implicit Types (m : mem T) (l : list (node T)) (d : node T) (o : opt T).

(** ** one layer *)
Definition n_reset d : node T :=
  match n_layer d with LFC L => mk_node (LFC (fc_set_acc L false)) (n_plan d) (fc_after_reset (n_data d)) | _ => d end.
Definition n_accum d : node T :=
  match n_layer d with LFC L => mk_node (LFC (fc_set_acc L true)) (n_plan d) (fc_after_accumulate (n_data d)) | _ => d end.
Definition n_update (lr alpha : T) d : node T :=
  match n_layer d with
  | LFC L => mk_node (n_layer d) (n_plan d) (fc_after_gd L lr alpha (n_data d))
  | LConv _ => mk_node (n_layer d) (n_plan d) (conv_after_gd lr alpha (n_data d))
  | _ => d
  end.
(** same plan, class and memory *)
Definition alike d d' : Prop :=
  n_plan d' = n_plan d /\ (train_class (n_layer d) -> train_class (n_layer d')) /\ forall b, block_in (n_layer d') b <-> block_in (n_layer d) b.
Lemma set_acc_block L a b : block_in (LFC (fc_set_acc L a)) b <-> block_in (LFC L) b.
Proof. split; intros (r & t & P & Q); exists r, t; split; auto; destruct r; exact P. Qed.
Lemma alike_reset d : alike d (n_reset d).
Proof. unfold n_reset. destruct d as [[L|L|L|L|L|L] p s]; cbn; repeat split; auto; apply set_acc_block. Qed.
Lemma alike_accum d : alike d (n_accum d).
Proof. unfold n_accum. destruct d as [[L|L|L|L|L|L] p s]; cbn; repeat split; auto; apply set_acc_block. Qed.
Lemma alike_update lr alpha d : alike d (n_update lr alpha d).
Proof. unfold n_update. destruct d as [[L|L|L|L|L|L] p s]; cbn; repeat split; auto. Qed.
Lemma l_reset_run d m : train_class (n_layer d) -> fits (n_layer d) (n_plan d) -> layer_at m (n_layer d) (n_data d) ->
  exists m', l_reset (n_layer d) m = Ok (n_layer (n_reset d), m') /\ fits (n_layer (n_reset d)) (n_plan (n_reset d)) /\
    layer_at m' (n_layer (n_reset d)) (n_data (n_reset d)) /\ only (fun b _ => block_in (n_layer d) b) m m'.
Proof.
  destruct d as [L p s]. unfold n_reset. cbn [n_layer n_plan n_data]. intros Tr F A.
  destruct L as [L|L|L|L|L|L]; cbn [train_class] in Tr; try tauto; cbn [l_reset n_layer n_plan n_data].
  - destruct (wp_elim _ _ _ _ (wp_fc_reset L m s A)) as (L' & m' & E & -> & A' & O). exists m'. erewrite bind_eq by exact E. split; [reflexivity|].
    split; [destruct p; exact F|]. split; [exact A'|]. eapply only_weaken; [|exact O]. cbn. intros b _ [Q|Q]; eapply block_at_in; exact Q.
  - exists m. split; [reflexivity|]. split; [exact F|]. split; [exact A|apply only_refl].
  - exists m. split; [reflexivity|]. split; [exact F|]. split; [exact A|apply only_refl].
Qed.
Lemma l_accumulate_run d m : train_class (n_layer d) -> fits (n_layer d) (n_plan d) -> layer_at m (n_layer d) (n_data d) ->
  exists m', l_accumulate (n_layer d) m = Ok (n_layer (n_accum d), m') /\ fits (n_layer (n_accum d)) (n_plan (n_accum d)) /\
    layer_at m' (n_layer (n_accum d)) (n_data (n_accum d)) /\ only (fun b _ => block_in (n_layer d) b) m m'.
Proof.
  destruct d as [L p s]. unfold n_accum. cbn [n_layer n_plan n_data]. intros Tr F A.
  destruct L as [L|L|L|L|L|L]; cbn [train_class] in Tr; try tauto; cbn [l_accumulate n_layer n_plan n_data].
  - destruct p as [a n k| |]; cbn [fits] in F; try tauto. destruct F as (D & F).
    destruct (wp_elim _ _ _ _ (wp_fc_accumulate L n k D m s A)) as (L' & m' & E & -> & A' & O). exists m'. erewrite bind_eq by exact E. split; [reflexivity|].
    split; [exact (conj D F)|]. split; [exact A'|]. eapply only_weaken; [|exact O]. cbn. intros b _ [Q|Q]; eapply block_at_in; exact Q.
  - exists m. split; [reflexivity|]. split; [exact F|]. split; [exact A|apply only_refl].
  - exists m. split; [reflexivity|]. split; [exact F|]. split; [exact A|apply only_refl].
Qed.
Lemma l_update_run addr alpha o d m : o_kind o = GradDescent -> train_class (n_layer d) -> fits (n_layer d) (n_plan d) -> layer_at m (n_layer d) (n_data d) ->
  let d' := n_update (o_lr o) alpha d in
  exists m', l_update addr (n_layer d) o alpha m = Ok (o, m') /\ n_layer d' = n_layer d /\ fits (n_layer d') (n_plan d') /\
    layer_at m' (n_layer d') (n_data d') /\ only (fun b _ => block_in (n_layer d) b) m m'.
Proof.
  destruct d as [L p s]. unfold n_update. cbn [n_layer n_plan n_data]. intros Ok Tr F A.
  destruct L as [L|L|L|L|L|L]; cbn [train_class] in Tr; try tauto; cbn [l_update n_layer n_plan n_data].
  - destruct p as [a n k| |]; cbn [fits] in F; try tauto. pose proof F as (D & _).
    destruct (wp_elim _ _ _ _ (wp_fc_update_gd L n k D addr alpha m s o A Ok)) as (o' & m' & E & -> & A' & O). exists m'. auto.
  - destruct p as [| g |]; cbn [fits] in F; try tauto.
    destruct (wp_elim _ _ _ _ (wp_conv_update_gd L g F addr alpha m s o A Ok)) as (o' & m' & E & -> & A' & O). exists m'. auto.
  - exists m. split; [reflexivity|]. split; [reflexivity|]. split; [exact F|]. split; [exact A|apply only_refl].
Qed.

(** ** all layers *)
Lemma alike_map (f : node T -> node T) l : (forall d, alike d (f d)) ->
  plans (map f l) = plans l /\ (Forall train_class (layers l) -> Forall train_class (layers (map f l))) /\ forall b, net_block (map f l) b <-> net_block l b.
Proof.
  intros Al. split; [|split].
  - unfold plans. rewrite map_map. apply map_ext. intros d. apply Al.
  - unfold layers. rewrite !Forall_map. intros F. eapply Forall_impl; [|exact F]. intros d. apply Al.
  - intros b. split.
    + intros (d' & Hd & Q). apply in_map_iff in Hd as (d & <- & Hd). exists d. split; [exact Hd|]. now apply Al.
    + intros (d & Hd & Q). exists (f d). split; [now apply in_map|]. now apply Al.
Qed.
Lemma mmap_run (op : layer -> M T layer) (f : node T -> node T) : (forall d, alike d (f d)) ->
  (forall d m, train_class (n_layer d) -> fits (n_layer d) (n_plan d) -> layer_at m (n_layer d) (n_data d) ->
     exists m', op (n_layer d) m = Ok (n_layer (f d), m') /\ fits (n_layer (f d)) (n_plan (f d)) /\ layer_at m' (n_layer (f d)) (n_data (f d)) /\
       only (fun b _ => block_in (n_layer d) b) m m') ->
  forall l m, Forall train_class (layers l) -> net_at m l ->
  exists m', mmap (T := T) op (layers l) m = Ok (layers (map f l), m') /\ net_at m' (map f l) /\ only (fun b _ => net_block l b) m m'.
Proof.
  intros Al H. induction l as [|d l IH]; intros m Tr A.
  - exists m. split; [reflexivity|]. split; [exact A|apply only_refl].
  - change (Forall train_class (n_layer d :: layers l)) in Tr. apply Forall_cons_iff in Tr as [T1 T2]. apply net_at_cons in A as (F & A & N & D).
    destruct (H d m T1 F A) as (m1 & E1 & F1 & A1 & O1).
    destruct (IH m1 T2) as (m2 & E2 & N2 & O2). { eapply net_at_frame; [exact N|exact O1|]. cbn. intros b _ Q. now apply D. }
    exists m2. cbn [layers map mmap]. erewrite bind_eq by exact E1. erewrite bind_eq by exact E2. split; [reflexivity|]. split.
    + apply net_at_cons. split; [exact F1|]. split.
      * eapply layer_at_only; [exact A1|exact O2|]. cbn. intros b _ Q C. apply (D b); [|exact Q]. now apply Al.
      * split; [exact N2|]. intros b Q. apply (proj2 (proj2 (Al d))) in Q. destruct (alike_map f l Al) as (_ & _ & Nb). rewrite Nb. now apply D.
    + eapply only_trans; [eapply only_weaken; [|exact O1]|eapply only_weaken; [|exact O2]]; cbn.
      * intros b _ Q. exists d. cbn. auto.
      * intros b _ (e & He & Q). exists e. cbn. auto.
Qed.
Lemma mlist_run addr alpha o : o_kind o = GradDescent -> forall l m, Forall train_class (layers l) -> net_at m l ->
  exists m', mlist (T := T) (layers l) (fun L o => l_update addr L o alpha) o m = Ok (o, m') /\ layers (map (n_update (o_lr o) alpha) l) = layers l /\
    net_at m' (map (n_update (o_lr o) alpha) l) /\ only (fun b _ => net_block l b) m m'.
Proof.
  intros Ok. induction l as [|d l IH]; intros m Tr A.
  - exists m. split; [reflexivity|]. split; [reflexivity|]. split; [exact A|apply only_refl].
  - change (Forall train_class (n_layer d :: layers l)) in Tr. apply Forall_cons_iff in Tr as [T1 T2]. apply net_at_cons in A as (F & A & N & D).
    destruct (l_update_run addr alpha o d m Ok T1 F A) as (m1 & E1 & L1 & F1 & A1 & O1).
    destruct (IH m1 T2) as (m2 & E2 & L2 & N2 & O2). { eapply net_at_frame; [exact N|exact O1|]. cbn. intros b _ Q. now apply D. }
    exists m2. cbn [layers map mlist]. erewrite bind_eq by exact E1. split; [exact E2|]. split; [f_equal; [exact L1|exact L2]|]. split.
    + apply net_at_cons. split; [exact F1|]. rewrite L1 in *. split.
      * eapply layer_at_only; [exact A1|exact O2|]. cbn. intros b _ Q C. apply (D b); [exact C|exact Q].
      * split; [exact N2|]. intros b Q. destruct (alike_map (n_update (o_lr o) alpha) l (alike_update _ _)) as (_ & _ & Nb). rewrite Nb. now apply D.
    + eapply only_trans; [eapply only_weaken; [|exact O1]|eapply only_weaken; [|exact O2]]; cbn.
      * intros b _ Q. exists d. cbn. auto.
      * intros b _ (e & He & Q). exists e. cbn. auto.
Qed.

(** ** a network, a trainer and data ready for training *)
Definition data_at m l t (idata odata : list tensor) (xs ys : Z -> Z -> T) : Prop :=
  forall i, 0 <= i < Z.of_nat (length idata) -> exists x y, znth idata i = Some x /\ znth odata i = Some y /\
    sample_at m l x (xs i) /\ disjoint (t_data (tr_delta t)) (t_size (tr_delta t)) (t_data x) (t_size x) /\ target_at m l t y (ys i).
Definition ready m l t lo (idata odata : list tensor) (xs ys : Z -> Z -> T) : Prop :=
  2 <= Z.of_nat (length l) < 2 ^ 64 /\ Forall train_class (layers l) /\ net_at m l /\ trainer_at m l t lo /\ data_at m l t idata odata xs ys.
(** what training may write *)
Definition train_mem l t (b : nat) (i : Z) : Prop := net_block l b \/ inside (t_data (tr_delta t)) (t_size (tr_delta t)) b i.
Lemma ready_step m l t lo idata odata xs ys m' l' : ready m l t lo idata odata xs ys -> plans l' = plans l ->
  (Forall train_class (layers l) -> Forall train_class (layers l')) -> (forall b, net_block l' b <-> net_block l b) ->
  net_at m' l' -> only (train_mem l t) m m' -> ready m' l' t lo idata odata xs ys.
Proof.
  intros (Hn & Tr & A & (El & Wb & Od & Ow) & Da) Ep Tc Nb A' O.
  assert (Len : length l' = length l) by (pose proof (f_equal (@length _) Ep) as Q; unfold plans in Q; now rewrite !map_length in Q).
  assert (No : forall p, net_outside l p -> net_outside l' p). { intros [|b i] Q; cbn in *; [exact Q|]. now rewrite Nb. }
  assert (Kh : forall p n v, net_outside l p -> disjoint (t_data (tr_delta t)) (t_size (tr_delta t)) p n -> holds m p n v -> holds m' p n v).
  { intros p n v Op Dp H. eapply only_holds; [exact O| |exact H]. intros b i Hi [Q|Q]; [|exact (Dp b i Q Hi)]. destruct p as [|b' o]; cbn in *; [exact Hi|]. destruct Hi as [-> _]. auto. }
  split; [now rewrite Len|]. split; [auto|]. split; [exact A'|]. split.
  - split; [exact El|]. split; [now rewrite Ep|]. split; [now apply No|]. destruct Ow as [E1 (b & E2 & lv)]. split; [exact E1|]. exists b. split; [exact E2|].
    eapply live_skel; [apply O|exact lv].
  - intros i Hi. destruct (Da i Hi) as (x & y & Zx & Zy & (W & Hx & Ox) & Dx & (Hy & Oy & Dy)). exists x, y. split; [exact Zx|]. split; [exact Zy|].
    split; [|split; [exact Dx|]].
    + split; [now rewrite Ep|]. split; [now apply Kh|now apply No].
    + split; [now apply Kh|]. split; [now apply No|exact Dy].
Qed.
Lemma last_run_fwd l : forall (x : Z -> T) d0, l <> [] -> n_data (last (run_fwd l x) d0) RValue = net_out l x.
Proof.
  induction l as [|d l IH]; intros x d0 Ne; [congruence|]. destruct l as [|e l].
  - cbn [run_fwd last fwd n_data]. apply after_forward_value.
  - change (last (run_fwd (d :: e :: l) x) d0) with (last (run_fwd (e :: l) (node_out d x)) d0). rewrite IH by discriminate. reflexivity.
Qed.
(** the network after feedforward(x), backprop(x, y) *)
Definition l_sample (lo : loss) (x y : Z -> T) l : list (node T) := run_back (run_fwd l x) x false (loss_dval lo y (net_out l x)).
Lemma layers_sample lo x y l : layers (l_sample lo x y l) = layers l.
Proof. unfold l_sample. rewrite layers_run_back. apply same_model_fwd. Qed.
Lemma plans_sample lo x y l : plans (l_sample lo x y l) = plans l.
Proof. unfold l_sample. rewrite plans_run_back. apply same_model_fwd. Qed.
Section Run.
Context (addr : ptr -> Z) (t : trainer) (lo : loss) (idata odata : list tensor) (xs ys : Z -> Z -> T).
Notation ready m l := (ready m l t lo idata odata xs ys).
Notation run := (Schedule.run addr t idata odata).
Lemma nth_of_run {A} (l : list A) i x m : znth l i = Some x -> nth_of (T := T) l i m = Ok (x, m).
Proof. intros E. unfold nth_of. now rewrite E. Qed.
Lemma sample_run i m l o es : ready m l -> 0 <= i < Z.of_nat (length idata) ->
  exists m', run (Feed i :: Backprop i i :: es) (layers l, o) m = run es (layers (l_sample lo (xs i) (ys i) l), o) m' /\
    ready m' (l_sample lo (xs i) (ys i) l) /\ only (train_mem l t) m m'.
Proof.
  intros R Hi. pose proof R as (Hn & Tr & A & Ta & Da). assert (Ne : l <> []) by (intros ->; cbn in Hn; lia).
  destruct (Da i Hi) as (x & y & Zx & Zy & Sx & Dx & Ty).
  destruct (feedforward_run m l x (xs i) Ne ltac:(lia) A Sx) as (out & m1 & E1 & A1 & O1 & _).
  destruct (same_model_fwd l (xs i)) as (L1 & P1 & _).
  assert (Nb1 : forall b, net_block (run_fwd l (xs i)) b <-> net_block l b) by (intros b; now rewrite (net_block_same (run_fwd l (xs i)) l)).
  assert (R1 : ready m1 (run_fwd l (xs i))).
  { eapply ready_step; [exact R|exact P1|now rewrite L1|exact Nb1|exact A1|]. eapply only_weaken; [|exact O1]. unfold train_mem. cbn. auto. }
  destruct R1 as (Hn1 & Tr1 & _ & Ta1 & Da1). destruct (Da1 i Hi) as (x' & y' & Zx' & Zy' & Sx' & Dx' & Ty'). assert (x' = x) by congruence. assert (y' = y) by congruence. subst x' y'.
  destruct l as [|d0 l0] eqn:El0; [congruence|]. rewrite <- El0 in *. clear El0 l0.
  destruct (backprop_run m1 (run_fwd l (xs i)) t lo x (xs i) y (ys i) d0 Hn1 Tr1 A1 Ta1 Sx' Dx' Ty') as (m2 & E2 & A2 & O2).
  rewrite (last_run_fwd l (xs i) d0 Ne) in A2. rewrite L1 in E2. change (net_at m2 (l_sample lo (xs i) (ys i) l)) in A2.
  assert (O : only (train_mem l t) m m2).
  { eapply only_trans; [eapply only_weaken; [|exact O1]|eapply only_weaken; [|exact O2]]; unfold train_mem; cbn; [auto|]. intros b j. now rewrite Nb1. }
  exists m2. split; [|split; [|exact O]].
  - cbn [Schedule.run run_event]. unfold bind, ret. rewrite (nth_of_run idata i x m Zx), E1. cbn [run_event]. unfold bind, ret.
    rewrite (nth_of_run idata i x m1 Zx), (nth_of_run odata i y m1 Zy), E2. now rewrite layers_sample.
  - eapply ready_step; [exact R|apply plans_sample|now rewrite layers_sample| |exact A2|exact O]. intros b. rewrite (net_block_same _ l); [reflexivity|apply layers_sample].
Qed.
Lemma reset_run m l o es : ready m l ->
  exists m', run (Reset :: es) (layers l, o) m = run es (layers (map n_reset l), o) m' /\ ready m' (map n_reset l) /\ only (train_mem l t) m m'.
Proof.
  intros R. pose proof R as (Hn & Tr & A & _). destruct (mmap_run l_reset n_reset alike_reset l_reset_run l m Tr A) as (m' & E & A' & O).
  assert (O' : only (train_mem l t) m m') by (eapply only_weaken; [|exact O]; unfold train_mem; cbn; auto).
  exists m'. cbn [Schedule.run run_event]. unfold bind, ret. rewrite E. split; [reflexivity|]. split; [|exact O'].
  destruct (alike_map n_reset l alike_reset) as (P & Q & Nb). eapply ready_step; eauto.
Qed.
Lemma accumulate_run m l o es : ready m l ->
  exists m', run (Accumulate :: es) (layers l, o) m = run es (layers (map n_accum l), o) m' /\ ready m' (map n_accum l) /\ only (train_mem l t) m m'.
Proof.
  intros R. pose proof R as (Hn & Tr & A & _). destruct (mmap_run l_accumulate n_accum alike_accum l_accumulate_run l m Tr A) as (m' & E & A' & O).
  assert (O' : only (train_mem l t) m m') by (eapply only_weaken; [|exact O]; unfold train_mem; cbn; auto).
  exists m'. cbn [Schedule.run run_event]. unfold bind, ret. rewrite E. split; [reflexivity|]. split; [|exact O'].
  destruct (alike_map n_accum l alike_accum) as (P & Q & Nb). eapply ready_step; eauto.
Qed.
Lemma update_run alpha m l o es : o_kind o = GradDescent -> ready m l ->
  exists m', run (Update alpha :: es) (layers l, o) m = run es (layers (map (n_update (o_lr o) alpha) l), o) m' /\ ready m' (map (n_update (o_lr o) alpha) l) /\ only (train_mem l t) m m'.
Proof.
  intros Ok R. pose proof R as (Hn & Tr & A & _). destruct (mlist_run addr alpha o Ok l m Tr A) as (m' & E & EL & A' & O).
  assert (O' : only (train_mem l t) m m') by (eapply only_weaken; [|exact O]; unfold train_mem; cbn; auto).
  exists m'. rewrite EL. cbn [Schedule.run run_event]. unfold bind, ret. rewrite E. split; [reflexivity|]. split; [|exact O'].
  destruct (alike_map (n_update (o_lr o) alpha) l (alike_update _ _)) as (P & Q & Nb). eapply ready_step; eauto.
Qed.
(** one sample of a batch, a whole round, a stochastic step *)
Definition l_present l (i : Z) : list (node T) := map n_accum (l_sample lo (xs i) (ys i) l).
Definition l_round (lr : T) l (is : list Z) : list (node T) :=
  map (n_update lr (div one (ofZ (Z.of_nat (length is))))) (fold_left l_present is (map n_reset l)).
Definition l_step (lr : T) l (i : Z) : list (node T) := map (n_update lr one) (l_sample lo (xs i) (ys i) l).
Definition valid (i : Z) : Prop := 0 <= i < Z.of_nat (length idata).
Lemma block_trans l l' m m' m'' : (forall b, net_block l' b <-> net_block l b) -> only (train_mem l t) m m' -> only (train_mem l' t) m' m'' -> only (train_mem l t) m m''.
Proof. intros Nb O1 O2. eapply only_trans; [exact O1|]. eapply only_weaken; [|exact O2]. unfold train_mem. cbn. intros b i. now rewrite Nb. Qed.
Lemma present_block i l b : net_block (l_present l i) b <-> net_block l b.
Proof.
  unfold l_present. destruct (alike_map n_accum (l_sample lo (xs i) (ys i) l) alike_accum) as (_ & _ & Nb). rewrite Nb.
  rewrite (net_block_same _ l); [reflexivity|apply layers_sample].
Qed.
Lemma present_run i m l o es : ready m l -> valid i ->
  exists m', run (present i ++ es) (layers l, o) m = run es (layers (l_present l i), o) m' /\ ready m' (l_present l i) /\ only (train_mem l t) m m'.
Proof.
  intros R V. unfold present. cbn [app]. destruct (sample_run i m l o (Accumulate :: es) R V) as (m1 & E1 & R1 & O1).
  destruct (accumulate_run m1 _ o es R1) as (m2 & E2 & R2 & O2). exists m2. rewrite E1, E2. split; [reflexivity|]. split; [exact R2|].
  eapply block_trans; [|exact O1|exact O2]. intros b. rewrite (net_block_same _ l); [reflexivity|apply layers_sample].
Qed.
Lemma presents_run is : forall m l o es, ready m l -> Forall valid is ->
  exists m', run (flat_map present is ++ es) (layers l, o) m = run es (layers (fold_left l_present is l), o) m' /\ ready m' (fold_left l_present is l) /\ only (train_mem l t) m m'.
Proof.
  induction is as [|i is IH]; intros m l o es R V.
  - exists m. split; [reflexivity|]. split; [exact R|apply only_refl].
  - apply Forall_cons_iff in V as [V1 V2]. cbn [flat_map fold_left]. rewrite <- app_assoc.
    destruct (present_run i m l o (flat_map present is ++ es) R V1) as (m1 & E1 & R1 & O1).
    destruct (IH m1 _ o es R1 V2) as (m2 & E2 & R2 & O2). exists m2. rewrite E1, E2. split; [reflexivity|]. split; [exact R2|].
    eapply block_trans; [|exact O1|exact O2]. intros b. apply present_block.
Qed.
Lemma presents_block is : forall l b, net_block (fold_left l_present is l) b <-> net_block l b.
Proof. induction is as [|i is IH]; intros l b; [reflexivity|]. cbn [fold_left]. rewrite IH. apply present_block. Qed.
Lemma round_run is m l o es : o_kind o = GradDescent -> ready m l -> Forall valid is ->
  exists m', run (round is ++ es) (layers l, o) m = run es (layers (l_round (o_lr o) l is), o) m' /\ ready m' (l_round (o_lr o) l is) /\ only (train_mem l t) m m'.
Proof.
  intros Ok R V. unfold round. cbn [app]. rewrite <- app_assoc. cbn [app].
  destruct (reset_run m l o (flat_map present is ++ Update (div one (ofZ (Z.of_nat (length is)))) :: es) R) as (m1 & E1 & R1 & O1).
  destruct (presents_run is m1 _ o (Update (div one (ofZ (Z.of_nat (length is)))) :: es) R1 V) as (m2 & E2 & R2 & O2).
  destruct (update_run (div one (ofZ (Z.of_nat (length is)))) m2 _ o es Ok R2) as (m3 & E3 & R3 & O3).
  exists m3. rewrite E1, E2, E3. split; [reflexivity|]. split; [exact R3|].
  assert (Nb : forall b, net_block (map n_reset l) b <-> net_block l b) by apply (alike_map n_reset l alike_reset).
  eapply block_trans; [|eapply block_trans; [|exact O1|exact O2]|exact O3]; intros b; [|apply Nb]. rewrite presents_block. apply Nb.
Qed.
Lemma step_run i m l o es : o_kind o = GradDescent -> ready m l -> valid i ->
  exists m', run (step_on i ++ es) (layers l, o) m = run es (layers (l_step (o_lr o) l i), o) m' /\ ready m' (l_step (o_lr o) l i) /\ only (train_mem l t) m m'.
Proof.
  intros Ok R V. unfold step_on. cbn [app]. destruct (sample_run i m l o (Update one :: es) R V) as (m1 & E1 & R1 & O1).
  destruct (update_run one m1 _ o es Ok R1) as (m2 & E2 & R2 & O2). exists m2. rewrite E1, E2. split; [reflexivity|]. split; [exact R2|].
  eapply block_trans; [|exact O1|exact O2]. intros b. rewrite (net_block_same _ l); [reflexivity|apply layers_sample].
Qed.
Lemma round_block lr is l b : net_block (l_round lr l is) b <-> net_block l b.
Proof.
  unfold l_round. destruct (alike_map (n_update lr (div one (ofZ (Z.of_nat (length is))))) (fold_left l_present is (map n_reset l)) (alike_update _ _)) as (_ & _ & Nb).
  rewrite Nb, presents_block. apply (alike_map n_reset l alike_reset).
Qed.
Lemma step_block lr i l b : net_block (l_step lr l i) b <-> net_block l b.
Proof.
  unfold l_step. destruct (alike_map (n_update lr one) (l_sample lo (xs i) (ys i) l) (alike_update _ _)) as (_ & _ & Nb). rewrite Nb.
  rewrite (net_block_same _ l); [reflexivity|apply layers_sample].
Qed.
(** sequences of rounds and of steps *)
Lemma rounds_run iss : forall m l o, o_kind o = GradDescent -> ready m l -> Forall (Forall valid) iss ->
  exists m', run (flat_map round iss) (layers l, o) m = Ok ((layers (fold_left (l_round (o_lr o)) iss l), o), m') /\
    ready m' (fold_left (l_round (o_lr o)) iss l) /\ only (train_mem l t) m m'.
Proof.
  induction iss as [|is iss IH]; intros m l o Ok R V.
  - exists m. split; [reflexivity|]. split; [exact R|apply only_refl].
  - apply Forall_cons_iff in V as [V1 V2]. cbn [flat_map fold_left]. destruct (round_run is m l o (flat_map round iss) Ok R V1) as (m1 & E1 & R1 & O1).
    destruct (IH m1 _ o Ok R1 V2) as (m2 & E2 & R2 & O2). exists m2. rewrite E1, E2. split; [reflexivity|]. split; [exact R2|].
    eapply block_trans; [|exact O1|exact O2]. intros b. apply round_block.
Qed.
Lemma steps_run is : forall m l o, o_kind o = GradDescent -> ready m l -> Forall valid is ->
  exists m', run (flat_map step_on is) (layers l, o) m = Ok ((layers (fold_left (l_step (o_lr o)) is l), o), m') /\
    ready m' (fold_left (l_step (o_lr o)) is l) /\ only (train_mem l t) m m'.
Proof.
  induction is as [|i is IH]; intros m l o Ok R V.
  - exists m. split; [reflexivity|]. split; [exact R|apply only_refl].
  - apply Forall_cons_iff in V as [V1 V2]. cbn [flat_map fold_left]. destruct (step_run i m l o (flat_map step_on is) Ok R V1) as (m1 & E1 & R1 & O1).
    destruct (IH m1 _ o Ok R1 V2) as (m2 & E2 & R2 & O2). exists m2. rewrite E1, E2. split; [reflexivity|]. split; [exact R2|].
    eapply block_trans; [|exact O1|exact O2]. intros b. apply step_block.
Qed.
End Run.
End Any.

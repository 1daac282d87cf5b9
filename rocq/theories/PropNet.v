(** * Properties C63, C64, C66: networks *)
From Coq Require Import Reals.
From Verif Require Import Mem Scalar MemSpec MemLemmas Lique LiqueSpec LiqueProofs LiqueProofs2 Linear LinearProofs Functions FunctionSpec FunctionProofs
  Optimizer Layer LayerSpec FCProofs Cells ConvSpec ConvProofs ConvProofs2 PoolSpec PoolProofs PoolProofs2 PropFC PropConv PropPool Net NetPlan NetProofs NetBack.
Open Scope Z_scope.

Section Any.
Context {T : Type} `{NT : Num T}.
Implicit Types (m : mem T) (d e : node T) (l : list (node T)).

(** ** Every topology can be built *)
(** Sizes fit size_t, strides are non-zero, pooling windows tile the input. *)
Definition plan_ok (p : plan) : Prop :=
  match p with
  | PDense a n k => 0 <= n < 2 ^ 64 /\ 0 <= k < 2 ^ 64 /\ n * k < 2 ^ 64 /\ (a = SoftMax -> 0 < k)
  | PConv g => geometry_ok g
  | PPool a q => tiling_ok q /\ (a = SoftMax -> 0 < out_count (PPool a q))
  end.
(** [new FullyConnected(...)], [new Convolutional(...)], [new MaxPooling(...)], Train classes *)
Definition build_layer (p : plan) : M T layer :=
  match p with
  | PDense a n k => let* L := fc_new n k (Some a) in ret (LFC L)
  | PConv g => let* L := conv_new (shape3 (g_d g) (g_h g) (g_w g)) (g_f g) (g_fh g) (g_fw g) (g_p g) (g_vs g) (g_hs g) in ret (LConv L)
  | PPool a q => let* L := pool_new (q_d q) (q_h q) (q_w q) (q_vs q) (q_hs q) (Some a) in ret (LPool L)
  end.
(** [net.add(new ...)] for each plan *)
Fixpoint build (N : net) (ps : list plan) : M T net :=
  match ps with [] => ret N | p :: ps => let* L := build_layer p in build (net_add N L) ps end.
(** the layers with their plans and all-zero contents *)
Definition new_nodes (N : net) (ps : list plan) : list (node T) := map (fun q => mk_node (fst q) (snd q) (fun _ _ => zero)) (combine N ps).

Lemma ten_zeros_shape t (s : shape) m t' m' : s_size s = u64 (s_depth s * s_height s * s_width s) -> ten_zeros t s m = Ok (t', m') -> t_shape t' = s.
Proof.
  intros Es E. unfold ten_zeros, ten_resize_shape, ten_resize in E. unfold bind, free, alloc in E.
  destruct (t_data t) as [|b o].
  - cbn in E.
    destruct (tb_fill _ zero _) as [[[] m2]|]; [|discriminate]. injection E as <- <-. cbn. destruct s; cbn in *; unfold shape3; now rewrite Es.
  - destruct (nth_error m b) as [[c|]|]; try discriminate. destruct (o =? 0); [|discriminate]. cbn in E.
    destruct (tb_fill _ zero _) as [[[] m2]|]; [|discriminate]. injection E as <- <-. cbn. destruct s; cbn in *; unfold shape3; now rewrite Es.
Qed.
Lemma bind_inv A B (c : M T A) (f : A -> M T B) m r m' : bind c f m = Ok (r, m') -> exists a m1, c m = Ok (a, m1) /\ f a m1 = Ok (r, m').
Proof. unfold bind. destruct (c m) as [[a m1]|]; [|discriminate]. eauto. Qed.
Lemma fc_new_shapes n k act m L m' : fc_new n k act m = Ok (L, m') -> t_shape (f_value L) = shape3 1 1 k /\ t_shape (f_delta L) = shape3 1 1 n.
Proof.
  intros E. unfold fc_new in E. apply bind_inv in E as (B & m1 & _ & E). apply bind_inv in E as (W & m2 & _ & E).
  unfold fc_prepare in E. cbn in E. apply bind_inv in E as (v & m3 & Ev & E).
  do 5 (apply bind_inv in E as (? & ? & _ & E)). apply bind_inv in E as (dl & m9 & Ed & E). injection E as <- <-. cbn.
  split; [eapply ten_zeros_shape; [|exact Ev]|eapply ten_zeros_shape; [|exact Ed]]; reflexivity.
Qed.
Lemma build_layer_run p m : plan_ok p -> exists L m', build_layer p m = Ok (L, m') /\ fits L p /\ train_class L /\
  layer_at m' L (fun _ _ => zero) /\ preserves m m' /\ forall b, block_in L b -> (length m <= b)%nat.
Proof.
  destruct p as [a n k|g|a q]; cbn [plan_ok build_layer].
  - intros (Hn & Hk & Hnk & Hs). destruct (C51_construction m n k (Some a) Hn Hk Hnk) as (L & m' & E & D & Ea & A & P & F).
    exists (LFC L), m'. unfold bind. rewrite E. split; [reflexivity|]. split; [cbn; pose proof (fc_new_shapes _ _ _ _ _ _ E); tauto|]. split; [exact Logic.I|]. auto.
  - intros G. destruct g as [D H W F FH FW P VS HS]. destruct (C55_construction m D H W F FH FW P VS HS G) as (L & m' & E & _ & D' & A & _ & P' & F').
    exists (LConv L), m'. unfold bind. cbn in E |- *. rewrite E. split; [reflexivity|]. split; [exact D'|]. split; [exact Logic.I|]. auto.
  - intros (Q & Hs). destruct q as [D OH OW VS HS]. destruct (C59_construction m D OH OW VS HS (Some a) Q) as (_ & L & m' & E & _ & D' & Ea & A & P & F).
    exists (LPool L), m'. unfold bind. cbn in E |- *. unfold q_h, q_w. cbn. rewrite E. split; [reflexivity|]. split; [split; auto|]. split; [exact Logic.I|]. auto.
Qed.
Lemma keeps_layer m m' L s : preserves m m' -> layer_at m L s -> layer_at m' L s.
Proof.
  intros K A. eapply client_layer; [exact A|]. intros b (r & t & P & ->). pose proof (part_live _ _ _ _ _ A P) as (c & E & _).
  apply K; [|intros []]. apply nth_error_Some. congruence.
Qed.
Lemma block_live m L s b : layer_at m L s -> block_in L b -> (b < length m)%nat.
Proof. intros A (r & t & P & ->). pose proof (part_live _ _ _ _ _ A P) as (c & E & _). apply nth_error_Some. congruence. Qed.
Lemma preserves_trans m m1 m2 : preserves m m1 -> preserves m1 m2 -> preserves m m2.
Proof. intros [L1 K1] [L2 K2]. split; [lia|]. intros b Hb N. rewrite K2 by (auto; lia). now apply K1. Qed.
Lemma net_at_app m l1 l2 : net_at m l1 -> net_at m l2 -> (forall b, net_block l1 b -> ~ net_block l2 b) -> net_at m (l1 ++ l2).
Proof.
  induction l1 as [|d l1 IH]; intros A1 A2 D; [exact A2|]. cbn [app]. apply net_at_cons in A1 as (F & A & A1 & D1). apply net_at_cons.
  split; [exact F|]. split; [exact A|]. split.
  - apply IH; auto. intros b (e & He & Q). apply D. exists e. split; [now right|exact Q].
  - intros b Q (e & He & Q'). apply in_app_or in He as [He|He].
    + apply (D1 b Q). exists e. auto.
    + apply (D b). * exists d. split; [now left|exact Q]. * exists e. auto.
Qed.
Lemma net_at_preserved m m' l : preserves m m' -> net_at m l -> net_at m' l.
Proof.
  intros K [F P]. split; [|exact P]. rewrite Forall_forall in *. intros d Hd. destruct (F d Hd). split; [auto|]. eapply keeps_layer; eauto.
Qed.
Lemma net_block_live m l b : net_at m l -> net_block l b -> (b < length m)%nat.
Proof. intros [F _] (d & Hd & Q). rewrite Forall_forall in F. destruct (F d Hd). eapply block_live; eauto. Qed.
Lemma build_run ps : forall N qs m, Forall plan_ok ps -> length N = length qs -> Forall train_class N -> net_at m (new_nodes N qs) ->
  exists N' m', build N ps m = Ok (N', m') /\ length N' = length (qs ++ ps) /\ Forall train_class N' /\ net_at m' (new_nodes N' (qs ++ ps)) /\ preserves m m' /\
    forall b, net_block (new_nodes N' (qs ++ ps)) b -> net_block (new_nodes N qs) b \/ (length m <= b)%nat.
Proof.
  induction ps as [|p ps IH]; intros N qs m Ok_ Len Tr A.
  - exists N, m. rewrite app_nil_r. split; [reflexivity|]. split; [exact Len|]. split; [exact Tr|]. split; [exact A|]. split; [split; auto|]. auto.
  - apply Forall_cons_iff in Ok_ as [O1 O2]. destruct (build_layer_run p m O1) as (L & m1 & E & F & TL & AL & K & Fr).
    assert (E2 : new_nodes (N ++ [L]) (qs ++ [p]) = new_nodes N qs ++ [mk_node L p (fun _ _ => zero)]).
    { unfold new_nodes. clear - Len. revert qs Len. induction N as [|M N IHN]; intros [|q qs] Len; try discriminate; [reflexivity|]. cbn. f_equal. apply IHN. cbn in Len. lia. }
    destruct (IH (N ++ [L]) (qs ++ [p]) m1) as (N' & m2 & E' & Len' & Tr' & A' & K' & Fr'); auto.
    { rewrite !app_length. cbn. lia. } { apply Forall_app. split; [exact Tr|]. constructor; auto. }
    { rewrite E2. apply net_at_app.
      - now apply (net_at_preserved m).
      - apply net_at_cons. split; [exact F|]. split; [exact AL|]. split; [split; constructor|]. intros b _ (? & [] & _).
      - intros b Q (e & [<-|[]] & Q'). cbn in Q'. apply Fr in Q'. pose proof (net_block_live _ _ _ A Q). lia. }
    rewrite <- app_assoc in *. cbn [app] in *. exists N', m2. split; [cbn [build]; unfold bind; rewrite E; exact E'|]. split; [exact Len'|]. split; [exact Tr'|].
    split; [exact A'|]. split; [eapply preserves_trans; eauto|]. intros b Q. destruct (Fr' b Q) as [Q1|Q1].
    + rewrite E2 in Q1. destruct Q1 as (e & He & Qe). apply in_app_or in He as [He|[<-|[]]]; [left; exists e; auto|right; now apply Fr].
    + right. destruct K. lia.
Qed.
Theorem C63_every_topology_builds ps m : Forall plan_ok ps ->
  exists N m', build [] ps m = Ok (N, m') /\ length N = length ps /\ Forall train_class N /\ net_at m' (new_nodes N ps) /\ preserves m m' /\
    forall b, net_block (new_nodes N ps) b -> (length m <= b)%nat.
Proof.
  intros H. destruct (build_run ps [] [] m H eq_refl (Forall_nil _)) as (N & m' & E & Len & Tr & A & K & Fr). { split; constructor. }
  exists N, m'. cbn [app] in *. split; [exact E|]. split; [exact Len|]. split; [exact Tr|]. split; [exact A|]. split; [exact K|].
  intros b Q. destruct (Fr b Q) as [(? & [] & _)|Q']. exact Q'.
Qed.

(** ** C63 *)
(** A sample the network can be fed with: a tensor of a shape its first layer accepts, outside its memory. *)
Definition sample_at m l (x : tensor) (v : Z -> T) : Prop :=
  wired (t_shape x) (plans l) /\ holds m (t_data x) (t_size x) v /\ net_outside l (t_data x).
Lemma nth_run_fwd l : forall x i d', nth_error (run_fwd l x) i = Some d' -> exists d, nth_error l i = Some d /\ d' = fwd d (net_out (firstn i l) x).
Proof.
  induction l as [|d l IH]; intros x [|i] d' E; cbn in E; try discriminate.
  - injection E as <-. exists d. auto.
  - destruct (IH _ _ _ E) as (e & E1 & E2). exists e. auto.
Qed.
Lemma net_out_snoc l : forall i d x, nth_error l i = Some d -> net_out (firstn (S i) l) x = node_out d (net_out (firstn i l) x).
Proof.
  induction l as [|e l IH]; intros [|i] d x E; cbn in E; try discriminate.
  - injection E as ->. reflexivity.
  - change (firstn (S (S i)) (e :: l)) with (e :: firstn (S i) l). change (firstn (S i) (e :: l)) with (e :: firstn i l).
    unfold net_out in *. cbn [fold_left]. now apply IH.
Qed.
Lemma last_nth_layers l (d0 : layer) : l <> [] -> exists d, nth_error l (length l - 1) = Some d /\ last (layers l) d0 = n_layer d.
Proof.
  intros Ne. destruct (exists_last Ne) as (pre & d & ->). exists d. rewrite app_length. cbn [length]. split.
  - replace (length pre + 1 - 1)%nat with (length pre) by lia. rewrite nth_error_app2, Nat.sub_diag by lia. reflexivity.
  - unfold layers. rewrite map_app. apply last_last.
Qed.
Theorem C63_feedforward_is_composition m l x xv :
  l <> [] -> Z.of_nat (length l) < 2 ^ 64 -> net_at m l -> sample_at m l x xv ->
  exists y m' l', net_feedforward (layers l) x m = Ok (y, m') /\
    (* the network, with new contents *)
    net_at m' l' /\ layers l' = layers l /\ plans l' = plans l /\
    (* the result: shape of the last layer, the composition applied to the input *)
    (exists p, nth_error (plans l) (length l - 1) = Some p /\ t_shape y = p_out p /\ holds m' (t_data y) (out_count p) (net_out l xv)) /\
    (* every layer's value is that of the composition up to it *)
    (forall i d', nth_error l' i = Some d' -> n_data d' RValue = net_out (firstn (S i) l) xv) /\
    (* and of the rest only the pre-activations and the pooling masks change *)
    (forall i d d' r, nth_error l i = Some d -> nth_error l' i = Some d' -> r <> RValue -> r <> RBuff -> r <> RMask -> n_data d' r = n_data d r) /\
    only (fun b _ => net_block l b) m m'.
Proof.
  intros Ne Hn A (W & Hx & Ho). destruct (chain_run l m x xv A W Hx Ho) as (m' & E & A' & O).
  destruct l as [|d0 l0] eqn:El; [congruence|]. rewrite <- El in *.
  assert (EN : layers l = n_layer d0 :: layers l0) by (rewrite El; reflexivity).
  pose proof (feedforward_chain (layers l) (n_layer d0) (layers l0) x m EN) as Ef.
  assert (Hn' : net_size (layers l) < 2 ^ 64) by (unfold net_size, layers; rewrite map_length; exact Hn). specialize (Ef Hn').
  unfold bind in Ef. rewrite E in Ef.
  destruct (last_nth_layers l (n_layer d0) Ne) as (dl & Edl & Ell). rewrite Ell in Ef.
  exists (l_value (n_layer dl)), m', (run_fwd l xv). split; [exact Ef|]. split; [exact A'|]. split; [apply layers_run_fwd|]. split; [apply plans_run_fwd|].
  split; [|split; [|split; [|exact O]]].
  - assert (Fl : fits (n_layer dl) (n_plan dl)). { destruct A as [A _]. rewrite Forall_forall in A. apply (A dl). eapply nth_error_In; exact Edl. }
    exists (n_plan dl). split; [unfold plans; now rewrite nth_error_map, Edl|]. split; [now apply value_shape|].
    assert (Er : nth_error (run_fwd l xv) (length l - 1) = Some (fwd dl (net_out (firstn (length l - 1) l) xv))).
    { destruct (nth_error (run_fwd l xv) (length l - 1)) as [d'|] eqn:Er.
      - destruct (nth_run_fwd _ _ _ _ Er) as (d2 & E2 & ->). congruence.
      - apply nth_error_None in Er. pose proof (f_equal (@length _) (layers_run_fwd l xv)) as Q. unfold layers in Q. rewrite !map_length in Q.
        rewrite Q in Er. rewrite El in Er. cbn in Er. lia. }
    destruct A' as [A' _]. rewrite Forall_forall in A'. destruct (A' _ (nth_error_In _ _ Er)) as [_ Al].
    pose proof (value_holds m' dl (net_out (firstn (length l - 1) l) xv) Al Fl) as Hv. replace (net_out l xv) with (net_out (firstn (S (length l - 1)) l) xv).
    + rewrite (net_out_snoc _ _ _ _ Edl). exact Hv.
    + f_equal. rewrite El. cbn [length]. replace (S (S (length l0) - 1)) with (S (length l0)) by lia. rewrite <- El. apply firstn_all2. rewrite El. cbn. lia.
  - intros i d' Er. destruct (nth_run_fwd _ _ _ _ Er) as (d & Ed & ->). cbn [fwd n_data]. rewrite after_forward_value. symmetry. now apply net_out_snoc.
  - intros i d d' r Ed Er N1 N2 N3. destruct (nth_run_fwd _ _ _ _ Er) as (d2 & Ed2 & ->). assert (d2 = d) by congruence. subst d2. cbn [fwd n_data]. now apply after_forward_other.
Qed.

(** ** C64 *)
(** What happens between two uses of the network: feedforward calls with any acceptable samples,
    and anything that leaves the network's memory alone. *)
Inductive between l : mem T -> mem T -> Prop :=
| between_nothing m : between l m m
| between_feed m x xv y m1 m2 : between l m m1 -> sample_at m1 l x xv -> net_feedforward (layers l) x m1 = Ok (y, m2) -> between l m m2
| between_other m m1 m2 : between l m m1 -> (forall b, net_block l b -> nth_error m2 b = nth_error m1 b) -> between l m m2.
(** the same network with the same parameters, gradients and accumulators *)
Definition same_model l l' : Prop :=
  layers l' = layers l /\ plans l' = plans l /\
  forall i d d' r, nth_error l i = Some d -> nth_error l' i = Some d' -> r <> RValue -> r <> RBuff -> r <> RMask -> n_data d' r = n_data d r.
Lemma node_out_fwd d x y : node_out (fwd d x) y = node_out d y.
Proof.
  unfold node_out, fwd. cbn [n_plan n_layer n_data]. unfold after_forward. destruct (n_plan d), (n_layer d); try reflexivity; cbn;
    try (rewrite !set_role_other by discriminate; reflexivity).
Qed.
Lemma net_out_run_fwd l : forall x y, net_out (run_fwd l x) y = net_out l y.
Proof. induction l as [|d l IH]; intros x y; [reflexivity|]. cbn [run_fwd]. unfold net_out in *. cbn [fold_left]. now rewrite node_out_fwd, IH. Qed.
Lemma feedforward_run m l x xv : l <> [] -> Z.of_nat (length l) < 2 ^ 64 -> net_at m l -> sample_at m l x xv ->
  exists y m', net_feedforward (layers l) x m = Ok (y, m') /\ net_at m' (run_fwd l xv) /\ only (fun b _ => net_block l b) m m' /\
    exists p, nth_error (plans l) (length l - 1) = Some p /\ t_shape y = p_out p /\ holds m' (t_data y) (out_count p) (net_out l xv) /\
    exists d, nth_error l (length l - 1) = Some d /\ n_plan d = p /\ y = l_value (n_layer d).
Proof.
  intros Ne Hn A S. destruct (C63_feedforward_is_composition m l x xv Ne Hn A S) as (y & m' & l' & E & _ & _ & _ & Y & _).
  destruct S as (W & Hx & Ho). destruct (chain_run l m x xv A W Hx Ho) as (m2 & E2 & A2 & O2).
  destruct l as [|d0 l0] eqn:El; [congruence|]. rewrite <- El in *.
  assert (EN : layers l = n_layer d0 :: layers l0) by (rewrite El; reflexivity).
  assert (Hn' : net_size (layers l) < 2 ^ 64) by (unfold net_size, layers; rewrite map_length; exact Hn).
  pose proof (feedforward_chain (layers l) (n_layer d0) (layers l0) x m EN Hn') as Ef.
  unfold bind in Ef. rewrite E2 in Ef. destruct (last_nth_layers l (n_layer d0) Ne) as (dl & Edl & Ell). rewrite Ell in Ef.
  rewrite E in Ef. injection Ef as -> ->. exists (l_value (n_layer dl)), m2. split; [exact E|]. split; [exact A2|]. split; [exact O2|].
  destruct Y as (p & Ep & Y1 & Y2). exists p. split; [exact Ep|]. split; [exact Y1|]. split; [exact Y2|]. exists dl. split; [exact Edl|]. split; [|reflexivity].
  unfold plans in Ep. rewrite nth_error_map, Edl in Ep. cbn in Ep. congruence.
Qed.
Lemma same_model_trans l1 l2 l3 : same_model l1 l2 -> same_model l2 l3 -> same_model l1 l3.
Proof.
  intros (A1 & A2 & A3) (B1 & B2 & B3). split; [congruence|]. split; [congruence|]. intros i d d' r E E' N1 N2 N3.
  destruct (nth_error l2 i) as [e|] eqn:Ee.
  - rewrite (B3 i e d') by auto. now apply (A3 i).
  - apply nth_error_None in Ee. assert (Le : length l2 = length l1). { apply (f_equal (@length _)) in A1. unfold layers in A1. now rewrite !map_length in A1. }
    assert (nth_error l1 i <> None) by congruence. apply nth_error_Some in H. lia.
Qed.
Lemma same_model_refl l : same_model l l.
Proof. split; [reflexivity|]. split; [reflexivity|]. intros. congruence. Qed.
Lemma same_model_fwd l x : same_model l (run_fwd l x).
Proof.
  split; [apply layers_run_fwd|]. split; [apply plans_run_fwd|]. intros i d d' r E E' N1 N2 N3.
  destruct (nth_run_fwd _ _ _ _ E') as (d2 & E2 & ->). assert (d2 = d) by congruence. subst d2. now apply after_forward_other.
Qed.
Lemma sample_same m l l' x xv : layers l' = layers l -> plans l' = plans l -> sample_at m l x xv -> sample_at m l' x xv.
Proof.
  intros E1 E2 (S1 & S2 & S3). split; [now rewrite E2|]. split; [exact S2|]. destruct (t_data x); cbn in *; auto. now rewrite (net_block_same l' l).
Qed.
Lemma between_inv l m m' : Z.of_nat (length l) < 2 ^ 64 -> l <> [] -> net_at m l -> between l m m' ->
  exists l', net_at m' l' /\ same_model l l' /\ forall x, net_out l' x = net_out l x.
Proof.
  intros Hn Ne A B. induction B as [m|m x xv y m1 m2 B IH S E|m m1 m2 B IH C].
  - exists l. split; [exact A|]. split; [apply same_model_refl|reflexivity].
  - destruct (IH A) as (l' & A' & S' & F'). pose proof S' as (L1 & P1 & _). assert (Len : length l' = length l). { apply (f_equal (@length _)) in L1. unfold layers in L1. now rewrite !map_length in L1. }
    destruct (feedforward_run m1 l' x xv) as (y' & m2' & E' & A2 & _); auto.
    { intros ->. destruct l; [congruence|discriminate]. } { lia. } { eapply sample_same; eauto. }
    rewrite L1, E in E'. injection E' as <- <-. exists (run_fwd l' xv). split; [exact A2|]. split.
    + eapply same_model_trans; [exact S'|apply same_model_fwd].
    + intros z. now rewrite net_out_run_fwd.
  - destruct (IH A) as (l' & A' & S' & F'). exists l'. split; [|split; auto]. destruct A' as [G P]. split; [|exact P].
    rewrite Forall_forall in *. intros d Hd. destruct (G d Hd) as [G1 G2]. split; [exact G1|]. eapply client_layer; [exact G2|].
    intros b Q. apply C. apply (net_block_same l' l); [apply S'|]. exists d. auto.
Qed.
(** Whatever happened in between, the same input gives the same output - the same tensor object,
    the same values - and parameters, gradients and accumulators are as they were. *)
Theorem C64_feedforward_repeatable m l x xv m0 x1 x2 xv2 y m1 :
  l <> [] -> Z.of_nat (length l) < 2 ^ 64 -> net_at m l ->
  between l m m0 -> sample_at m0 l x xv -> net_feedforward (layers l) x m0 = Ok (y, m1) ->
  between l m1 x1 -> sample_at x1 l x2 xv2 -> t_size x2 = t_size x -> (forall i, 0 <= i < t_size x -> xv2 i = xv i) ->
  exists y' m' l', net_feedforward (layers l) x2 x1 = Ok (y', m') /\ y' = y /\ net_at m' l' /\ same_model l l' /\
    (forall i, 0 <= i < t_size y -> elem m' (t_data y) i = elem m1 (t_data y) i /\ exists v, elem m' (t_data y) i = Some (Some v)).
Proof.
  intros Ne Hn A B0 S E B1 S2 Es Ev.
  destruct (between_inv l m m0 Hn Ne A B0) as (l0 & A0 & (L0 & P0 & D0) & F0).
  assert (Len0 : length l0 = length l). { apply (f_equal (@length _)) in L0. unfold layers in L0. now rewrite !map_length in L0. }
  assert (Ne0 : l0 <> []) by (intros ->; destruct l; [congruence|discriminate]).
  destruct (feedforward_run m0 l0 x xv Ne0 ltac:(lia) A0 (sample_same _ _ _ _ _ L0 P0 S)) as (y0 & m1' & E0 & A1 & _ & p & Ep & Yp & Yh & d & Ed & Edp & Ey).
  rewrite L0, E in E0. injection E0 as <- <-.
  assert (Bt : between l0 m1 x1).
  { clear - B1 L0 P0. induction B1 as [m|m x xv y m1 m2 B IH S E|m m1 m2 B IH C].
    - constructor. - eapply between_feed; [exact IH|eapply sample_same; eauto|rewrite L0; exact E].
    - eapply between_other; [exact IH|]. intros b Q. apply C. now apply (net_block_same l l0). }
  set (l1 := run_fwd l0 xv) in *. assert (L1 : layers l1 = layers l0) by apply layers_run_fwd. assert (P1 : plans l1 = plans l0) by apply plans_run_fwd.
  assert (Len1 : length l1 = length l0). { pose proof (f_equal (@length _) L1) as Q. unfold layers in Q. now rewrite !map_length in Q. }
  assert (Ne1 : l1 <> []) by (intros Q; rewrite Q in *; destruct l0; [congruence|discriminate]).
  assert (Bt1 : between l1 m1 x1).
  { clear - Bt L1 P1. induction Bt as [m|m x xv0 y m1 m2 B IH S E|m m1 m2 B IH C].
    - constructor. - eapply between_feed; [exact IH|eapply sample_same; eauto|rewrite L1; exact E].
    - eapply between_other; [exact IH|]. intros b Q. apply C. now apply (net_block_same l0 l1). }
  destruct (between_inv l1 m1 x1 ltac:(lia) Ne1 A1 Bt1) as (l2 & A2 & S12 & F2). pose proof S12 as (L2 & P2 & _).
  assert (Len2 : length l2 = length l1). { pose proof (f_equal (@length _) L2) as Q. unfold layers in Q. now rewrite !map_length in Q. }
  assert (Ne2 : l2 <> []) by (intros Q; rewrite Q in *; destruct l1; [congruence|discriminate]).
  assert (S2' : sample_at x1 l2 x2 xv). { apply (sample_same _ l); [congruence|congruence|]. destruct S2 as (Q1 & Q2 & Q3). split; [exact Q1|]. split; [|exact Q3].
    intros i Hi. rewrite <- Ev by lia. apply Q2. exact Hi. }
  destruct (feedforward_run x1 l2 x2 xv Ne2 ltac:(lia) A2 S2') as (y' & m' & E' & A' & _ & p' & Ep' & Yp' & Yh' & d' & Ed' & Edp' & Ey').
  assert (Epp : p' = p) by (rewrite P2, P1, Len2, Len1 in Ep'; congruence).
  assert (Eyy : y' = y).
  { subst y y'. f_equal. assert (Q : nth_error (layers l2) (length l2 - 1) = nth_error (layers l0) (length l0 - 1)) by (rewrite L2, L1, Len2, Len1; reflexivity).
    unfold layers in Q. rewrite !nth_error_map, Ed, Ed' in Q. cbn in Q. congruence. }
  exists y', m', (run_fwd l2 xv). split; [rewrite <- E', L2, L1, L0; reflexivity|]. split; [exact Eyy|]. split; [exact A'|]. split.
  { eapply same_model_trans; [|apply same_model_fwd]. eapply same_model_trans; [|exact S12]. eapply same_model_trans; [|apply same_model_fwd]. split; [exact L0|]. split; [exact P0|exact D0]. }
  intros i Hi. assert (Ht : t_size y = out_count p). { unfold t_size. rewrite Yp. destruct A0 as [G _]. rewrite Forall_forall in G. destruct (G d (nth_error_In _ _ Ed)) as [Fd _]. rewrite <- Edp. now apply fits_counts in Fd. }
  rewrite Ht in Hi. rewrite Eyy, Epp in Yh'. rewrite (Yh i Hi), (Yh' i Hi), F2. unfold l1. rewrite net_out_run_fwd. eauto.
Qed.

(** ** C66 *)
(** backprop of a network of one layer (or none) is undefined behaviour: it evaluates layer N-2. *)
Theorem C66_single_layer_refuted (L : layer) t x y m : exists e : ub, tr_backprop [L] t x y m = UB e.
Proof.
  unfold tr_backprop. cbv zeta. unfold bind at 1. destruct (bind _ _ m) as [[[] m1]|e]; [|eauto].
  unfold bind. change (nth_of [L] (u64 (net_size [L] - 1))) with (ret (T := T) L). cbn [ret].
  unfold nth_of. change (u64 (net_size [L] - 2)) with (2 ^ 64 - 1). replace (znth [L] (2 ^ 64 - 1)) with (@None layer) by reflexivity. cbn. eauto.
Qed.
Theorem C66_empty_net_refuted t x y m : exists e : ub, tr_backprop [] t x y m = UB e.
Proof.
  unfold tr_backprop. cbv zeta. unfold bind at 1. unfold bind at 1. unfold nth_of at 1. replace (znth [] (u64 (net_size [] - 1))) with (@None layer); [cbn; eauto|].
  unfold znth. destruct (0 <=? _); [|reflexivity]. now destruct (Z.to_nat _).
Qed.
(** The trainer: its delta buffer has its own memory, a loss is set. *)
Definition trainer_at m l t (lo : loss) : Prop :=
  tr_loss t = Some lo /\ wired_back (plans l) (t_shape (tr_delta t)) /\ net_outside l (t_data (tr_delta t)) /\
  owner m (tr_delta t) (t_size (tr_delta t)).
(** A target: as many values as the network has outputs, not in the network's or the trainer's memory. *)
Definition target_at m l t (y : tensor) (v : Z -> T) : Prop :=
  holds m (t_data y) (t_size (tr_delta t)) v /\ net_outside l (t_data y) /\ disjoint (t_data (tr_delta t)) (t_size (tr_delta t)) (t_data y) (t_size (tr_delta t)).
Lemma live_room m b n : live m b n -> room m (Ptr b 0) n.
Proof. intros (c & E & Ln) i Hi. cbn. unfold cell. rewrite E. destruct (znth_lt c i) as (v & ->); [lia|discriminate]. Qed.
Lemma wired_back_last l (d0 : node T) (s : shape) : l <> [] -> Forall (fun d => fits (n_layer d) (n_plan d)) l -> wired_back (plans l) s ->
  s_size s = out_count (n_plan (last l d0)).
Proof.
  induction l as [|d l IH]; intros Ne F W; [congruence|]. apply Forall_cons_iff in F as [F1 F2]. destruct l as [|e l].
  - cbn in *. eapply feeds_back_count; eauto.
  - change (last (d :: e :: l) d0) with (last (e :: l) d0). apply IH; [discriminate|exact F2|]. apply W.
Qed.
Lemma backprop_run m l t lo x xv y yv d0 : 2 <= Z.of_nat (length l) < 2 ^ 64 -> Forall train_class (layers l) -> net_at m l ->
  trainer_at m l t lo -> sample_at m l x xv -> disjoint (t_data (tr_delta t)) (t_size (tr_delta t)) (t_data x) (t_size x) -> target_at m l t y yv ->
  exists m', tr_backprop (layers l) t x y m = Ok (tt, m') /\
    net_at m' (run_back l xv false (loss_dval lo yv (n_data (last l d0) RValue))) /\
    only (fun b i => net_block l b \/ inside (t_data (tr_delta t)) (t_size (tr_delta t)) b i) m m'.
Proof.
  intros Hn Tr A (El & Wb & Od & Ow) (W & Hx & Ox) Dx (Hy & Oy & Dy).
  assert (Ne : l <> []) by (intros ->; cbn in Hn; lia).
  assert (Hsz : net_size (layers l) = Z.of_nat (length l)) by (unfold net_size, layers; now rewrite map_length).
  destruct (exists_last Ne) as (pre & dl & El'). assert (Ed : last l d0 = dl) by (rewrite El'; apply last_last).
  assert (Ed1 : nth_error l (length l - 1) = Some dl).
  { rewrite El', app_length. cbn [length]. replace (length pre + 1 - 1)%nat with (length pre) by lia. rewrite nth_error_app2, Nat.sub_diag by lia. reflexivity. }
  rewrite Ed. assert (Zl : znth (layers l) (net_size (layers l) - 1) = Some (n_layer dl)).
  { rewrite Hsz. unfold znth. replace (0 <=? Z.of_nat (length l) - 1) with true by (symmetry; apply Z.leb_le; lia).
    replace (Z.to_nat (Z.of_nat (length l) - 1)) with (length l - 1)%nat by lia. unfold layers. now rewrite nth_error_map, Ed1. }
  rewrite (backprop_chain (layers l) t lo x y (n_layer dl) m ltac:(lia) El Zl).
  assert (In_dl : In dl l) by (eapply nth_error_In; exact Ed1).
  pose proof A as [G _]. pose proof G as G'. rewrite Forall_forall in G. destruct (G dl In_dl) as [Fd Ad].
  assert (Es : t_size (tr_delta t) = out_count (n_plan dl)).
  { unfold t_size. rewrite <- Ed. apply wired_back_last; auto. eapply Forall_impl; [|exact G']. cbn. tauto. }
  assert (Hv : holds m (t_data (l_value (n_layer dl))) (t_size (tr_delta t)) (n_data dl RValue)). { rewrite Es. now apply value_in. }
  destruct Ow as [_ (b & Eb & lv)].
  assert (Pv : t_data (l_value (n_layer dl)) = Ptr (block_of (l_value (n_layer dl))) 0) by (eapply part_ptr; [exact Ad|apply value_part]).
  assert (Nb : net_block l (block_of (l_value (n_layer dl)))). { exists dl. split; [exact In_dl|]. exists RValue, (l_value (n_layer dl)). split; [apply value_part|reflexivity]. }
  assert (Dv : disjoint (t_data (tr_delta t)) (t_size (tr_delta t)) (t_data (l_value (n_layer dl))) (t_size (tr_delta t))).
  { rewrite Pv, Eb. intros b' i (-> & _) (Q & _). rewrite Eb in Od. cbn in Od. apply Od. rewrite Q. exact Nb. }
  destruct (wp_elim _ _ _ _ (wp_loss_df lo (t_data (tr_delta t)) (t_size (tr_delta t)) (t_data y) (t_data (l_value (n_layer dl))) m yv (n_data dl RValue)
    ltac:(rewrite Eb; now apply live_room) Hy Hv Dy (or_intror Dv))) as ([] & m1 & E1 & H1 & O1).
  unfold bind. rewrite E1.
  destruct (bchain_run l m1 x xv false (tr_delta t) (loss_dval lo yv (n_data dl RValue)) Ne Tr) as (m2 & E2 & A2 & O2); auto.
  - eapply net_at_frame; [exact A|exact O1|]. rewrite Eb in *. cbn in *. intros b' i (-> & _). exact Od.
  - eapply only_holds_disj; eauto.
  - exists m2. split; [exact E2|]. split; [exact A2|]. eapply only_trans; [eapply only_weaken; [|exact O1]|eapply only_weaken; [|exact O2]]; cbn; tauto.
Qed.
Lemma conv_grads_params g x s r : (forall f, r <> RGradW f) -> r <> RGradB -> r <> RBuff -> conv_after_grads g x s r = s r.
Proof. intros N1 N2 N3. destruct r; try reflexivity; try congruence; now destruct (N1 f). Qed.
Lemma after_backward_params d x dl full : after_backward d x dl full RB = n_data d RB /\ forall f, after_backward d x dl full (RW f) = n_data d (RW f).
Proof.
  unfold after_backward. destruct (n_plan d).
  - unfold fc_after_backward. cbv zeta. destruct full; split; intros; now rewrite !set_role_other by discriminate.
  - unfold conv_after_backward. cbv zeta. split; intros; rewrite set_role_other, conv_grads_params, set_role_other by discriminate; reflexivity.
  - unfold pool_after_backward. split; intros; now rewrite !set_role_other by discriminate.
Qed.
(** Two or more layers: every access is in range, backprop succeeds and writes only the
    network's memory and the trainer's delta; no parameter changes. *)
Theorem C66_two_or_more_layers_partial m l t lo x xv y yv :
  2 <= Z.of_nat (length l) < 2 ^ 64 -> Forall train_class (layers l) -> net_at m l ->
  trainer_at m l t lo -> sample_at m l x xv -> disjoint (t_data (tr_delta t)) (t_size (tr_delta t)) (t_data x) (t_size x) -> target_at m l t y yv ->
  exists m' l', tr_backprop (layers l) t x y m = Ok (tt, m') /\ net_at m' l' /\ layers l' = layers l /\ plans l' = plans l /\
    (forall i d d', nth_error l i = Some d -> nth_error l' i = Some d' -> n_data d' RB = n_data d RB /\ forall f, n_data d' (RW f) = n_data d (RW f)) /\
    only (fun b i => net_block l b \/ inside (t_data (tr_delta t)) (t_size (tr_delta t)) b i) m m'.
Proof.
  intros Hn Tr A Ht Hx Dx Hy. destruct l as [|d0 l0] eqn:El; [cbn in Hn; lia|]. rewrite <- El in *.
  destruct (backprop_run m l t lo x xv y yv d0 Hn Tr A Ht Hx Dx Hy) as (m' & E & A' & O).
  exists m', (run_back l xv false (loss_dval lo yv (n_data (last l d0) RValue))).
  split; [exact E|]. split; [exact A'|]. split; [apply layers_run_back|]. split; [apply plans_run_back|]. split; [|exact O].
  generalize (loss_dval lo yv (n_data (last l d0) RValue)). generalize false xv. clear. induction l as [|d l IH]; intros full x dv i d1 d2 E1 E2.
  - destruct i; discriminate.
  - cbn [run_back] in E2. specialize (IH true (n_data d RValue) dv). destruct (run_back l (n_data d RValue) true dv) as [|e r].
    + destruct i as [|[|i]]; cbn in E1, E2; try discriminate. injection E1 as <-. injection E2 as <-. cbn [bwd n_data]. apply after_backward_params.
    + destruct i as [|i]; cbn in E1, E2.
      * injection E1 as <-. injection E2 as <-. cbn [bwd n_data]. apply after_backward_params.
      * now apply (IH i).
Qed.
End Any.

Module Examples.
Open Scope R_scope.
(** A 1x4x4 picture through a convolution with two 3x3 filters (1x4x4 -> 2x2x2), a dense layer of 3
    and a dense layer of 2 with softmax: feeding it works (C63, C64).  Two dense layers: training works (C66). *)
Definition g0 : geometry := mk_geometry 1 4 4 2 3 3 0 1 1.
Definition ps : list plan := [PConv g0; PDense (Scalar Tanh) 8 3; PDense SoftMax 3 2].
Definition ps2 : list plan := [PDense (Scalar Tanh) 16 3; PDense SoftMax 3 2].
Definition xs : list R := map INR (seq 0 16).
Definition ys : list R := [1; 0].
Definition m0 : mem R := [Some (map Some xs); Some (map Some ys); Some [None; None]].
Definition tx : tensor := mk_tensor (Ptr 0 0) (shape3 1 4 4).
Definition ty : tensor := mk_tensor (Ptr 1 0) (shape3 1 1 2).
Definition td : tensor := mk_tensor (Ptr 2 0) (shape3 1 1 2).
Definition xv (i : Z) : R := nth (Z.to_nat i) xs 0.
Definition yv (i : Z) : R := nth (Z.to_nat i) ys 0.
Lemma new_nodes_plans (N : net) (qs : list plan) : length N = length qs -> plans (new_nodes (T := R) N qs) = qs /\ layers (new_nodes (T := R) N qs) = N.
Proof.
  revert qs. induction N as [|L N IH]; intros [|q qs] E; try discriminate; [auto|]. destruct (IH qs) as [E1 E2]; [cbn in E; lia|]. split; cbn; f_equal; [exact E1|exact E2].
Qed.
Lemma sample_kept (m : mem R) (l : list (node R)) b n (f : Z -> R) : preserves m0 m -> (forall b, net_block l b -> (length m0 <= b)%nat) -> (b < 3)%nat -> holds m0 (Ptr b 0) n f ->
  holds m (Ptr b 0) n f /\ net_outside l (Ptr b 0).
Proof.
  intros P F Hb H. split. - intros i Hi. eapply keeps_cell; [exact P|intros []|]. exact (H i Hi).
  - intros Q. apply F in Q. cbn in Q. lia.
Qed.
Example C63_applies : exists (l : list (node R)) (m : mem R), l <> [] /\ (Z.of_nat (length l) < 2 ^ 64)%Z /\ net_at m l /\ sample_at m l tx xv /\ between l m m.
Proof.
  destruct (C63_every_topology_builds (T := R) ps m0) as (N & m & E & Len & Tr & A & P & F).
  { unfold ps. repeat apply Forall_cons; try apply Forall_nil; cbn [plan_ok]; [unfold geometry_ok, g0, out_h, out_w; cbn -[Z.pow]; repeat split; lia| |]; (repeat split; try lia; discriminate). }
  destruct (new_nodes_plans N ps Len) as [Ep El]. exists (new_nodes N ps), m.
  assert (Ln : length (new_nodes (T := R) N ps) = 3%nat). { rewrite <- Ep at 1. pose proof (f_equal (@length _) Ep) as Q. unfold plans in Q. rewrite map_length in Q. rewrite Ep. exact Q. }
  split; [intros Q; rewrite Q in Ln; discriminate|]. split; [lia|]. split; [exact A|]. split; [|constructor].
  destruct (sample_kept m (new_nodes N ps) 0 16 xv P F ltac:(lia) (holds_list m0 0 xs 0 eq_refl)) as [H1 H2].
  split; [|split; [exact H1|exact H2]]. rewrite Ep. cbn. auto.
Qed.
Example C66_applies : exists (l : list (node R)) (m : mem R) t, (2 <= Z.of_nat (length l) < 2 ^ 64)%Z /\ Forall train_class (layers l) /\ net_at m l /\
  trainer_at m l t NLL /\ sample_at m l tx xv /\ disjoint (t_data (tr_delta t)) (t_size (tr_delta t)) (t_data tx) (t_size tx) /\ target_at m l t ty yv.
Proof.
  destruct (C63_every_topology_builds (T := R) ps2 m0) as (N & m & E & Len & Tr & A & P & F).
  { unfold ps2. repeat apply Forall_cons; try apply Forall_nil; cbn [plan_ok]; repeat split; try lia; discriminate. }
  destruct (new_nodes_plans N ps2 Len) as [Ep El]. exists (new_nodes N ps2), m, (mk_trainer td (Some NLL)).
  assert (Ln : length (new_nodes (T := R) N ps2) = 2%nat). { pose proof (f_equal (@length _) Ep) as Q. unfold plans in Q. rewrite map_length in Q. exact Q. }
  split; [lia|]. split; [rewrite El; exact Tr|]. split; [exact A|].
  destruct (sample_kept m (new_nodes N ps2) 0 16 xv P F ltac:(lia) (holds_list m0 0 xs 0 eq_refl)) as [H1 H2].
  destruct (sample_kept m (new_nodes N ps2) 1 2 yv P F ltac:(lia) (holds_list m0 1 ys 0 eq_refl)) as [H3 H4].
  split; [|split; [|split; [|split; [|split]]]].
  - split; [reflexivity|]. split; [rewrite Ep; cbn; auto|]. split. + intros Q. apply F in Q. cbn in Q. lia.
    + split; [reflexivity|]. exists 2%nat. split; [reflexivity|]. exists [None; None]. split; [|reflexivity]. rewrite (proj2 P); [reflexivity|cbn; lia|intros []].
  - split; [|split; [exact H1|exact H2]]. rewrite Ep. cbn. auto.
  - intros b i. cbn. lia.
  - exact H3. - exact H4. - intros b i. cbn. lia.
Qed.
End Examples.

Print Assumptions C63_every_topology_builds.
Print Assumptions C63_feedforward_is_composition.
Print Assumptions C64_feedforward_repeatable.
Print Assumptions C66_single_layer_refuted.
Print Assumptions C66_empty_net_refuted.
Print Assumptions C66_two_or_more_layers_partial.

(** * Networks: forward pass (proofs) *)
From Verif Require Import Mem Scalar MemSpec MemLemmas Lique LiqueSpec LiqueProofs LiqueProofs2 Linear LinearProofs Functions FunctionSpec FunctionProofs
  Optimizer Layer LayerSpec FCProofs Cells ConvSpec ConvProofs ConvProofs2 PoolSpec PoolProofs PropFC PropConv PropPool Net NetPlan.
Open Scope Z_scope.

Lemma mul3_le a b b' c c' : 0 <= a -> 0 <= b <= b' -> 0 <= c <= c' -> a * b * c <= a * b' * c'.
Proof. intros. assert (a * b <= a * b') by (apply Z.mul_le_mono_nonneg_l; lia). assert (0 <= a * b) by nia. apply Z.mul_le_mono_nonneg; lia. Qed.
Section Forward.
Context {T : Type} `{NT : Num T}.
Implicit Types (m : mem T) (s : contents T) (d e : node T) (l : list (node T)).

Lemma ten_is_shape t a b c : ten_is t a b c -> t_shape t = shape3 a b c.
Proof.
  intros (E1 & E2 & E3 & E4 & P1 & P2 & P3 & P4). unfold t_size in E4. destruct (t_shape t) as [x y z n]. cbn in *. subst.
  unfold shape3. f_equal. symmetry. apply u64_small. nia.
Qed.
Lemma shape_ten_is t a b c : 0 <= a -> 0 <= b -> 0 <= c -> a * b * c < 2 ^ 64 -> t_shape t = shape3 a b c -> ten_is t a b c.
Proof.
  intros Ha Hb Hc Hn E. unfold ten_is, t_size. rewrite E. cbn. rewrite u64_small by nia. repeat split; lia.
Qed.
Lemma fits_counts L p : fits L p ->
  s_size (p_in p) = in_count p /\ s_size (p_out p) = out_count p /\ 0 <= in_count p < 2 ^ 64 /\ 0 <= out_count p < 2 ^ 64.
Proof.
  destruct L as [L|L|L|L|L|L], p as [a n k|g|a q]; cbn [fits]; try tauto; intros F; cbn [p_in p_out in_count out_count].
  - destruct F as ((H1 & H2 & _) & _). unfold shape3; cbn [s_size]. rewrite !u64_small by lia. lia.
  - destruct F as (G & _). pose proof (proj1 G) as G1. destruct G as (? & ? & ? & ? & ? & ? & ? & ? & ? & ? & ? & ? & ? & ? & ? & ? & ? & ?).
    assert (0 <= out_h g) by (unfold out_h; pose proof (Z.div_pos (g_h g - g_fh g + 2 * g_p g) (g_vs g)); lia).
    assert (0 <= out_w g) by (unfold out_w; pose proof (Z.div_pos (g_w g - g_fw g + 2 * g_p g) (g_hs g)); lia).
    assert (0 <= g_d g * g_h g * g_w g) by (repeat apply Z.mul_nonneg_nonneg; lia).
    assert (0 <= g_f g * out_h g * out_w g) by (repeat apply Z.mul_nonneg_nonneg; lia).
    unfold shape3; cbn [s_size]. rewrite !u64_small by lia. lia.
  - destruct F as ((Q & _) & _ & _). destruct Q as (? & ? & ? & ? & ? & ? & ? & ?).
    assert (q_oh q <= q_h q) by (unfold q_h; nia). assert (q_ow q <= q_w q) by (unfold q_w; nia).
    assert (0 <= q_d q * q_oh q * q_ow q) by (repeat apply Z.mul_nonneg_nonneg; lia).
    assert (q_d q * q_oh q * q_ow q <= q_d q * q_h q * q_w q).
    { apply mul3_le; lia. }
    unfold shape3; cbn [s_size]. rewrite !u64_small by lia. lia.
  - destruct F as ((H1 & H2 & _) & _). unfold shape3; cbn [s_size]. rewrite !u64_small by lia. lia.
  - destruct F as (G & _). pose proof (proj1 G) as G1. destruct G as (? & ? & ? & ? & ? & ? & ? & ? & ? & ? & ? & ? & ? & ? & ? & ? & ? & ?).
    assert (0 <= out_h g) by (unfold out_h; pose proof (Z.div_pos (g_h g - g_fh g + 2 * g_p g) (g_vs g)); lia).
    assert (0 <= out_w g) by (unfold out_w; pose proof (Z.div_pos (g_w g - g_fw g + 2 * g_p g) (g_hs g)); lia).
    assert (0 <= g_d g * g_h g * g_w g) by (repeat apply Z.mul_nonneg_nonneg; lia).
    assert (0 <= g_f g * out_h g * out_w g) by (repeat apply Z.mul_nonneg_nonneg; lia).
    unfold shape3; cbn [s_size]. rewrite !u64_small by lia. lia.
  - destruct F as ((Q & _) & _ & _). destruct Q as (? & ? & ? & ? & ? & ? & ? & ?).
    assert (q_oh q <= q_h q) by (unfold q_h; nia). assert (q_ow q <= q_w q) by (unfold q_w; nia).
    assert (0 <= q_d q * q_oh q * q_ow q) by (repeat apply Z.mul_nonneg_nonneg; lia).
    assert (q_d q * q_oh q * q_ow q <= q_d q * q_h q * q_w q).
    { apply mul3_le; lia. }
    unfold shape3; cbn [s_size]. rewrite !u64_small by lia. lia.
Qed.
Lemma feeds_count L p (s : shape) : fits L p -> feeds p s -> s_size s = in_count p.
Proof. intros F H. destruct (fits_counts L p F) as (E & _). destruct p; cbn [feeds] in H; [exact H| |]; now rewrite H. Qed.
Lemma feeds_back_count L p (s : shape) : fits L p -> feeds_back p s -> s_size s = out_count p.
Proof. intros F H. destruct (fits_counts L p F) as (_ & E & _). destruct p; cbn [feeds_back] in H; [exact H| |exact H]; now rewrite H. Qed.
Lemma feeds_conv L g x : fits L (PConv g) -> feeds (PConv g) (t_shape x) -> ten_is x (g_d g) (g_h g) (g_w g).
Proof.
  intros F H. cbn in H. destruct (fits_counts L _ F) as (_ & _ & B & _). cbn in B.
  assert (G : geometry_ok g) by (destruct L; cbn in F; try contradiction; apply F).
  destruct G as (? & ? & ? & ? & ?). apply shape_ten_is; auto. lia.
Qed.
Lemma feeds_pool L a q x : fits L (PPool a q) -> feeds (PPool a q) (t_shape x) -> ten_is x (q_d q) (q_h q) (q_w q).
Proof.
  intros F H. cbn in H. destruct (fits_counts L _ F) as (_ & _ & B & _). cbn in B.
  assert (G : tiling_ok q) by (destruct L; cbn in F; try contradiction; apply F).
  destruct G as (? & ? & ? & ? & ? & ?). apply shape_ten_is; auto; try lia; unfold q_h, q_w; nia.
Qed.
Lemma value_shape L p : fits L p -> t_shape (l_value L) = p_out p.
Proof.
  destruct L as [L|L|L|L|L|L], p as [a n k|g|a q]; cbn [fits]; try tauto; intros F; cbn [l_value p_out]; try apply F; apply ten_is_shape; apply F.
Qed.
Lemma value_part L : part L RValue = Some (l_value L). Proof. now destruct L. Qed.

(** contents of a layer after [forward] *)
Definition after_forward d (x : Z -> T) : contents T :=
  match n_plan d, n_layer d with
  | PDense a n k, LFC _ => set_role (set_role (n_data d) RBuff (fun j => add (zsum n (fun i => mul (x i) (n_data d (RW 0) (i * k + j)))) (n_data d RB j))) RValue (node_out d x)
  | PPool a q, LPool _ => set_role (set_role (n_data d) RMask (pool_mask q x)) RValue (node_out d x)
  | _, _ => set_role (n_data d) RValue (node_out d x)
  end.
Definition fwd d x : node T := mk_node (n_layer d) (n_plan d) (after_forward d x).
Fixpoint run_fwd l (x : Z -> T) : list (node T) :=
  match l with [] => [] | d :: l' => fwd d x :: run_fwd l' (node_out d x) end.
Lemma after_forward_value d x : after_forward d x RValue = node_out d x.
Proof. unfold after_forward. destruct (n_plan d), (n_layer d); apply set_role_same. Qed.
Lemma after_forward_other d x r : r <> RValue -> r <> RBuff -> r <> RMask -> after_forward d x r = n_data d r.
Proof. intros. unfold after_forward. destruct (n_plan d), (n_layer d); now rewrite ?set_role_other. Qed.
Lemma l_forward_run d m x xv :
  fits (n_layer d) (n_plan d) -> layer_at m (n_layer d) (n_data d) -> feeds (n_plan d) (t_shape x) ->
  holds m (t_data x) (in_count (n_plan d)) xv -> outside (n_layer d) (t_data x) ->
  exists m', l_forward (n_layer d) x m = Ok (tt, m') /\ layer_at m' (n_layer d) (after_forward d xv) /\
    only (fun b _ => block_in (n_layer d) b) m m'.
Proof.
  destruct d as [L p s]. cbn [n_layer n_plan n_data]. intros F A Fd Hx Ho.
  destruct L as [L|L|L|L|L|L], p as [a n k|g|a q]; cbn [fits] in F; try tauto; cbn [l_forward].
  - destruct F as (D & Ea & Hs & _). cbn [feeds] in Fd. cbn [in_count] in Hx.
    destruct (wp_elim _ _ _ _ (wp_fc_forward L n k D a m s x xv Ea Hs A Fd Hx Ho)) as ([] & m' & E & A' & O). exists m'. split; [exact E|].
    split; [exact A'|]. eapply only_weaken; [|exact O]. cbn. intros b _ [Q|Q]; eapply block_at_in; exact Q.
  - pose proof (feeds_conv (LConv L) g x F Fd) as Sx. cbn [in_count] in Hx.
    destruct (conv_forward_run L g m s x xv F A (conj Sx (conj Hx Ho))) as (m' & E & A' & O). exists m'. split; [exact E|]. split; [|exact O]. exact A'.
  - pose proof (feeds_pool (LPool L) a q x F Fd) as Sx. destruct F as (D & Ea & Hs). cbn [in_count] in Hx.
    destruct (pool_forward_run L q a m s x xv D Ea Hs A (conj Sx (conj Hx Ho))) as (m' & E & A' & O). exists m'. split; [exact E|]. split; [|exact O]. exact A'.
  - destruct F as (D & Ea & Hs & _). cbn [feeds] in Fd. cbn [in_count] in Hx.
    destruct (C51_raw_forward_value L n k a m s x xv D Ea Hs A (conj Fd (conj Hx Ho))) as (m' & s' & E & A' & V & Fr & O).
    exists m'. split; [exact E|]. split.
    + eapply layer_at_ext; [exact A'|]. intros r t i P Hi. unfold after_forward. cbn.
      destruct (role_eq_dec r RValue) as [->|N].
      * rewrite set_role_same. cbn in P. injection P as <-. rewrite V; [reflexivity|]. replace k with (t_size (xf_value L)); [exact Hi|]. apply D. cbn. auto.
      * rewrite set_role_other by auto. now rewrite Fr.
    + eapply only_weaken; [|exact O]. cbn. intros b _ Q; eapply block_at_in; exact Q.
  - pose proof (feeds_conv (LXConv L) g x F Fd) as Sx. cbn [in_count] in Hx.
    destruct (xconv_forward_run L g m s x xv F A (conj Sx (conj Hx Ho))) as (m' & E & A' & O). exists m'. split; [exact E|]. split; [|exact O]. exact A'.
  - pose proof (feeds_pool (LXPool L) a q x F Fd) as Sx. destruct F as (D & Ea & Hs). cbn [in_count] in Hx.
    destruct (xpool_forward_run L q a m s x xv D Ea Hs A (conj Sx (conj Hx Ho))) as (m' & E & A' & O). exists m'. split; [exact E|]. split; [|exact O]. exact A'.
Qed.

(** ** frames *)
Lemma net_at_frame m m' l (W : nat -> Z -> Prop) : net_at m l -> only W m m' -> (forall b i, W b i -> ~ net_block l b) -> net_at m' l.
Proof.
  intros [F P] O D. split; [|exact P]. rewrite Forall_forall in *. intros d Hd. destruct (F d Hd) as [F1 F2]. split; [exact F1|].
  eapply layer_at_only; [exact F2|exact O|]. intros b i Hw Hb. apply (D b i Hw). exists d. auto.
Qed.
Lemma net_at_cons m d l : net_at m (d :: l) <->
  fits (n_layer d) (n_plan d) /\ layer_at m (n_layer d) (n_data d) /\ net_at m l /\ (forall b, block_in (n_layer d) b -> ~ net_block l b).
Proof.
  split.
  - intros [F P]. apply Forall_cons_iff in F as [[F1 F2] F3]. inversion P as [|? ? P1 P2]; subst.
    split; [auto|]. split; [auto|]. split; [split; auto|]. intros b Hb (e & He & Hb'). rewrite Forall_forall in P1. exact (P1 e He b Hb Hb').
  - intros (F1 & F2 & [F3 P3] & D). split; constructor; auto. rewrite Forall_forall. intros e He b Hb Hb'. apply (D b Hb). exists e. auto.
Qed.
Lemma only_outside m m' l (p : ptr) n v (W : nat -> Z -> Prop) : only W m m' -> (forall b i, W b i -> net_block l b) -> net_outside l p ->
  holds m p n v -> holds m' p n v.
Proof.
  intros O D N H i Hi. specialize (H i Hi). destruct p as [|b o]; [exact H|]. cbn in *. rewrite (proj2 O); [exact H|].
  intros Q. apply N. eapply D. exact Q.
Qed.
Lemma value_holds m d x : layer_at m (n_layer d) (after_forward d x) -> fits (n_layer d) (n_plan d) ->
  holds m (t_data (l_value (n_layer d))) (out_count (n_plan d)) (node_out d x).
Proof.
  intros A F. pose proof (part_holds _ _ _ RValue _ A (value_part _)) as H. rewrite after_forward_value in H.
  replace (out_count (n_plan d)) with (t_size (l_value (n_layer d))); [exact H|]. unfold t_size. rewrite (value_shape _ _ F). now apply fits_counts in F.
Qed.
Lemma value_outside m d s l : layer_at m (n_layer d) s -> (forall b, block_in (n_layer d) b -> ~ net_block l b) ->
  net_outside l (t_data (l_value (n_layer d))).
Proof.
  intros A D. rewrite (part_ptr _ _ _ RValue _ A (value_part _)). cbn. apply D. exists RValue, (l_value (n_layer d)). split; [apply value_part|reflexivity].
Qed.

Lemma net_block_same l l' b : layers l = layers l' -> net_block l b <-> net_block l' b.
Proof.
  assert (H : forall l l', layers l = layers l' -> net_block l b -> net_block l' b); [|intros E; split; apply H; [exact E|symmetry; exact E]].
  clear. intros l l' E (d & Hd & Q). apply (in_map n_layer) in Hd. change (In (n_layer d) (layers l)) in Hd. rewrite E in Hd.
  apply in_map_iff in Hd as (e & Ee & He). exists e. split; [exact He|]. now rewrite Ee.
Qed.
Lemma layers_run_fwd l : forall x, layers (run_fwd l x) = layers l.
Proof. induction l as [|d l IH]; intros x; [reflexivity|]. cbn [run_fwd layers map fwd n_layer]. f_equal. apply IH. Qed.
Lemma plans_run_fwd l : forall x, plans (run_fwd l x) = plans l.
Proof. induction l as [|d l IH]; intros x; [reflexivity|]. cbn [run_fwd plans map fwd n_plan]. f_equal. apply IH. Qed.

(** ** the forward pass as a recursion over the layers *)
Fixpoint chain (x : tensor) (N : list layer) : M T unit :=
  match N with [] => ret tt | L :: N' => l_forward L x ;;; chain (l_value L) N' end.
Lemma chain_run l : forall m x xv, net_at m l -> wired (t_shape x) (plans l) -> holds m (t_data x) (t_size x) xv -> net_outside l (t_data x) ->
  exists m', chain x (layers l) m = Ok (tt, m') /\ net_at m' (run_fwd l xv) /\ only (fun b _ => net_block l b) m m'.
Proof.
  induction l as [|d l IH]; intros m x xv A W Hx Ho.
  - exists m. split; [reflexivity|]. split; [exact A|apply only_refl].
  - apply net_at_cons in A as (F & A1 & A2 & D). cbn [plans map wired] in W. destruct W as [W1 W2].
    assert (Ex : t_size x = in_count (n_plan d)) by (unfold t_size; eapply feeds_count; eauto).
    assert (Ho1 : outside (n_layer d) (t_data x)).
    { destruct (t_data x); cbn in *; auto. intros Q. apply Ho. exists d. split; [now left|exact Q]. }
    rewrite Ex in Hx. destruct (l_forward_run d m x xv F A1 W1 Hx Ho1) as (m1 & E1 & B1 & O1).
    assert (A3 : net_at m1 l) by (eapply net_at_frame; [exact A2|exact O1|cbn; intros b _; apply D]).
    assert (Ev : t_shape (l_value (n_layer d)) = p_out (n_plan d)) by now apply value_shape.
    destruct (IH m1 (l_value (n_layer d)) (node_out d xv)) as (m2 & E2 & B2 & O2); auto.
    { now rewrite Ev. }
    { unfold t_size. rewrite Ev. destruct (fits_counts _ _ F) as (_ & -> & _). now apply value_holds. }
    { eapply value_outside; [exact A1|exact D]. }
    exists m2. split; [|split].
    + cbn [layers map chain]. unfold bind. rewrite E1. exact E2.
    + cbn [run_fwd]. apply net_at_cons. cbn [fwd n_layer n_plan n_data]. split; [exact F|]. split.
      * eapply layer_at_only; [exact B1|exact O2|]. cbn. intros b _ Q Q'. exact (D b Q' Q).
      * split; [exact B2|]. intros b Hb. rewrite (net_block_same (run_fwd l _) l) by apply layers_run_fwd. now apply D.
    + eapply only_trans; [eapply only_weaken; [|exact O1]|eapply only_weaken; [|exact O2]].
      * cbn. intros b _ Q. exists d. split; [now left|exact Q].
      * cbn. intros b _ (e & He & Q). exists e. split; [now right|exact Q].
Qed.
Lemma bind_assoc A B C (c : M T A) (f : A -> M T B) (g : B -> M T C) m : bind (bind c f) g m = bind c (fun a => bind (f a) g) m.
Proof. unfold bind. destruct (c m) as [[a m']|]; reflexivity. Qed.
Lemma nth_of_ok {A} (l : list A) i x m : znth l i = Some x -> nth_of (T := T) l i m = Ok (x, m).
Proof. intros E. unfold nth_of. now rewrite E. Qed.
Lemma znth_app {A} (l r : list A) x : znth (l ++ x :: r) (Z.of_nat (length l)) = Some x.
Proof. unfold znth. replace (0 <=? Z.of_nat (length l)) with true by (symmetry; apply Z.leb_le; lia). rewrite Nat2Z.id. rewrite nth_error_app2 by lia. now rewrite Nat.sub_diag. Qed.
(** the loop from index [length pre] *)
Lemma loop_chain (N : list layer) : forall post pre P m, N = pre ++ P :: post -> 
  mfor (Z.of_nat (length pre) + 1) (net_size N) (fun i => let* L := nth_of N i in let* P := nth_of N (i - 1) in l_forward L (l_value P)) m =
  chain (l_value P) post m.
Proof.
  induction post as [|L post IH]; intros pre P m E.
  - rewrite mfor_empty; [reflexivity|]. unfold net_size. rewrite E, app_length. cbn. lia.
  - assert (Hlen : net_size N = Z.of_nat (length pre) + 2 + Z.of_nat (length post)).
    { unfold net_size. rewrite E, app_length. cbn [length]. lia. }
    unfold mfor, mfold. replace (Z.to_nat (net_size N - (Z.of_nat (length pre) + 1))) with (S (Z.to_nat (net_size N - (Z.of_nat (length (pre ++ [P])) + 1)))).
    2:{ rewrite app_length. cbn [length]. lia. }
    cbn [mfold_n chain]. unfold bind at 1.
    assert (E1 : znth N (Z.of_nat (length pre) + 1) = Some L).
    { replace (Z.of_nat (length pre) + 1) with (Z.of_nat (length (pre ++ [P]))) by (rewrite app_length; cbn [length]; lia).
      rewrite E. replace (pre ++ P :: L :: post) with ((pre ++ [P]) ++ L :: post) by (rewrite <- app_assoc; reflexivity). apply znth_app. }
    assert (E0 : znth N (Z.of_nat (length pre) + 1 - 1) = Some P).
    { replace (Z.of_nat (length pre) + 1 - 1) with (Z.of_nat (length pre)) by lia. rewrite E. apply znth_app. }
    unfold bind at 1 2. rewrite (nth_of_ok _ _ _ _ E1), (nth_of_ok _ _ _ _ E0).
    unfold bind. destruct (l_forward L (l_value P) m) as [[[] m1]|e]; [|reflexivity].
    rewrite <- (IH (pre ++ [P]) L m1) by (rewrite <- app_assoc; exact E).
    unfold mfor, mfold. f_equal. rewrite app_length. cbn [length]. lia.
Qed.
Lemma feedforward_chain (N : list layer) L0 post x m : N = L0 :: post -> net_size N < 2 ^ 64 ->
  net_feedforward N x m = bind (T := T) (chain x N) (fun _ => ret (l_value (last N L0))) m.
Proof.
  intros E Hn. unfold net_feedforward.
  assert (E0 : znth N 0 = Some L0) by now rewrite E. unfold bind at 1. rewrite (nth_of_ok _ _ _ _ E0).
  rewrite E. cbn [chain]. rewrite bind_assoc. unfold bind at 1. symmetry. unfold bind at 1. symmetry.
  destruct (l_forward L0 x m) as [[[] m1]|e]; [|reflexivity].
  rewrite <- E. unfold bind at 1.
  pose proof (loop_chain N post [] L0 m1 E) as Q. cbn [length] in Q. change (Z.of_nat 0 + 1) with 1 in Q. rewrite Q.
  unfold bind at 2. destruct (chain (l_value L0) post m1) as [[[] m2]|e]; [|reflexivity].
  unfold bind. rewrite u64_small; [|unfold net_size in *; rewrite E in *; cbn [length] in *; lia].
  assert (EL : znth N (net_size N - 1) = Some (last N L0)).
  { destruct (exists_last (l := N)) as (pre & z & E'). { rewrite E. discriminate. } rewrite E' at 1 3. rewrite last_last.
    replace (net_size N - 1) with (Z.of_nat (length pre)); [apply znth_app|]. unfold net_size. rewrite E', app_length. cbn. lia. }
  rewrite (nth_of_ok _ _ _ _ EL). reflexivity.
Qed.
End Forward.

(** * Networks: back-propagation (proofs) *)
From Verif Require Import Mem Scalar MemSpec MemLemmas Lique LiqueSpec LiqueProofs LiqueProofs2 Linear LinearProofs Functions FunctionSpec FunctionProofs
  Optimizer Layer LayerSpec FCProofs Cells ConvSpec ConvProofs ConvProofs2 PoolSpec PoolProofs PropFC PropConv PropPool Net NetPlan NetProofs.
Open Scope Z_scope.

Section Loops.
Context {T : Type}.
Lemma mfold_n_snoc A n : forall i (body : Z -> A -> M T A) a m,
  mfold_n (S n) i body a m = bind (T := T) (mfold_n n i body a) (fun a' => body (i + Z.of_nat n) a') m.
Proof.
  induction n as [|n IH]; intros i body a m.
  - cbn [mfold_n]. unfold bind, ret. rewrite Z.add_0_r. destruct (body i a m) as [[a' m']|]; reflexivity.
  - change (mfold_n (S (S n)) i body a m) with (bind (T := T) (body i a) (fun a' => mfold_n (S n) (i + 1) body a') m).
    change (mfold_n (S n) i body a) with (bind (T := T) (body i a) (fun a' => mfold_n n (i + 1) body a')).
    unfold bind at 1 2 3. destruct (body i a m) as [[a' m']|]; [|reflexivity]. rewrite IH. unfold bind.
    replace (i + 1 + Z.of_nat n) with (i + Z.of_nat (S n)) by lia. reflexivity.
Qed.
Lemma mfor_snoc lo hi (body : Z -> M T unit) m : lo <= hi -> mfor lo (hi + 1) body m = bind (T := T) (mfor lo hi body) (fun _ => body hi) m.
Proof.
  intros H. unfold mfor, mfold. replace (Z.to_nat (hi + 1 - lo)) with (S (Z.to_nat (hi - lo))) by lia. rewrite mfold_n_snoc.
  unfold bind. now replace (lo + Z.of_nat (Z.to_nat (hi - lo))) with hi by lia.
Qed.
End Loops.

Section Back.
Context {T : Type} `{NT : Num T}.
Implicit Types (m : mem T) (s : contents T) (d e : node T) (l : list (node T)).
(** [delta()] of a layer *)
Definition delta_of (L : layer) : tensor :=
  match L with LFC L => f_delta L | LConv L => c_delta L | LPool L => p_delta L | LXFC L => xf_value L | LXConv L => xc_value L | LXPool L => xp_value L end.
Lemma l_delta_ok L m : train_class L -> l_delta L m = Ok (delta_of L, m).
Proof. destruct L; cbn; try tauto; reflexivity. Qed.
Lemma delta_part L : train_class L -> part L RDelta = Some (delta_of L). Proof. now destruct L. Qed.
Lemma delta_shape L p : train_class L -> fits L p -> t_shape (delta_of L) = p_in p.
Proof.
  destruct L as [L|L|L|L|L|L], p as [a n k|g|a q]; cbn [fits train_class]; try tauto; intros _ F; cbn [delta_of p_in]; try apply F; apply ten_is_shape; apply F.
Qed.
(** contents of a layer after [backward] *)
Definition after_backward d (x dl : Z -> T) (full : bool) : contents T :=
  match n_plan d with
  | PDense a n k => fc_after_backward k a full (n_data d) x dl
  | PConv g => conv_after_backward g x dl (n_data d)
  | PPool a q => pool_after_backward q a dl (n_data d)
  end.
Definition bwd d x dl full : node T := mk_node (n_layer d) (n_plan d) (after_backward d x dl full).
Fixpoint run_back l (x : Z -> T) (full : bool) (dl : Z -> T) : list (node T) :=
  match l with
  | [] => []
  | d :: l' =>
      match run_back l' (n_data d RValue) true dl with
      | [] => [bwd d x dl full]
      | e :: r => bwd d x (n_data e RDelta) full :: e :: r
      end
  end.
Lemma layers_run_back l : forall x full dl, layers (run_back l x full dl) = layers l.
Proof.
  induction l as [|d l IH]; intros x full dl; [reflexivity|]. cbn [run_back]. specialize (IH (n_data d RValue) true dl).
  destruct (run_back l (n_data d RValue) true dl) as [|e r].
  - destruct l; [reflexivity|discriminate].
  - unfold layers in *. rewrite map_cons, IH. reflexivity.
Qed.
Lemma plans_run_back l : forall x full dl, plans (run_back l x full dl) = plans l.
Proof.
  induction l as [|d l IH]; intros x full dl; [reflexivity|]. cbn [run_back]. specialize (IH (n_data d RValue) true dl).
  destruct (run_back l (n_data d RValue) true dl) as [|e r].
  - destruct l; [reflexivity|discriminate].
  - unfold plans in *. rewrite map_cons, IH. reflexivity.
Qed.
Lemma l_backward_run d m x xv dt dv full :
  train_class (n_layer d) -> fits (n_layer d) (n_plan d) -> layer_at m (n_layer d) (n_data d) ->
  feeds (n_plan d) (t_shape x) -> holds m (t_data x) (in_count (n_plan d)) xv -> outside (n_layer d) (t_data x) ->
  feeds_back (n_plan d) (t_shape dt) -> holds m (t_data dt) (out_count (n_plan d)) dv -> outside (n_layer d) (t_data dt) ->
  exists m', l_backward (n_layer d) x dt full m = Ok (tt, m') /\ layer_at m' (n_layer d) (after_backward d xv dv full) /\
    only (fun b _ => block_in (n_layer d) b) m m'.
Proof.
  destruct d as [L p s]. cbn [n_layer n_plan n_data]. intros Tr F A Fd Hx Ho Fb Hd Hod.
  destruct L as [L|L|L|L|L|L], p as [a n k|g|a q]; cbn [fits train_class] in F, Tr; try tauto; cbn [l_backward].
  - destruct F as (D & Ea & Hs & _). cbn [feeds] in Fd. cbn [in_count out_count] in Hx, Hd.
    destruct (wp_elim _ _ _ _ (wp_fc_backward L n k D a m s x dt full xv dv Ea A Fd Hx Ho Hd Hod)) as ([] & m' & E & A' & O). exists m'. split; [exact E|].
    split; [exact A'|]. eapply only_weaken; [|exact O]. cbn. intros b _ [Q|[Q|[_ Q]]]; eapply block_at_in; exact Q.
  - pose proof (feeds_conv (LConv L) g x F Fd) as Sx. cbn [in_count out_count] in Hx, Hd.
    assert (Sd : ten_is dt (g_f g) (out_h g) (out_w g)).
    { cbn in Fb. destruct (fits_counts (LConv L) (PConv g) F) as (_ & _ & _ & B). cbn in B. pose proof (proj1 F) as G.
      destruct G as (? & ? & ? & ? & ? & ? & ? & ? & ? & ? & ? & ?).
      apply shape_ten_is; auto; try lia.
      - unfold out_h; pose proof (Z.div_pos (g_h g - g_fh g + 2 * g_p g) (g_vs g)); lia.
      - unfold out_w; pose proof (Z.div_pos (g_w g - g_fw g + 2 * g_p g) (g_hs g)); lia. }
    destruct (conv_backward_run L g m s x xv dt dv F A (conj Sx (conj Hx Ho)) (conj Sd (conj Hd Hod))) as (m' & E & A' & O). exists m'. split; [exact E|]. split; [|exact O]. exact A'.
  - destruct F as (D & Ea & Hs). cbn [in_count out_count] in Hx, Hd.
    destruct (pool_backward_run L q a m s dt dv D Ea A Hd Hod) as (m' & E & A' & O). exists m'. split; [exact E|]. split; [|exact O]. exact A'.
Qed.

Fixpoint bchain (x : tensor) (N : list layer) (full : bool) (dt : tensor) : M T unit :=
  match N with
  | [] => ret tt
  | L :: N' => match N' with
               | [] => l_backward L x dt full
               | L2 :: _ => bchain (l_value L) N' true dt ;;; let* dd := l_delta L2 in l_backward L x dd full
               end
  end.
Lemma bchain_cons2 x L L2 N full dt : bchain x (L :: L2 :: N) full dt =
  bind (T := T) (bchain (l_value L) (L2 :: N) true dt) (fun _ => let* dd := l_delta L2 in l_backward L x dd full).
Proof. reflexivity. Qed.
Lemma outside_head d l p : net_outside (d :: l) p -> outside (n_layer d) p.
Proof. destruct p; cbn; auto. intros N Q. apply N. exists d. split; [now left|exact Q]. Qed.
Lemma outside_tail d l p : net_outside (d :: l) p -> net_outside l p.
Proof. destruct p; cbn; auto. intros N (e & He & Q). apply N. exists e. split; [now right|exact Q]. Qed.
Lemma value_in m d s : layer_at m (n_layer d) s -> fits (n_layer d) (n_plan d) ->
  holds m (t_data (l_value (n_layer d))) (out_count (n_plan d)) (s RValue).
Proof.
  intros A F. pose proof (part_holds _ _ _ RValue _ A (value_part _)) as H.
  replace (out_count (n_plan d)) with (t_size (l_value (n_layer d))); [exact H|]. unfold t_size. rewrite (value_shape _ _ F). now apply fits_counts in F.
Qed.
Lemma bchain_run l : forall m x xv full dt dv, l <> [] -> Forall train_class (layers l) -> net_at m l ->
  wired (t_shape x) (plans l) -> holds m (t_data x) (t_size x) xv -> net_outside l (t_data x) ->
  wired_back (plans l) (t_shape dt) -> holds m (t_data dt) (t_size dt) dv -> net_outside l (t_data dt) ->
  exists m', bchain x (layers l) full dt m = Ok (tt, m') /\ net_at m' (run_back l xv full dv) /\ only (fun b _ => net_block l b) m m'.
Proof.
  induction l as [|d l IH]; intros m x xv full dt dv Ne Tr A W Hx Ho Wb Hd Hod; [congruence|].
  apply net_at_cons in A as (F & A1 & A2 & D). cbn [plans map wired] in W. destruct W as [W1 W2].
  cbn [layers map] in Tr. apply Forall_cons_iff in Tr as [T1 T2].
  assert (Ex : t_size x = in_count (n_plan d)) by (unfold t_size; eapply feeds_count; eauto). rewrite Ex in Hx.
  destruct l as [|e l].
  - cbn [plans map wired_back] in Wb. assert (Ed : t_size dt = out_count (n_plan d)) by (unfold t_size; eapply feeds_back_count; eauto). rewrite Ed in Hd.
    destruct (l_backward_run d m x xv dt dv full T1 F A1 W1 Hx (outside_head _ _ _ Ho) Wb Hd (outside_head _ _ _ Hod)) as (m' & E & B & O).
    exists m'. cbn [layers map bchain run_back]. split; [exact E|]. split.
    + apply net_at_cons. cbn [bwd n_layer n_plan n_data]. split; [exact F|]. split; [exact B|]. split; [split; constructor|]. intros b _ (? & [] & _).
    + eapply only_weaken; [|exact O]. cbn. intros b _ Q. exists d. split; [now left|exact Q].
  - remember (e :: l) as l' eqn:El'. cbn [plans map] in Wb. assert (Wb' : feeds_back (n_plan d) (p_in (n_plan e)) /\ wired_back (plans l') (t_shape dt)) by (rewrite El' in *; exact Wb).
    destruct Wb' as [B1 B2].
    assert (Ev : t_shape (l_value (n_layer d)) = p_out (n_plan d)) by now apply value_shape.
    destruct (IH m (l_value (n_layer d)) (n_data d RValue) true dt dv) as (m1 & E1 & N1 & O1); auto.
    { rewrite El'. discriminate. } { now rewrite Ev. }
    { unfold t_size. rewrite Ev. destruct (fits_counts _ _ F) as (_ & -> & _). now apply value_in. }
    { eapply value_outside; [exact A1|exact D]. } { eapply outside_tail; exact Hod. }
    pose proof (layers_run_back l' (n_data d RValue) true dv) as Lr. pose proof (plans_run_back l' (n_data d RValue) true dv) as Pr.
    destruct (run_back l' (n_data d RValue) true dv) as [|e' r] eqn:Er. { rewrite El' in Lr. discriminate. }
    assert (Le : n_layer e' = n_layer e) by (rewrite El' in Lr; cbn in Lr; congruence).
    assert (Pe : n_plan e' = n_plan e) by (rewrite El' in Pr; cbn in Pr; congruence).
    assert (Te : train_class (n_layer e')). { rewrite Le, El' in *. cbn in T2. now apply Forall_cons_iff in T2. }
    pose proof N1 as N1'. apply net_at_cons in N1' as (Fe & Ae & _ & _).
    assert (A1' : layer_at m1 (n_layer d) (n_data d)). { eapply layer_at_only; [exact A1|exact O1|]. cbn. intros b _ Q Q'. exact (D b Q' Q). }
    assert (Hx1 : holds m1 (t_data x) (in_count (n_plan d)) xv).
    { eapply (only_outside _ _ (d :: l')); [exact O1| |exact Ho|exact Hx]. cbn. intros b _ (f & Hf & Q). exists f. split; [now right|exact Q]. }
    assert (Sd : t_shape (delta_of (n_layer e')) = p_in (n_plan e)). { rewrite (delta_shape _ (n_plan e')); auto. now rewrite Pe. }
    assert (Pd : part (n_layer e') RDelta = Some (delta_of (n_layer e'))) by now apply delta_part.
    assert (Hd1 : holds m1 (t_data (delta_of (n_layer e'))) (out_count (n_plan d)) (n_data e' RDelta)).
    { pose proof (part_holds _ _ _ RDelta _ Ae Pd) as Q. replace (out_count (n_plan d)) with (t_size (delta_of (n_layer e'))); [exact Q|].
      unfold t_size. rewrite Sd. eapply feeds_back_count; [exact F|]. exact B1. }
    assert (Od : outside (n_layer d) (t_data (delta_of (n_layer e')))).
    { rewrite (part_ptr _ _ _ RDelta _ Ae Pd). cbn. intros Q. apply (D _ Q). exists e. split; [rewrite El'; now left|].
      rewrite <- Le. exists RDelta, (delta_of (n_layer e')). auto. }
    rewrite <- Sd in B1.
    destruct (l_backward_run d m1 x xv (delta_of (n_layer e')) (n_data e' RDelta) full T1 F A1' W1 Hx1 (outside_head _ _ _ Ho) B1 Hd1 Od) as (m2 & E2 & B & O2).
    exists m2. split; [|split].
    + cbn [layers map]. assert (Eb : bchain x (n_layer d :: layers l') full dt = bind (T := T) (bchain (l_value (n_layer d)) (layers l') true dt) (fun _ => let* dd := l_delta (n_layer e) in l_backward (n_layer d) x dd full))
        by (rewrite El'; reflexivity).
      unfold layers in Eb. rewrite Eb. unfold bind. unfold layers in E1. rewrite E1. rewrite <- Le. rewrite l_delta_ok by auto. exact E2.
    + cbn [run_back]. rewrite Er. apply net_at_cons. cbn [bwd n_layer n_plan n_data]. split; [exact F|]. split; [exact B|].
      assert (Dr : forall b, block_in (n_layer d) b -> ~ net_block (e' :: r) b).
      { intros b Hb. rewrite (net_block_same (e' :: r) l'); [now apply D|]. now rewrite Lr. }
      split; [|exact Dr]. eapply net_at_frame; [exact N1|exact O2|]. cbn. intros b _ Q. now apply Dr.
    + eapply only_trans; [eapply only_weaken; [|exact O1]|eapply only_weaken; [|exact O2]].
      * cbn. intros b _ (f & Hf & Q). exists f. split; [now right|exact Q].
      * cbn. intros b _ Q. exists d. split; [now left|exact Q].
Qed.

(** ** the index loop of [backprop] *)
Lemma znth_drop {A} (l : list A) (j : nat) x : znth l (Z.of_nat j) = Some x -> skipn j l = x :: skipn (S j) l.
Proof.
  unfold znth. destruct (0 <=? Z.of_nat j) eqn:E; [|discriminate]. rewrite Nat2Z.id. clear E. revert l. induction j as [|j IH]; intros [|y l]; cbn; try discriminate.
  - now intros [= ->].
  - intros H. rewrite (IH l H). reflexivity.
Qed.
Lemma znth_lt {A} (l : list A) i : 0 <= i < Z.of_nat (length l) -> exists x, znth l i = Some x.
Proof.
  intros H. unfold znth. replace (0 <=? i) with true by (symmetry; apply Z.leb_le; lia).
  destruct (nth_error l (Z.to_nat i)) eqn:E; [eauto|]. apply nth_error_None in E. lia.
Qed.
Definition back_body (N : list layer) (k : Z) : M T unit :=
  let i := net_size N - 2 - k in
  let* L := nth_of N i in let* P := nth_of N (i - 1) in let* Q := nth_of N (i + 1) in
  let* dd := l_delta Q in l_backward L (l_value P) dd true.
Lemma back_loop (N : list layer) (dt : tensor) Ll Lp m : forall (c j : nat) P, net_size N - 1 = Z.of_nat (c + j) -> (1 <= j)%nat ->
  znth N (net_size N - 1) = Some Ll -> znth N (net_size N - 2) = Some Lp -> znth N (Z.of_nat j - 1) = Some P ->
  bind (T := T) (l_backward Ll (l_value Lp) dt true) (fun _ => mfor 0 (Z.of_nat c) (back_body N)) m =
  bchain (l_value P) (skipn j N) true dt m.
Proof.
  induction c as [|c IH]; intros j P E Hj E1 E2 EP.
  - cbn [Nat.add] in E. rewrite E in E1. rewrite (znth_drop _ _ _ E1).
    assert (Es : skipn (S j) N = []). { apply skipn_all2. unfold net_size in E. lia. } rewrite Es.
    replace (net_size N - 2) with (Z.of_nat j - 1) in E2 by lia. assert (Ep : P = Lp) by congruence. subst P.
    cbn [bchain]. unfold bind. destruct (l_backward Ll (l_value Lp) dt true m) as [[[] m']|]; [|reflexivity]. reflexivity.
  - destruct (znth_lt N (Z.of_nat j)) as (Lj & EL). { unfold net_size in *. lia. }
    destruct (znth_lt N (Z.of_nat (S j))) as (Lj1 & EL1). { unfold net_size in *. lia. }
    specialize (IH (S j) Lj ltac:(lia) ltac:(lia) E1 E2). replace (Z.of_nat (S j) - 1) with (Z.of_nat j) in IH by lia. specialize (IH EL).
    rewrite (znth_drop _ _ _ EL), (znth_drop _ _ _ EL1). rewrite bchain_cons2, <- (znth_drop _ _ _ EL1).
    unfold bind at 1. symmetry. unfold bind at 1. symmetry. rewrite <- IH.
    unfold bind. destruct (l_backward Ll (l_value Lp) dt true m) as [[[] m1]|]; [|reflexivity].
    replace (Z.of_nat (S c)) with (Z.of_nat c + 1) by lia. rewrite mfor_snoc by lia. unfold bind.
    destruct (mfor 0 (Z.of_nat c) (back_body N) m1) as [[[] m2]|]; [|reflexivity].
    unfold back_body. replace (net_size N - 2 - Z.of_nat c) with (Z.of_nat j) by lia. replace (Z.of_nat j + 1) with (Z.of_nat (S j)) by lia.
    unfold bind. rewrite (nth_of_ok _ _ _ _ EL), (nth_of_ok _ _ _ _ EP), (nth_of_ok _ _ _ _ EL1). reflexivity.
Qed.
Lemma backprop_chain (N : list layer) t lo x y Ll m : 2 <= net_size N < 2 ^ 64 -> tr_loss t = Some lo -> znth N (net_size N - 1) = Some Ll ->
  tr_backprop N t x y m = bind (T := T) (loss_df lo (t_data (tr_delta t)) (t_size (tr_delta t)) (t_data y) (t_data (l_value Ll)))
    (fun _ => bchain x N false (tr_delta t)) m.
Proof.
  intros Hn El ELl. unfold tr_backprop. cbv zeta. rewrite !u64_small by lia. rewrite El. cbn [with_loss].
  destruct (znth_lt N (net_size N - 2)) as (Lp & ELp). { unfold net_size in *. lia. }
  destruct (znth_lt N 0) as (L0 & EL0). { unfold net_size in *. lia. }
  destruct (znth_lt N 1) as (L1 & EL1). { unfold net_size in *. lia. }
  assert (EN : N = L0 :: L1 :: skipn 2 N).
  { change N with (skipn 0 N) at 1. rewrite (znth_drop N 0 L0 EL0). f_equal. exact (znth_drop N 1 L1 EL1). }
  assert (Eb : bchain x N false (tr_delta t) = bind (T := T) (bchain (l_value L0) (skipn 1 N) true (tr_delta t)) (fun _ => let* dd := l_delta L1 in l_backward L0 x dd false)).
  { rewrite EN at 1. rewrite bchain_cons2, <- (znth_drop N 1 L1 EL1). reflexivity. }
  rewrite Eb.
  match goal with |- context [mfor 0 (net_size N - 2) ?f] => change f with (back_body N) end.
  assert (Q : forall m1, bind (T := T) (l_backward Ll (l_value Lp) (tr_delta t) true) (fun _ => mfor 0 (net_size N - 2) (back_body N)) m1 =
      bchain (l_value L0) (skipn 1 N) true (tr_delta t) m1).
  { intros m1. rewrite <- (back_loop N (tr_delta t) Ll Lp m1 (Z.to_nat (net_size N - 2)) 1 L0 ltac:(lia) ltac:(lia) ELl ELp EL0).
    now replace (Z.of_nat (Z.to_nat (net_size N - 2))) with (net_size N - 2) by lia. }
  unfold bind in *. rewrite (nth_of_ok _ _ _ _ ELl).
  destruct (loss_df lo (t_data (tr_delta t)) (t_size (tr_delta t)) (t_data y) (t_data (l_value Ll)) m) as [[[] m1]|]; [|reflexivity].
  rewrite <- Q. rewrite (nth_of_ok _ _ _ _ ELl), (nth_of_ok _ _ _ _ ELp).
  destruct (l_backward Ll (l_value Lp) (tr_delta t) true m1) as [[[] m2]|]; [|reflexivity].
  destruct (mfor 0 (net_size N - 2) (back_body N) m2) as [[[] m3]|]; [|reflexivity].
  rewrite (nth_of_ok _ _ _ _ EL0), (nth_of_ok _ _ _ _ EL1). reflexivity.
Qed.
End Back.

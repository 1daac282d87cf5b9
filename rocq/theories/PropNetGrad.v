(** * C65: back-propagation computes the gradient of the loss, for a network of any depth *)
From Coq Require Import QArith Reals Lra FunctionalExtensionality.
From Coquelicot Require Import Coquelicot.
From Verif Require Import Mem Scalar MemSpec MemLemmas Lique LiqueSpec LiqueProofs LiqueProofs2 Linear LinearProofs Functions FunctionSpec FunctionProofs
  Optimizer Layer LayerSpec FCProofs Cells ConvSpec ConvProofs ConvProofs2 PoolSpec PoolProofs RSum RealSpec ActivationProofs LossProofs NetSpec Vjp ConvVjp
  PropFunctions PropFC PropConv PropPool Net NetPlan NetProofs NetBack PropNet NetReal NetGrad.
Local Open Scope R_scope.

Lemma ccurve_upd s r j : ccurve (fun t => set_role s r (upd (s r) j t)) (s r j) s (set_role (fun _ _ => 0) r (unit_at j)).
Proof.
  split.
  - intros q k. unfold set_role. destruct (role_eq_dec q r) as [->|]; [|reflexivity]. unfold upd. destruct (Z.eqb_spec k j) as [->|]; reflexivity.
  - intros q k. unfold set_role. destruct (role_eq_dec q r); [apply upd_curve|apply (is_derive_const (K := R_AbsRing) (V := R_NormedModule))].
Qed.
Lemma net_out_real l : forall x, Forall (fun d : node R => fits (n_layer d) (n_plan d)) l -> smooth (to_model l) x -> clean (to_model l) -> net_out l x = real_net (to_model l) x.
Proof.
  induction l as [|d l IH]; intros x F Sm Cl; [reflexivity|]. apply Forall_cons_iff in F as [F1 F2].
  cbn [to_model map] in Sm, Cl. apply (smooth_cons _ _ (to_model l)) in Sm as (S1 & S2 & C2 & _); [|exact Cl].
  unfold net_out. cbn [fold_left]. rewrite (node_out_real d x F1 S1). apply (IH _ F2 S2 C2).
Qed.
Lemma last_value l : forall (x : Z -> R) (d0 : node R), l <> [] -> n_data (last (run_fwd l x) d0) RValue = net_out l x.
Proof.
  induction l as [|d l IH]; intros x d0 Ne; [congruence|]. destruct l as [|e l].
  - cbn [run_fwd last fwd n_data]. apply after_forward_value.
  - change (last (run_fwd (d :: e :: l) x) d0) with (last (run_fwd (e :: l) (node_out d x)) d0). rewrite IH by discriminate. reflexivity.
Qed.
Lemma nth_to_model l i (d : node R) : nth_error l i = Some d -> nth_error (to_model l) i = Some (n_plan d, n_data d).
Proof. intros E. unfold to_model. exact (map_nth_error (fun d => (n_plan d, n_data d)) i l E). Qed.
Lemma run_back_nth (P : node R -> node R -> Prop) l : forall full x dv, (forall d x dl full, In d l -> P d (bwd d x dl full)) ->
  forall i d d', nth_error l i = Some d -> nth_error (run_back l x full dv) i = Some d' -> P d d'.
Proof.
  induction l as [|d l IH]; intros full x dv H i d1 d2 E1 E2; [destruct i; discriminate|].
  cbn [run_back] in E2. specialize (IH true (n_data d RValue) dv ltac:(intros; apply H; cbn; auto)). destruct (run_back l (n_data d RValue) true dv) as [|e r].
  - destruct i as [|[|i]]; cbn in E1, E2; try discriminate. injection E1 as <-. injection E2 as <-. apply H. cbn. auto.
  - destruct i as [|i]; cbn in E1, E2; [|now apply (IH i)]. injection E1 as <-. injection E2 as <-. apply H. cbn. auto.
Qed.
Lemma nth_plans l l' i (d : node R) : plans l' = plans l -> nth_error l i = Some d -> exists d' : node R, nth_error l' i = Some d' /\ n_plan d' = n_plan d.
Proof.
  unfold plans. intros E Ed. pose proof (map_nth_error n_plan i l Ed) as Q. rewrite <- E, nth_error_map in Q.
  destruct (nth_error l' i) as [d'|]; [|discriminate]. injection Q as Q. eauto.
Qed.

(** The gradients of layer [d] (its tensors before the two calls) found in [d2] (after them):
    [J v r] is the loss of the network with tensor [r] of this layer replaced by [v].  A dense layer's
    gradient tensors hold the partial derivatives; a convolution adds them to what its gradient
    tensors held. *)
Definition gradients_right (J : role -> (Z -> R) -> R) (d d2 : node R) : Prop :=
  match n_plan d with
  | PDense _ n k =>
      (forall j, (0 <= j < k)%Z -> partial (J RB) (n_data d RB) j (n_data d2 RGradB j)) /\
      (forall o, (0 <= o < n * k)%Z -> partial (J (RW 0)) (n_data d (RW 0)) o (n_data d2 (RGradW 0) o))
  | PConv g =>
      (forall f, (0 <= f < g_f g)%Z -> partial (J RB) (n_data d RB) f (n_data d2 RGradB f - n_data d RGradB f)) /\
      (forall f o, (0 <= f < g_f g)%Z -> (0 <= o < g_d g * g_fh g * g_fw g)%Z ->
         partial (J (RW f)) (n_data d (RW f)) o (n_data d2 (RGradW f) o - n_data d (RGradW f) o))
  | PPool _ _ => True
  end.
Lemma chain_partials lo tv l s0 x full : l <> [] -> Forall train_class (layers l) -> Forall (fun d => fits (n_layer d) (n_plan d)) l -> wired s0 (plans l) ->
  smooth (to_model l) x -> clean (to_model l) -> loss_fits lo (last_plan l) tv (real_net (to_model l) x) ->
  forall i d d2, nth_error l i = Some d -> nth_error (trained lo tv l x full) i = Some d2 ->
  gradients_right (fun r v => net_loss lo (last_plan l) tv (real_net (with_param (to_model l) i r v) x)) d d2.
Proof.
  intros Ne Tr F W Sm Cl Lf i d d2 E1 E2. destruct (chain_rule lo tv l s0 x Ne Tr F W Sm Cl Lf) as [_ GA].
  assert (P : forall r j, partial (fun v => net_loss lo (last_plan l) tv (real_net (with_param (to_model l) i r v) x)) (n_data d r) j
                (params_dot (n_plan d) (n_data d) (n_data d2) (set_role (fun _ _ => 0) r (unit_at j)))).
  { intros r j. unfold partial. pose proof (GA full i d d2 _ _ _ E1 E2 (ccurve_upd (n_data d) r j)) as D.
    apply is_derive_Reals. eapply is_derive_ext; [|exact D]. intros t. cbv beta. unfold Jloss. now rewrite (with_param_set (to_model l) i r _ _ _ (nth_to_model l i d E1)). }
  unfold gradients_right. destruct (n_plan d) as [a n k|g|a q]; [| |exact Logic.I].
  - split; intros j Hj.
    + specialize (P RB j). cbn [params_dot] in P. rewrite set_role_same, (set_role_other _ RB _ (RW 0)), rsum_zero, rsum_unit in P by (auto || discriminate).
      now rewrite Rplus_0_r in P.
    + specialize (P (RW 0) j). cbn [params_dot] in P. rewrite set_role_same, (set_role_other _ (RW 0) _ RB), rsum_zero, rsum_unit in P by (auto || discriminate).
      now rewrite Rplus_0_l in P.
  - split.
    + intros f Hf. specialize (P RB f). cbn [params_dot] in P. rewrite set_role_same in P.
      rewrite (rsum_all0 (g_f g) (fun f => rsum _ _)) in P by (intros; rewrite set_role_other by discriminate; apply rsum_zero).
      rewrite (rsum_unit (g_f g) (fun f => n_data d2 RGradB f - n_data d RGradB f)), Rplus_0_r in P by auto. exact P.
    + intros f o Hf Ho. specialize (P (RW f) o). cbn [params_dot] in P. rewrite (set_role_other _ (RW f) _ RB), rsum_zero, Rplus_0_l in P by discriminate.
      rewrite (rsum_ext (g_f g) _ (fun f' => if (f' =? f)%Z then n_data d2 (RGradW f) o - n_data d (RGradW f) o else 0)) in P.
      * rewrite (rsum_delta (g_f g) f (fun _ => n_data d2 (RGradW f) o - n_data d (RGradW f) o)) in P by auto. exact P.
      * intros f' _. destruct (Z.eqb_spec f' f) as [->|Nf].
        -- rewrite set_role_same. apply (rsum_unit _ (fun o => n_data d2 (RGradW f) o - n_data d (RGradW f) o)). auto.
        -- rewrite set_role_other by congruence. apply rsum_zero.
Qed.

(** C65.  A network of two or more dense and convolution layers (any sizes) whose activations and loss
    are those with a right derivative (C33, C38, C40), a trainer for it, a sample and a target.  Then
    feedforward(x) and backprop(x, t) succeed; no parameter changes; and in every layer the gradient
    tensors are the partial derivatives, by the parameters, of the loss of the network's output. *)
Theorem C65_backprop_is_gradient (m : mem R) (l : list (node R)) t lo x xv y yv :
  (2 <= Z.of_nat (length l) < 2 ^ 64)%Z -> Forall train_class (layers l) -> net_at m l ->
  trainer_at m l t lo -> sample_at m l x xv -> disjoint (t_data (tr_delta t)) (t_size (tr_delta t)) (t_data x) (t_size x) -> target_at m l t y yv ->
  smooth (to_model l) xv -> clean (to_model l) -> loss_fits lo (last_plan l) yv (real_net (to_model l) xv) ->
  exists out m1 m2 l2, net_feedforward (layers l) x m = Ok (out, m1) /\ tr_backprop (layers l) t x y m1 = Ok (tt, m2) /\
    holds m1 (t_data out) (out_count (last_plan l)) (real_net (to_model l) xv) /\
    net_at m2 l2 /\ layers l2 = layers l /\ plans l2 = plans l /\ clean (to_model l2) /\
    only (fun b i => net_block l b \/ inside (t_data (tr_delta t)) (t_size (tr_delta t)) b i) m m2 /\
    forall i d, nth_error l i = Some d -> exists d2, nth_error l2 i = Some d2 /\
      n_data d2 RB = n_data d RB /\ (forall f, n_data d2 (RW f) = n_data d (RW f)) /\
      gradients_right (fun r v => net_loss lo (last_plan l) yv (real_net (with_param (to_model l) i r v) xv)) d d2.
Proof.
  intros Hn Tr A (El & Wb & Od & Ow) Hx Dx (Hy & Oy & Dy) Sm Cl Lf.
  assert (Ne : l <> []) by (intros ->; cbn in Hn; lia).
  assert (F : Forall (fun d => fits (n_layer d) (n_plan d)) l) by (eapply Forall_impl; [|exact (proj1 A)]; cbn; tauto).
  pose proof (net_out_real l xv F Sm Cl) as Er.
  destruct (feedforward_run m l x xv Ne ltac:(lia) A Hx) as (out & m1 & E1 & A1 & O1 & p & Ep & _ & Ho & _).
  destruct (same_model_fwd l xv) as (L1 & P1 & S1).
  assert (Ep' : last_plan l = p).
  { unfold last_plan. destruct (exists_last (l := plans l)) as (pre & p' & Eq); [unfold plans; destruct l; [congruence|discriminate]|].
    rewrite Eq, last_last. assert (Len : length l = S (length pre)). { pose proof (f_equal (@length _) Eq) as Q. unfold plans in Q. rewrite map_length, app_length in Q. cbn in Q. lia. }
    rewrite Len, Eq in Ep. replace (S (length pre) - 1)%nat with (length pre) in Ep by lia. rewrite nth_error_app2, Nat.sub_diag in Ep by lia. cbn in Ep. congruence. }
  assert (Nb : forall b, net_block (run_fwd l xv) b <-> net_block l b) by (intros b; now rewrite (net_block_same (run_fwd l xv) l)).
  destruct Ow as [Od1 (b & Eb & c & Ec & Lc)].
  assert (Kd : forall b', ~ net_block l b' -> nth_error m1 b' = nth_error m b').
  { intros b' Nb'. apply (only_block _ _ _ _ O1). intros i Q. auto. }
  assert (Kh : forall p n v, net_outside l p -> holds m p n v -> holds m1 p n v).
  { intros q n v Oq Hq. eapply only_holds; [exact O1| |exact Hq]. intros b' i Hi. destruct q as [|b2 o]; cbn in *; [tauto|]. destruct Hi as [-> _]. exact Oq. }
  assert (Ko : forall p, net_outside l p -> net_outside (run_fwd l xv) p).
  { intros [|b' o] Q; cbn in *; [exact Q|]. now rewrite Nb. }
  assert (Len : length (run_fwd l xv) = length l) by (pose proof (f_equal (@length _) L1) as Q; unfold layers in Q; now rewrite !map_length in Q).
  destruct l as [|d0 l0] eqn:El0; [congruence|]. rewrite <- El0 in *. clear El0 l0.
  destruct (backprop_run m1 (run_fwd l xv) t lo x xv y yv d0) as (m2 & E2 & A2 & O2).
  { rewrite Len. exact Hn. } { rewrite L1. exact Tr. } { exact A1. }
  { split; [exact El|]. split; [rewrite P1; exact Wb|]. split; [apply Ko; exact Od|]. split; [exact Od1|]. exists b. split; [exact Eb|]. exists c.
    split; [|exact Lc]. rewrite Kd; [exact Ec|]. rewrite Eb in Od. exact Od. }
  { apply (sample_same m1 l); auto. destruct Hx as (W & H & O). split; [exact W|]. split; [now apply Kh|exact O]. }
  { exact Dx. } { split; [now apply Kh|]. split; [now apply Ko|exact Dy]. }
  rewrite (last_value l xv d0 Ne), Er in A2. rewrite L1 in E2.
  change (net_at m2 (trained lo yv l xv false)) in A2.
  exists out, m1, m2, (trained lo yv l xv false). split; [exact E1|]. split; [exact E2|]. split; [rewrite Ep', <- Er; exact Ho|]. split; [exact A2|].
  split; [unfold trained; now rewrite layers_run_back|]. assert (P2 : plans (trained lo yv l xv false) = plans l) by (unfold trained; now rewrite plans_run_back).
  split; [exact P2|]. split; [|split].
  - unfold clean in *. apply Forall_forall. intros q Hq. apply in_map_iff in Hq as (d2 & <- & Hq). cbn [fst snd].
    apply In_nth_error in Hq as (i & Hi). destruct (nth_plans (trained lo yv l xv false) l i d2 (eq_sym P2) Hi) as (d & Hd & Epl). rewrite <- Epl.
    destruct (nth_plans l (run_fwd l xv) i d P1 Hd) as (d1 & Hd1 & Epl1).
    assert (C : match n_plan d with PConv g => off_grid_zero g (n_data d) | _ => True end).
    { rewrite Forall_forall in Cl. apply (Cl (n_plan d, n_data d)). eapply nth_error_In. apply nth_to_model. exact Hd. }
    assert (Fd : fits (n_layer d) (n_plan d)) by (rewrite Forall_forall in F; eapply F, nth_error_In; exact Hd).
    revert Hi. unfold trained. generalize (loss_dval lo yv (real_net (to_model l) xv)). intros dv Hi. destruct (n_plan d) as [| g |] eqn:Eg; try exact Logic.I.
    assert (C1 : off_grid_zero g (n_data d1)).
    { eapply off_grid_role; [|exact C]. destruct (nth_run_fwd _ _ _ _ Hd1) as (d' & Hd' & ->). assert (d' = d) by congruence. subst d'.
      cbn [fwd n_data]. unfold after_forward. rewrite Eg. destruct (n_layer d); reflexivity. }
    refine (run_back_nth (fun a b => n_plan a = PConv g -> off_grid_zero g (n_data a) -> off_grid_zero g (n_data b)) _ false xv dv _ i d1 d2 Hd1 Hi _ C1); [|congruence].
    intros a x' dl' full _ Ea Ca. cbn [bwd n_data]. unfold after_backward. rewrite Ea. apply off_grid_backward; [|exact Ca].
    exact (dims_pos _ _ Fd).
  - eapply only_trans; [eapply only_weaken; [|exact O1]|eapply only_weaken; [|exact O2]]; cbn; [tauto|]. intros b' i. now rewrite Nb.
  - intros i d Hd. destruct (nth_plans l (run_fwd l xv) i d P1 Hd) as (d1 & Hd1 & Epl1).
    destruct (nth_plans l (trained lo yv l xv false) i d P2 Hd) as (d2 & Hd2 & Epl2). exists d2. split; [exact Hd2|].
    assert (Q : n_data d2 RB = n_data d1 RB /\ forall f, n_data d2 (RW f) = n_data d1 (RW f)).
    { refine (run_back_nth (fun a b => n_data b RB = n_data a RB /\ forall f, n_data b (RW f) = n_data a (RW f)) _ false xv _ _ i d1 d2 Hd1 Hd2).
      intros. apply after_backward_params. }
    destruct Q as [Q1 Q2]. split; [rewrite Q1; apply (S1 i d d1 RB Hd Hd1); discriminate|].
    split; [intros f; rewrite Q2; apply (S1 i d d1 (RW f) Hd Hd1); discriminate|].
    apply (chain_partials lo yv l (t_shape x) xv false Ne Tr F (proj1 Hx) Sm Cl Lf i d d2 Hd Hd2).
Qed.
(** With a softmax layer at the end, the negative log likelihood and a one-hot target, the loss differentiated is
    the value of the selected loss. *)
Theorem C65_nll_one_hot (a : Z) (k : Z) (t y : Z -> R) (c : Z) : (0 <= c < k)%Z -> (forall i, (0 <= i < k)%Z -> t i = if (i =? c)%Z then 1 else 0) ->
  net_loss NLL (PDense SoftMax a k) t y = std_loss NLL k t y /\ loss_fits NLL (PDense SoftMax a k) t y.
Proof. intros Hc Ht. destruct (C40_nll_one_hot k t y c Hc Ht) as [E S]. split; [symmetry; exact E|]. split; [right; reflexivity|exact S]. Qed.

Module Examples.
Import PropNet.Examples.
Lemma smooth_new N qs x : length N = length qs -> smooth (map (fun q => (q, fun _ _ => 0)) qs) x -> smooth (to_model (new_nodes (T := R) N qs)) x.
Proof.
  intros Len S. replace (to_model (new_nodes (T := R) N qs)) with (map (fun q : plan => (q, (fun _ _ => 0) : contents R)) qs); [exact S|].
  clear S. revert qs Len. induction N as [|L N IH]; intros [|q qs] Len; try discriminate; [reflexivity|]. cbn. f_equal. apply IH. cbn in Len. lia.
Qed.
Lemma clean_new N qs : length N = length qs -> clean (to_model (new_nodes (T := R) N qs)).
Proof.
  revert qs. induction N as [|L N IH]; intros [|q qs] Len; try discriminate; [constructor|]. constructor; [|apply IH; cbn in Len; lia].
  cbn [fst snd]. destruct q; cbn [new_nodes map combine fst snd n_plan n_data]; try exact Logic.I. unfold off_grid_zero. reflexivity.
Qed.
(** two dense layers, tanh and softmax, with the negative log likelihood of class 0 *)
Example C65_applies : exists (l : list (node R)) (m : mem R) t, (2 <= Z.of_nat (length l) < 2 ^ 64)%Z /\ Forall train_class (layers l) /\ net_at m l /\
  trainer_at m l t NLL /\ sample_at m l tx xv /\ disjoint (t_data (tr_delta t)) (t_size (tr_delta t)) (t_data tx) (t_size tx) /\ target_at m l t ty yv /\
  smooth (to_model l) xv /\ clean (to_model l) /\ loss_fits NLL (last_plan l) yv (real_net (to_model l) xv).
Proof.
  destruct (C63_every_topology_builds (T := R) ps2 m0) as (N & m & E & Len & Tr & A & P & F).
  { unfold ps2. repeat apply Forall_cons; try apply Forall_nil; cbn [plan_ok]; repeat split; try lia; discriminate. }
  destruct (new_nodes_plans N ps2 Len) as [Ep El]. exists (new_nodes N ps2), m, (mk_trainer td (Some NLL)).
  assert (Ln : length (new_nodes (T := R) N ps2) = 2%nat). { pose proof (f_equal (@length _) Ep) as Q. unfold plans in Q. rewrite map_length in Q. exact Q. }
  split; [lia|]. split; [rewrite El; exact Tr|]. split; [exact A|].
  destruct (sample_kept m (new_nodes N ps2) 0 16 xv P F ltac:(lia) (holds_list m0 0 xs 0 eq_refl)) as [H1 H2].
  destruct (sample_kept m (new_nodes N ps2) 1 2 yv P F ltac:(lia) (holds_list m0 1 ys 0 eq_refl)) as [H3 H4].
  split; [|split; [|split; [|split; [|split; [|split]]]]].
  - split; [reflexivity|]. split; [rewrite Ep; cbn; auto|]. split. + intros Q. apply F in Q. cbn in Q. lia.
    + split; [reflexivity|]. exists 2%nat. split; [reflexivity|]. exists [None; None]. split; [|reflexivity]. rewrite (proj2 P); [reflexivity|cbn; lia|intros []].
  - split; [|split; [exact H1|exact H2]]. rewrite Ep. cbn. auto.
  - intros b i. cbn. lia.
  - split; [exact H3|split; [exact H4|]]. intros b i. cbn. lia.
  - apply smooth_new; [exact Len|]. cbn [map ps2 smooth]. split; [split; [discriminate|]; intros j _ []|]. split; [reflexivity|exact Logic.I].
  - apply clean_new. exact Len.
  - unfold last_plan. rewrite Ep. cbn [ps2 last]. apply (C65_nll_one_hot 3 2 yv _ 0); [lia|]. intros i Hi. assert (i = 0 \/ i = 1)%Z as [-> | ->] by lia; reflexivity.
Qed.
(** a 1x4x4 picture through two convolutions (2 filters 3x3, then 2 filters 2x2), with the log-cosh loss *)
Definition g2 : geometry := mk_geometry 2 2 2 2 2 2 0 1 1.
Definition ps3 : list plan := [PConv g0; PConv g2].
Definition td3 : tensor := mk_tensor (Ptr 2 0) (shape3 2 1 1).
Example C65_applies_conv : exists (l : list (node R)) (m : mem R) t, (2 <= Z.of_nat (length l) < 2 ^ 64)%Z /\ Forall train_class (layers l) /\ net_at m l /\
  trainer_at m l t LC /\ sample_at m l tx xv /\ disjoint (t_data (tr_delta t)) (t_size (tr_delta t)) (t_data tx) (t_size tx) /\ target_at m l t ty yv /\
  smooth (to_model l) xv /\ clean (to_model l) /\ loss_fits LC (last_plan l) yv (real_net (to_model l) xv).
Proof.
  destruct (C63_every_topology_builds (T := R) ps3 m0) as (N & m & E & Len & Tr & A & P & F).
  { unfold ps3. repeat apply Forall_cons; try apply Forall_nil; cbn [plan_ok]; unfold geometry_ok, g0, g2, out_h, out_w; cbn -[Z.pow]; repeat split; lia. }
  destruct (new_nodes_plans N ps3 Len) as [Ep El]. exists (new_nodes N ps3), m, (mk_trainer td3 (Some LC)).
  assert (Ln : length (new_nodes (T := R) N ps3) = 2%nat). { pose proof (f_equal (@length _) Ep) as Q. unfold plans in Q. rewrite map_length in Q. exact Q. }
  split; [lia|]. split; [rewrite El; exact Tr|]. split; [exact A|].
  destruct (sample_kept m (new_nodes N ps3) 0 16 xv P F ltac:(lia) (holds_list m0 0 xs 0 eq_refl)) as [H1 H2].
  destruct (sample_kept m (new_nodes N ps3) 1 2 yv P F ltac:(lia) (holds_list m0 1 ys 0 eq_refl)) as [H3 H4].
  split; [|split; [|split; [|split; [|split; [|split]]]]].
  - split; [reflexivity|]. split; [rewrite Ep; cbn; auto|]. split. + intros Q. apply F in Q. cbn in Q. lia.
    + split; [reflexivity|]. exists 2%nat. split; [reflexivity|]. exists [None; None]. split; [|reflexivity]. rewrite (proj2 P); [reflexivity|cbn; lia|intros []].
  - split; [|split; [exact H1|exact H2]]. rewrite Ep. cbn. auto.
  - intros b i. cbn. lia.
  - split; [exact H3|split; [exact H4|]]. intros b i. cbn. lia.
  - apply smooth_new; [exact Len|]. cbn [map ps3 smooth]. repeat split.
  - apply clean_new. exact Len.
  - unfold last_plan. rewrite Ep. cbn [ps3 last]. right. left. reflexivity.
Qed.
End Examples.

Print Assumptions C65_backprop_is_gradient.
Print Assumptions C65_nll_one_hot.

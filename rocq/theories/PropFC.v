(** * Properties C51-C54: the fully connected layer *)
From Coq Require Import QArith Reals Lra.
From Coquelicot Require Import Coquelicot.
From Verif Require Import Mem Scalar MemSpec MemLemmas Lique LiqueSpec LiqueProofs LiqueProofs2 Linear LinearProofs Functions FunctionSpec FunctionProofs
  Optimizer Layer LayerSpec FCProofs RealSpec NetSpec ActivationProofs LossProofs Vjp PropFunctions.
Open Scope Z_scope.

Section Any.
Context {T : Type} `{NT : Num T}.
Implicit Types (m : mem T) (s : contents T).

(** A tensor argument of [n] elements with values [v], not in the layer's own memory. *)
Definition argument m (L : layer) (x : tensor) (n : Z) (v : Z -> T) : Prop :=
  t_size x = n /\ holds m (t_data x) n v /\ outside L (t_data x).
(** (x . W + B)_j for parameters stored as in [s], the weights row by row *)
Definition affine (n k : Z) s (x : Z -> T) (j : Z) : T :=
  add (zsum n (fun i => mul (x i) (s (RW 0) (i * k + j)))) (s RB j).

(** ** C51 *)
Theorem C51_construction m n k act :
  0 <= n < 2 ^ 64 -> 0 <= k < 2 ^ 64 -> n * k < 2 ^ 64 ->
  exists L m', fc_new n k act m = Ok (L, m') /\ fc_dims L n k /\ f_act L = act /\
    layer_at m' (LFC L) (fun _ _ => zero) /\ preserves m m' /\
    forall b, block_in (LFC L) b -> (length m <= b)%nat.
Proof.
  intros Hn Hk Hnk. destruct (wp_elim _ _ _ _ (wp_fc_new m n k act Hn Hk Hnk)) as (L & m' & E & A & B & _ & C & D & F).
  exists L, m'. auto 10.
Qed.

Theorem C51_forward_value (L : fc) n k a m s x xv :
  fc_dims L n k -> f_act L = Some a -> (a = SoftMax -> 0 < k) -> layer_at m (LFC L) s -> argument m (LFC L) x n xv ->
  exists m' s', fc_forward L x m = Ok (tt, m') /\ layer_at m' (LFC L) s' /\
    (forall j, 0 <= j < k -> s' RValue j = act_val a k (affine n k s xv) j) /\
    (forall r, r <> RValue -> r <> RBuff -> s' r = s r) /\
    only (fun b _ => block_at (LFC L) RBuff b \/ block_at (LFC L) RValue b) m m'.
Proof.
  intros D Ea Hs H (Sx & Hx & Ho).
  destruct (wp_elim _ _ _ _ (wp_fc_forward L n k D a m s x xv Ea Hs H Sx Hx Ho)) as ([] & m' & E & A & B).
  exists m', (fc_after_forward n k a s xv). split; [auto|]. split; [auto|]. split; [|split; auto].
  - intros j Hj. unfold fc_after_forward. rewrite set_role_same. reflexivity.
  - intros r N1 N2. unfold fc_after_forward. now rewrite !set_role_other.
Qed.
(** Any two calls with equal inputs on equal parameters give equal values, whatever the rest of
    the memory (previous values, gradients, other calls in between) was. *)
Theorem C51_forward_repeatable (L : fc) n k a m s x xv m1 m2 s2 x2 m3 v v' :
  fc_dims L n k -> f_act L = Some a -> (a = SoftMax -> 0 < k) ->
  layer_at m (LFC L) s -> argument m (LFC L) x n xv -> fc_forward L x m = Ok (tt, m1) ->
  layer_at m2 (LFC L) s2 -> argument m2 (LFC L) x2 n xv -> fc_forward L x2 m2 = Ok (tt, m3) ->
  s2 RB = s RB -> s2 (RW 0) = s (RW 0) ->
  holds m1 (t_data (f_value L)) k v -> holds m3 (t_data (f_value L)) k v' ->
  forall j, 0 <= j < k -> v j = v' j.
Proof.
  intros D Ea Hs H X E H2 X2 E2 EB EW Hv Hv' j Hj.
  destruct (C51_forward_value L n k a m s x xv D Ea Hs H X) as (m1' & s1 & E' & A1 & A2 & _).
  destruct (C51_forward_value L n k a m2 s2 x2 xv D Ea Hs H2 X2) as (m3' & s3 & E3' & A3 & A4 & _).
  rewrite E in E'. injection E' as <-. rewrite E2 in E3'. injection E3' as <-.
  assert (S : t_size (f_value L) = k) by (pose proof (fcd L n k D); tauto).
  pose proof (part_holds' _ _ _ RValue _ _ A1 eq_refl S) as P1. pose proof (part_holds' _ _ _ RValue _ _ A3 eq_refl S) as P3.
  rewrite (holds_unique _ _ _ _ _ j Hv P1 Hj), (holds_unique _ _ _ _ _ j Hv' P3 Hj), A2, A4 by auto.
  assert (EA : affine n k s xv = affine n k s2 xv) by (unfold affine; now rewrite EB, EW). now rewrite EA.
Qed.
(** the Raw class computes the same function *)
Theorem C51_raw_forward_value (L : xfc) n k a m s x xv :
  xfc_dims L n k -> xf_act L = Some a -> (a = SoftMax -> 0 < k) -> layer_at m (LXFC L) s -> argument m (LXFC L) x n xv ->
  exists m' s', xfc_forward L x m = Ok (tt, m') /\ layer_at m' (LXFC L) s' /\
    (forall j, 0 <= j < k -> s' RValue j = act_val a k (affine n k s xv) j) /\
    (forall r, r <> RValue -> s' r = s r) /\
    only (fun b _ => block_at (LXFC L) RValue b) m m'.
Proof.
  intros (Hn & Hk & Hnk & _ & _ & HB & HW) Ea Hs H (Sx & Hx & Ho).
  assert (SB : t_size (xf_B L) = k) by (apply HB; cbn; auto). assert (SV : t_size (xf_value L) = k) by (apply HB; cbn; auto).
  enough (G : wp (xfc_forward L x) m (fun _ m' => layer_at m' (LXFC L) (set_role (set_role s RValue (affine n k s xv)) RValue (act_val a k (affine n k s xv))) /\
      only (fun b _ => block_at (LXFC L) RValue b) m m')).
  { destruct (wp_elim _ _ _ _ G) as ([] & m' & E & A & B). eexists m', _. split; [exact E|]. split; [exact A|]. split; [|split; auto].
    - intros j Hj. now rewrite set_role_same.
    - intros r Hr. now rewrite !set_role_other. }
  unfold xfc_forward. apply wp_assoc. apply wp_bind. eapply wp_conseq.
  { eapply (wp_affine m (LXFC L) s n k (xf_value L) (xf_B L) (xf_W L) x xv RValue); auto; try discriminate; lia. }
  intros [] m1 [H1 Ho1]. rewrite Ea. cbn [with_act].
  eapply wp_conseq.
  { eapply (wp_part_sets _ m1 (LXFC L) _ RValue (xf_value L) (act_val a k (affine n k s xv))); [exact H1|reflexivity|].
    unfold call_f. rewrite SV. apply wp_act_f; auto.
    - eapply (part_room' _ _ _ RValue); [exact H1|reflexivity|auto].
    - pose proof (part_holds' _ _ _ RValue _ _ H1 eq_refl SV) as P. rewrite set_role_same in P. exact P.
    - now left. }
  intros [] m2 [H2 Ho2]. split; [exact H2|]. eapply only_trans; eauto.
Qed.
Theorem C51_raw_and_train_agree (L : fc) (L' : xfc) n k a m s m' s' x x' xv m1 m1' v v' :
  fc_dims L n k -> xfc_dims L' n k -> f_act L = Some a -> xf_act L' = Some a -> (a = SoftMax -> 0 < k) ->
  layer_at m (LFC L) s -> layer_at m' (LXFC L') s' -> s' RB = s RB -> s' (RW 0) = s (RW 0) ->
  argument m (LFC L) x n xv -> argument m' (LXFC L') x' n xv ->
  fc_forward L x m = Ok (tt, m1) -> xfc_forward L' x' m' = Ok (tt, m1') ->
  holds m1 (t_data (f_value L)) k v -> holds m1' (t_data (xf_value L')) k v' ->
  forall j, 0 <= j < k -> v j = v' j.
Proof.
  intros D D' Ea Ea' Hs H H' EB EW X X' E E' Hv Hv' j Hj.
  destruct (C51_forward_value L n k a m s x xv D Ea Hs H X) as (m2 & s1 & E2 & A1 & A2 & _).
  destruct (C51_raw_forward_value L' n k a m' s' x' xv D' Ea' Hs H' X') as (m3 & s3 & E3 & A3 & A4 & _).
  rewrite E in E2. injection E2 as <-. rewrite E' in E3. injection E3 as <-.
  assert (S : t_size (f_value L) = k) by (pose proof (fcd L n k D); tauto).
  assert (S' : t_size (xf_value L') = k) by (apply D'; cbn; auto).
  pose proof (part_holds' _ _ _ RValue _ _ A1 eq_refl S) as P1. pose proof (part_holds' _ _ _ RValue _ _ A3 eq_refl S') as P3.
  rewrite (holds_unique _ _ _ _ _ j Hv P1 Hj), (holds_unique _ _ _ _ _ j Hv' P3 Hj), A2, A4 by auto.
  assert (EA : affine n k s xv = affine n k s' xv) by (unfold affine; now rewrite EB, EW). now rewrite EA.
Qed.

(** ** C52, loop level: forward then backward, any arithmetic *)
Lemma fc_round (L : fc) n k a m s x xv dt d full :
  fc_dims L n k -> f_act L = Some a -> (a = SoftMax -> 0 < k) -> layer_at m (LFC L) s ->
  argument m (LFC L) x n xv -> argument m (LFC L) dt k d ->
  exists m1 m2 s', fc_forward L x m = Ok (tt, m1) /\ fc_backward L x dt full m1 = Ok (tt, m2) /\ layer_at m2 (LFC L) s' /\
    (forall j, 0 <= j < k -> s' RGradB j = mul (act_dval a (affine n k s xv) j) (d j)) /\
    (forall i j, 0 <= i < n -> 0 <= j < k -> s' (RGradW 0) (i * k + j) = mul (xv i) (s' RGradB j)) /\
    (full = true -> forall i, 0 <= i < n -> s' RDelta i = zsum k (fun j => mul (s (RW 0) (i * k + j)) (s' RGradB j))) /\
    (full = false -> s' RDelta = s RDelta) /\
    (forall r, ~ In r [RValue; RBuff; RGradB; RGradW 0; RDelta] -> s' r = s r) /\
    only (fun b _ => block_in (LFC L) b) m m2.
Proof.
  intros D Ea Hs H (Sx & Hx & Ho) (Sd & Hd & Hod).
  destruct (wp_elim _ _ _ _ (wp_fc_forward L n k D a m s x xv Ea Hs H Sx Hx Ho)) as ([] & m1 & E1 & A1 & O1).
  assert (O1' : only (fun b _ => block_in (LFC L) b) m m1).
  { eapply only_weaken; [|exact O1]. intros b _ [Q|Q]; eapply block_at_in; exact Q. }
  assert (Hx1 : holds m1 (t_data x) n xv) by (eapply (outside_holds _ _ (LFC L)); [exact O1'|auto|exact Ho|auto]).
  assert (Hd1 : holds m1 (t_data dt) k d) by (eapply (outside_holds _ _ (LFC L)); [exact O1'|auto|exact Hod|auto]).
  destruct (wp_elim _ _ _ _ (wp_fc_backward L n k D a m1 _ x dt full xv d Ea A1 Sx Hx1 Ho Hd1 Hod)) as ([] & m2 & E2 & A2 & O2).
  exists m1, m2. eexists. split; [exact E1|]. split; [exact E2|]. split; [exact A2|].
  assert (EG : forall j, fc_after_backward k a full (fc_after_forward n k a s xv) xv d RGradB j = fc_gradB a (fc_after_forward n k a s xv) d j).
  { intros j. unfold fc_after_backward; cbv zeta; destruct full; [rewrite set_role_other by discriminate|]; rewrite set_role_other, set_role_same by discriminate; reflexivity. }
  assert (EU : fc_after_forward n k a s xv RBuff = affine n k s xv).
  { unfold fc_after_forward. rewrite set_role_other by discriminate. now rewrite set_role_same. }
  split; [|split; [|split; [|split; [|split]]]].
  - intros j Hj. rewrite EG. unfold fc_gradB. now rewrite EU.
  - intros i j Hi Hj. rewrite EG.
    assert (EWr : forall o, fc_after_backward k a full (fc_after_forward n k a s xv) xv d (RGradW 0) o = fc_gradW k a (fc_after_forward n k a s xv) xv d o).
    { intros o. unfold fc_after_backward; cbv zeta; destruct full; [rewrite set_role_other by discriminate|]; rewrite set_role_same; reflexivity. }
    rewrite EWr. unfold fc_gradW. rewrite Z.div_add_l, Z.div_small, Z.add_0_r by lia. now rewrite Z.add_comm, Z.mod_add, Z.mod_small by lia.
  - intros -> i Hi. cbn [fc_after_backward]. unfold fc_after_backward. rewrite set_role_same. unfold fc_delta. apply zsum_ext.
    intros j Hj. rewrite (set_role_other _ RDelta) by discriminate. rewrite (set_role_other _ (RGradW 0)), set_role_same by discriminate. f_equal.
  - intros ->. unfold fc_after_backward. now rewrite !set_role_other by discriminate.
  - intros r Hr. cbn in Hr. unfold fc_after_backward.
    transitivity (fc_after_forward n k a s xv r).
    + destruct full; rewrite !set_role_other; auto; intros ->; tauto.
    + unfold fc_after_forward. rewrite !set_role_other; auto; intros ->; tauto.
  - eapply only_trans; [exact O1'|]. eapply only_weaken; [|exact O2]. intros b _ [Q|[Q|[_ Q]]]; eapply block_at_in; exact Q.
Qed.
End Any.

(** ** C52: the gradient, exact arithmetic *)
Section Gradient.
Local Open Scope R_scope.
(** For every scalar activation but GELU, wherever it is differentiable. *)
Theorem C52_backward_gradient_partial (L : fc) n k a (m : mem R) s x xv dt d full :
  a <> GELU -> fc_dims L n k -> f_act L = Some (Scalar a) -> layer_at m (LFC L) s ->
  argument m (LFC L) x n xv -> argument m (LFC L) dt k d ->
  (forall j, (0 <= j < k)%Z -> ~ corner a (dense_pre n k (s RB) (s (RW 0)) xv j)) ->
  exists m1 m2 s', fc_forward L x m = Ok (tt, m1) /\ fc_backward L x dt full m1 = Ok (tt, m2) /\ layer_at m2 (LFC L) s' /\
    (forall j, (0 <= j < k)%Z -> partial (fun B => weighted k d (dense a n k B (s (RW 0)) xv)) (s RB) j (s' RGradB j)) /\
    (forall o, (0 <= o < n * k)%Z -> partial (fun W => weighted k d (dense a n k (s RB) W xv)) (s (RW 0)) o (s' (RGradW 0) o)) /\
    (full = true -> forall i, (0 <= i < n)%Z -> partial (fun x => weighted k d (dense a n k (s RB) (s (RW 0)) x)) xv i (s' RDelta i)) /\
    (full = false -> s' RDelta = s RDelta) /\
    (forall r, ~ In r [RValue; RBuff; RGradB; RGradW 0; RDelta] -> s' r = s r).
Proof.
  intros Ha D Ea H X Xd Hc.
  destruct (fc_round L n k (Scalar a) m s x xv dt d full D Ea ltac:(discriminate) H X Xd) as (m1 & m2 & s' & E1 & E2 & A & GB & GW & GD & GD' & Fr & _).
  assert (Hn : (0 <= n)%Z) by apply D. assert (Hk : (0 <= k)%Z) by apply D.
  exists m1, m2, s'. do 3 (split; [assumption|]).
  set (dl := fun i => rsum k (fun j => s (RW 0) (i * k + j)%Z * s' RGradB j)).
  assert (HD : forall j, (0 <= j < k)%Z -> is_derive (std_act a) (dense_pre n k (s RB) (s (RW 0)) xv j) (scalar_df a (dense_pre n k (s RB) (s (RW 0)) xv j)))
    by (intros; apply act_derive; auto).
  split; [|split; [|split; [|split; auto]]].
  - intros j Hj. apply (dense_partial_B a n k Hn Hk _ (s RB) (s (RW 0)) xv d (s' RGradB) (s' (RGradW 0)) dl HD); auto.
  - intros o Hj. apply (dense_partial_W a n k Hn Hk _ (s RB) (s (RW 0)) xv d (s' RGradB) (s' (RGradW 0)) dl HD); auto.
  - intros Ef i Hi. replace (s' RDelta i) with (dl i) by (symmetry; apply GD; auto).
    apply (dense_partial_x a n k Hn Hk _ (s RB) (s (RW 0)) xv d (s' RGradB) (s' (RGradW 0)) dl HD); auto.
Qed.
(** SoftMax: [df] is the constant 1, so the bias gradient is the incoming delta itself; for one
    output (value constantly 1) the derivative is 0. *)
Theorem C52_softmax_gradient_refuted (L : fc) n (m : mem R) s x xv dt d full :
  fc_dims L n 1 -> f_act L = Some SoftMax -> layer_at m (LFC L) s ->
  argument m (LFC L) x n xv -> argument m (LFC L) dt 1 d -> d 0%Z <> 0 ->
  exists m1 m2 s', fc_forward L x m = Ok (tt, m1) /\ fc_backward L x dt full m1 = Ok (tt, m2) /\ layer_at m2 (LFC L) s' /\
    ~ partial (fun B => weighted 1 d (std_softmax 1 (dense_pre n 1 B (s (RW 0)) xv))) (s RB) 0 (s' RGradB 0%Z).
Proof.
  intros D Ea H X Xd Hd.
  destruct (fc_round L n 1 SoftMax m s x xv dt d full D Ea ltac:(lia) H X Xd) as (m1 & m2 & s' & E1 & E2 & A & GB & _).
  exists m1, m2, s'. do 3 (split; [assumption|]). intros P. rewrite GB in P by lia. cbn [act_dval one mul Num_R] in P.
  apply Hd. rewrite <- (Rmult_1_l (d 0%Z)). eapply uniqueness_limite; [exact P|].
  apply (derivable_pt_lim_ext (fun _ => d 0%Z)).
  - intros t. unfold weighted, std_softmax, rsum, zsum. cbn [Z.to_nat Pos.to_nat Pos.iter_op gsum Z.of_nat zero add Num_R].
    change (Pos.to_nat 1) with 1%nat. cbn [gsum Z.of_nat zero add Num_R].
    match goal with |- context [exp ?e] => pose proof (exp_pos e); generalize dependent (exp e); intros w Hw end.
    rewrite !Rplus_0_l. unfold Rdiv. rewrite Rinv_r by lra. lra.
  - apply derivable_pt_lim_const.
Qed.
(** GELU: wrong at pre-activation 2. *)
Theorem C52_gelu_gradient_refuted (L : fc) n k (m : mem R) s x xv dt d full j :
  fc_dims L n k -> f_act L = Some (Scalar GELU) -> layer_at m (LFC L) s ->
  argument m (LFC L) x n xv -> argument m (LFC L) dt k d -> (0 <= j < k)%Z -> d j <> 0 ->
  dense_pre n k (s RB) (s (RW 0)) xv j = 2 ->
  exists m1 m2 s', fc_forward L x m = Ok (tt, m1) /\ fc_backward L x dt full m1 = Ok (tt, m2) /\ layer_at m2 (LFC L) s' /\
    ~ partial (fun B => weighted k d (dense GELU n k B (s (RW 0)) xv)) (s RB) j (s' RGradB j).
Proof.
  intros D Ea H X Xd Hj Hd Hp.
  destruct (fc_round L n k (Scalar GELU) m s x xv dt d full D Ea ltac:(discriminate) H X Xd) as (m1 & m2 & s' & E1 & E2 & A & GB & _).
  assert (Hn : (0 <= n)%Z) by apply D. assert (Hk : (0 <= k)%Z) by apply D.
  exists m1, m2, s'. do 3 (split; [assumption|]). intros P. rewrite GB in P by lia. cbn [act_dval] in P.
  set (dt' := fun j => gelu_true_derivative (dense_pre n k (s RB) (s (RW 0)) xv j)).
  assert (HD : forall j, (0 <= j < k)%Z -> is_derive (std_act GELU) (dense_pre n k (s RB) (s (RW 0)) xv j) (dt' j)).
  { intros i Hi. apply (is_derive_ext (scalar_f GELU)); [intros; symmetry; apply std_is_scalar|]. apply d_gelu. }
  assert (Q : partial (fun B => weighted k d (dense GELU n k B (s (RW 0)) xv)) (s RB) j (dt' j * d j)).
  { apply (dense_partial_B GELU n k Hn Hk dt' (s RB) (s (RW 0)) xv d (fun j => dt' j * d j)
      (fun o => xv (o / k)%Z * (dt' (o mod k)%Z * d (o mod k)%Z)) (fun i => rsum k (fun j => s (RW 0) (i * k + j)%Z * (dt' j * d j))) HD); auto.
    intros i j' Hi Hj'. rewrite Z.div_add_l, Z.div_small, Z.add_0_r by lia. now rewrite Z.add_comm, Z.mod_add, Z.mod_small by lia. }
  assert (E := uniqueness_limite _ _ _ _ P Q). cbn [mul Num_R] in E. apply Rmult_eq_reg_r in E; [|exact Hd].
  pose proof (C34_gelu_derivative_refuted (dt' j)) as G. unfold dt' in *. rewrite Hp in *.
  change (affine n k s xv j) with (dense_pre n k (s RB) (s (RW 0)) xv j) in E. rewrite Hp in E.
  assert (G' := G ltac:(apply is_derive_Reals, d_gelu)). rewrite <- E in G'. unfold Q2R in G'. cbn [Qnum Qden] in G'. lra.
Qed.
End Gradient.

(** ** C53, C54: histories of one layer *)
Section History.
Context {T : Type} `{NT : Num T}.
Implicit Types (m : mem T) (s : contents T).
(** what the layer's user does between calls: anything outside the layer's memory *)
Definition client (L : layer) m m' : Prop := forall b, block_in L b -> nth_error m' b = nth_error m b.
(** [rounds n k L m l L' m']: from layer [L] in memory [m], rounds of forward(x), backward(x, d) and
    accumulate() for the samples [l = (x, d), ...] have led to [L'] in [m'] *)
Inductive rounds (n k : Z) (L : fc) m : list ((Z -> T) * (Z -> T)) -> fc -> mem T -> Prop :=
| rounds_start : rounds n k L m [] L m
| rounds_client l L' m1 m2 : rounds n k L m l L' m1 -> client (LFC L') m1 m2 -> rounds n k L m l L' m2
| rounds_sample l L' m1 x xv m2 m3 dt d full m4 L'' m5 : rounds n k L m l L' m1 ->
    argument m1 (LFC L') x n xv -> fc_forward L' x m1 = Ok (tt, m2) -> client (LFC L') m2 m3 ->
    argument m3 (LFC L') x n xv -> argument m3 (LFC L') dt k d -> fc_backward L' x dt full m3 = Ok (tt, m4) ->
    fc_accumulate L' m4 = Ok (L'', m5) ->
    rounds n k L m (l ++ [(xv, d)]) L'' m5.
(** gradients of one sample, and a sum over samples in order *)
Definition grad_b (a : activation) (n k : Z) s (p : (Z -> T) * (Z -> T)) (j : Z) : T := mul (act_dval a (affine n k s (fst p)) j) (snd p j).
Definition grad_w (a : activation) (n k : Z) s (p : (Z -> T) * (Z -> T)) (i j : Z) : T := mul (fst p i) (grad_b a n k s p j).
Definition sum_over {A} (f : A -> T) (l : list A) : T := fold_left (fun acc p => add acc (f p)) l zero.
Lemma sum_over_app A (f : A -> T) l p : sum_over f (l ++ [p]) = add (sum_over f l) (f p).
Proof. unfold sum_over. now rewrite fold_left_app. Qed.

Lemma client_layer m m' L s : layer_at m L s -> client L m m' -> layer_at m' L s.
Proof.
  intros [A B] C. split; [|exact B]. intros r t E. destruct (A r t E) as [[S (b & Eb & lv)] Hh].
  assert (Cb : nth_error m' b = nth_error m b). { apply C. exists r, t. split; auto. unfold block_of. now rewrite Eb. }
  split.
  - split; auto. exists b. split; auto. unfold live in *. now rewrite Cb.
  - intros i Hi. rewrite <- (Hh i Hi). rewrite Eb. cbn. unfold cell. now rewrite Cb.
Qed.

Definition history_state (a : activation) n k s (l : list ((Z -> T) * (Z -> T))) s' : Prop :=
  s' RB = s RB /\ s' (RW 0) = s (RW 0) /\
  (forall j, 0 <= j < k -> s' RGradBs j = sum_over (fun p => grad_b a n k s p j) l) /\
  (forall i j, 0 <= i < n -> 0 <= j < k -> s' RGradWs (i * k + j) = sum_over (fun p => grad_w a n k s p i j) l).
Lemma rounds_inv (L : fc) n k a m s l L' m' :
  fc_dims L n k -> f_act L = Some a -> (a = SoftMax -> 0 < k) -> layer_at m (LFC L) s ->
  (forall j, 0 <= j < k -> s RGradBs j = zero) -> (forall o, 0 <= o < n * k -> s RGradWs o = zero) ->
  rounds n k L m l L' m' -> exists s', L' = fc_set_acc L (match l with [] => f_acc L | _ => true end) /\ layer_at m' (LFC L) s' /\ history_state a n k s l s'.
Proof.
  intros D Ea Hs H Z1 Z2 R. induction R as [|l L' m1 m2 R (s' & E & A & B) C|l L' m1 x xv m2 m3 dt d full m4 L'' m5 R (s' & E & A & B) X E1 C X' Xd E2 E3].
  - exists s. split; [destruct L; reflexivity|]. split; [auto|]. split; [auto|]. split; [auto|]. split; [auto|].
    intros i j Hi Hj. apply Z2. nia.
  - exists s'. split; auto. split; auto. subst L'. eapply client_layer; [exact A|exact C].
  - subst L'. set (b := match l with [] => f_acc L | _ => true end) in *.
    assert (Db : fc_dims (fc_set_acc L b) n k) by exact D.
    destruct X as (Sx & Hx & Ho). destruct X' as (_ & Hx' & _). destruct Xd as (Sd & Hd & Hod).
    destruct (wp_elim _ _ _ _ (wp_fc_forward (fc_set_acc L b) n k Db a m1 s' x xv Ea Hs A Sx Hx Ho)) as ([] & m2' & E1' & A1 & _).
    rewrite E1 in E1'. injection E1' as <-.
    apply (client_layer _ m3) in A1; [|exact C].
    destruct (wp_elim _ _ _ _ (wp_fc_backward (fc_set_acc L b) n k Db a m3 _ x dt full xv d Ea A1 Sx Hx' Ho Hd Hod)) as ([] & m4' & E2' & A2 & _).
    rewrite E2 in E2'. injection E2' as <-.
    destruct (wp_elim _ _ _ _ (wp_fc_accumulate (fc_set_acc L b) n k Db m4 _ A2)) as (L3 & m5' & E3' & -> & A3 & _).
    rewrite E3 in E3'. injection E3' as -> <-.
    eexists. split; [destruct l; reflexivity|]. split; [exact A3|].
    destruct B as (B1 & B2 & B3 & B4).
    set (sf := fc_after_forward n k a s' xv) in *.
    assert (Ff : forall r, r <> RValue -> r <> RBuff -> sf r = s' r) by (intros; unfold sf, fc_after_forward; now rewrite !set_role_other).
    assert (Fu : sf RBuff = affine n k s xv).
    { unfold sf, fc_after_forward. rewrite set_role_other, set_role_same by discriminate. unfold affine, fc_pre. now rewrite B1, B2. }
    set (sb := fc_after_backward k a full sf xv d) in *.
    assert (Fb : forall r, r <> RGradB -> r <> RGradW 0 -> r <> RDelta -> sb r = sf r).
    { intros. unfold sb, fc_after_backward. cbv zeta. destruct full; now rewrite !set_role_other. }
    assert (FG : forall j, sb RGradB j = grad_b a n k s (xv, d) j).
    { intros. unfold sb, fc_after_backward. cbv zeta. unfold grad_b. cbn [fst snd]. rewrite <- Fu.
      destruct full; repeat rewrite set_role_other by discriminate; now rewrite set_role_same. }
    assert (FW : forall i j, 0 <= i < n -> 0 <= j < k -> sb (RGradW 0) (i * k + j) = grad_w a n k s (xv, d) i j).
    { intros i j Hi Hj. unfold sb, fc_after_backward. cbv zeta. unfold grad_w, grad_b. cbn [fst snd]. rewrite <- Fu.
      assert (EW : fc_gradW k a sf xv d (i * k + j) = mul (xv i) (mul (act_dval a (sf RBuff) j) (d j))).
      { unfold fc_gradW. rewrite Z.div_add_l, Z.div_small, Z.add_0_r by lia. now rewrite Z.add_comm, Z.mod_add, Z.mod_small by lia. }
      destruct full; repeat rewrite set_role_other by discriminate; now rewrite set_role_same. }
    unfold fc_after_accumulate. split; [|split; [|split]].
    + rewrite !set_role_other by discriminate. now rewrite Fb, Ff by discriminate.
    + rewrite !set_role_other by discriminate. now rewrite Fb, Ff by discriminate.
    + intros j Hj. rewrite set_role_other, set_role_same by discriminate. rewrite Fb, Ff by discriminate. rewrite sum_over_app, FG, B3; auto.
    + intros i j Hi Hj. rewrite set_role_same. rewrite Fb, Ff by discriminate. rewrite sum_over_app, FW, B4; auto.
Qed.
(** every call of the rounds succeeds *)
Theorem C53_rounds_never_fail (L : fc) n k a m s L0 m0 l L' m' x xv m2 :
  fc_dims L n k -> f_act L = Some a -> (a = SoftMax -> 0 < k) -> layer_at m (LFC L) s ->
  fc_reset L m = Ok (L0, m0) -> rounds n k L0 m0 l L' m' -> argument m' (LFC L') x n xv ->
  (exists m1, fc_forward L' x m' = Ok (tt, m1)) /\
  (fc_forward L' x m' = Ok (tt, m2) ->
   forall m3 dt d full, client (LFC L') m2 m3 -> argument m3 (LFC L') x n xv -> argument m3 (LFC L') dt k d ->
   exists m4 L'' m5, fc_backward L' x dt full m3 = Ok (tt, m4) /\ fc_accumulate L' m4 = Ok (L'', m5)).
Proof.
  intros D Ea Hs H E0 R (Sx & Hx & Ho).
  destruct (wp_elim _ _ _ _ (wp_fc_reset L m s H)) as (L0' & m0' & E0' & -> & A0 & _). rewrite E0 in E0'. injection E0' as -> <-.
  destruct (rounds_inv (fc_set_acc L false) n k a m0 _ l L' m' D Ea Hs A0 ltac:(reflexivity) ltac:(reflexivity) R) as (s' & -> & A & _).
  set (b := match l with [] => _ | _ => _ end) in *. clearbody b.
  assert (Db : fc_dims (fc_set_acc (fc_set_acc L false) b) n k) by exact D.
  destruct (wp_elim _ _ _ _ (wp_fc_forward _ n k Db a m' s' x xv Ea Hs A Sx Hx Ho)) as ([] & m1 & E1 & A1 & _).
  split; [eauto|]. intros E2. rewrite E1 in E2. injection E2 as <-. intros m3 dt d full C (_ & Hx3 & _) (Sd & Hd & Hod).
  apply (client_layer _ m3) in A1; [|exact C].
  destruct (wp_elim _ _ _ _ (wp_fc_backward _ n k Db a m3 _ x dt full xv d Ea A1 Sx Hx3 Ho Hd Hod)) as ([] & m4 & E4 & A4 & _).
  destruct (wp_elim _ _ _ _ (wp_fc_accumulate _ n k Db m4 _ A4)) as (L5 & m5 & E5 & _). eauto.
Qed.
(** After reset() and at least one round, [update(opt, alpha)] is the optimizer's update of B with the
    scaled sum of the bias gradients, then of W with the scaled sum of the weight gradients. *)
Theorem C53_update_gets_scaled_sum addr (L : fc) n k a m s L0 m0 l L' m' alpha :
  fc_dims L n k -> f_act L = Some a -> (a = SoftMax -> 0 < k) -> layer_at m (LFC L) s ->
  fc_reset L m = Ok (L0, m0) -> rounds n k L0 m0 l L' m' -> l <> [] ->
  let scale g := if eqb alpha one then g else mul g alpha in
  exists m1,
    holds m1 (t_data (f_B L)) k (s RB) /\ holds m1 (t_data (f_W L)) (n * k) (s (RW 0)) /\
    holds m1 (t_data (f_gradBs L)) k (fun j => scale (sum_over (fun p => grad_b a n k s p j) l)) /\
    holds2 m1 (t_data (f_gradWs L)) n k (fun i j => scale (sum_over (fun p => grad_w a n k s p i j) l)) /\
    only (fun b _ => block_at (LFC L) RGradBs b \/ block_at (LFC L) RGradWs b) m' m1 /\
    forall o, fc_update addr L' o alpha m' =
      (let* o1 := opt_update addr o (t_data (f_B L), k) (t_data (f_gradBs L), k) in
       opt_update addr o1 (t_data (f_W L), n * k) (t_data (f_gradWs L), n * k)) m1.
Proof.
  intros D Ea Hs H E0 R Hl scale.
  destruct (wp_elim _ _ _ _ (wp_fc_reset L m s H)) as (L0' & m0' & E0' & -> & A0 & _). rewrite E0 in E0'. injection E0' as -> <-.
  destruct (rounds_inv (fc_set_acc L false) n k a m0 _ l L' m' D Ea Hs A0 ltac:(reflexivity) ltac:(reflexivity) R) as (s' & -> & A & B1 & B2 & B3 & B4).
  replace (match l with [] => _ | _ => true end) with true by (destruct l; congruence).
  set (L2 := fc_set_acc (fc_set_acc L false) true) in *.
  assert (D2 : fc_dims L2 n k) by exact D. assert (A' : layer_at m' (LFC L2) s') by exact A.
  destruct (fcd L2 n k D2) as (Hn & Hk & SB & SV & SU & SG & SGs & MW & MG & MGs & SD & W1 & W2 & W3).
  destruct (fc_update_scaled L2 n k D2 addr alpha m' s' A') as (m1 & A1 & O & E).
  exists m1.
  split; [|split; [|split; [|split; [|split]]]].
  - pose proof (part_holds' _ _ _ RB _ _ A1 eq_refl SB) as P. unfold fc_scaled in P. rewrite !set_role_other in P by discriminate. rewrite B1 in P. exact P.
  - pose proof (part_holds' _ _ _ (RW 0) _ _ A1 eq_refl W1) as P. unfold fc_scaled in P. rewrite !set_role_other in P by discriminate. rewrite B2 in P. exact P.
  - pose proof (part_holds' _ _ _ RGradBs _ _ A1 eq_refl SGs) as P. eapply holds_ext; [|exact P]. intros j Hj.
    unfold fc_scaled. change (rGB L2) with RGradBs. change (rGW L2) with RGradWs. rewrite set_role_other, set_role_same by discriminate.
    unfold scaled. rewrite B3 by auto. reflexivity.
  - pose proof (part_holds' _ _ _ RGradWs _ _ A1 eq_refl W3) as P. intros i j Hi Hj. etransitivity; [exact (P (i * k + j)%Z ltac:(nia))|].
    unfold fc_scaled. change (rGB L2) with RGradBs. change (rGW L2) with RGradWs. rewrite set_role_same.
    unfold scaled. rewrite B4 by auto. reflexivity.
  - exact O.
  - exact E.
Qed.

(** *** C54.  A stochastic step: forward, backward, update with factor 1, by gradient descent. *)
Definition stochastic_step addr (L : fc) (o : opt T) (x dt : tensor) : M T (opt T) :=
  fc_forward L x ;;; fc_backward L x dt false ;;; fc_update addr L o one.
Lemma stochastic_run addr (L : fc) n k a m s x xv dt d o :
  eqb one one = true -> fc_dims L n k -> f_act L = Some a -> (a = SoftMax -> 0 < k) -> layer_at m (LFC L) s ->
  argument m (LFC L) x n xv -> argument m (LFC L) dt k d -> o_kind o = GradDescent ->
  exists m', stochastic_step addr L o x dt m = Ok (o, m') /\
    holds m' (t_data (f_B L)) k (fun j => sub (s RB j) (mul (if f_acc L then s RGradBs j else grad_b a n k s (xv, d) j) (o_lr o))) /\
    holds2 m' (t_data (f_W L)) n k (fun i j => sub (s (RW 0) (i * k + j)%Z) (mul (if f_acc L then s RGradWs (i * k + j)%Z else grad_w a n k s (xv, d) i j) (o_lr o))).
Proof.
  intros H1 D Ea Hs H X Xd Ho.
  destruct (fc_round L n k a m s x xv dt d false D Ea Hs H X Xd) as (m1 & m2 & s' & E1 & E2 & A & GB & GW & _ & _ & Fr & _).
  destruct (wp_elim _ _ _ _ (wp_fc_update_gd L n k D addr one m2 s' o A Ho)) as (o' & m3 & E3 & -> & A3 & _).
  exists m3. unfold stochastic_step. erewrite bind_eq by exact E1. erewrite bind_eq by exact E2. split; [exact E3|].
  destruct (fcd L n k D) as (Hn & Hk & SB & SV & SU & SG & SGs & MW & MG & MGs & SD & W1 & W2 & W3).
  split.
  - pose proof (part_holds' _ _ _ RB _ _ A3 eq_refl SB) as P. eapply holds_ext; [|exact P]. intros j Hj.
    unfold fc_after_gd. cbv zeta. rewrite set_role_other, set_role_same by discriminate. unfold scaled. rewrite H1.
    rewrite (Fr RB) by (cbn; intuition discriminate). f_equal. f_equal. unfold rGB. destruct (f_acc L).
    + now rewrite Fr by (cbn; intuition discriminate).
    + rewrite GB by auto. reflexivity.
  - pose proof (part_holds' _ _ _ (RW 0) _ _ A3 eq_refl W1) as P. intros i j Hi Hj. rewrite (P (i * k + j)%Z) by nia.
    unfold fc_after_gd. cbv zeta. rewrite set_role_same. unfold scaled. rewrite H1.
    rewrite (Fr (RW 0)) by (cbn; intuition discriminate). f_equal. f_equal. f_equal. f_equal. unfold rGW. destruct (f_acc L).
    + now rewrite Fr by (cbn; intuition discriminate).
    + rewrite GW by auto. rewrite GB by auto. reflexivity.
Qed.
(** before any batch training (no accumulate() since the last reset()) the sample's gradient is used *)
Theorem C54_stochastic_uses_sample_partial addr (L : fc) n k a m s x xv dt d o :
  eqb one one = true -> fc_dims L n k -> f_act L = Some a -> (a = SoftMax -> 0 < k) -> layer_at m (LFC L) s ->
  argument m (LFC L) x n xv -> argument m (LFC L) dt k d -> o_kind o = GradDescent -> f_acc L = false ->
  exists m', stochastic_step addr L o x dt m = Ok (o, m') /\
    holds m' (t_data (f_B L)) k (fun j => sub (s RB j) (mul (grad_b a n k s (xv, d) j) (o_lr o))) /\
    holds2 m' (t_data (f_W L)) n k (fun i j => sub (s (RW 0) (i * k + j)%Z) (mul (grad_w a n k s (xv, d) i j) (o_lr o))).
Proof.
  intros H1 D Ea Hs H X Xd Ho Hf. destruct (stochastic_run addr L n k a m s x xv dt d o H1 D Ea Hs H X Xd Ho) as (m' & E & A & B).
  rewrite Hf in A, B. eauto.
Qed.
End History.
(** After a batch (a reset and at least one round), a stochastic step moves the parameters by the
    batch's leftover sum whatever the sample: wrong wherever that differs from the sample's gradient. *)
Theorem C54_stochastic_uses_sample_refuted addr (L : fc) n k a (m : mem R) s L0 m0 l L' m' s' x xv dt d o :
  fc_dims L n k -> f_act L = Some a -> (a = SoftMax -> 0 < k) -> layer_at m (LFC L) s ->
  fc_reset L m = Ok (L0, m0) -> rounds n k L0 m0 l L' m' -> l <> [] -> layer_at m' (LFC L') s' ->
  argument m' (LFC L') x n xv -> argument m' (LFC L') dt k d -> o_kind o = GradDescent -> o_lr o <> 0%R ->
  exists m'', stochastic_step addr L' o x dt m' = Ok (o, m'') /\
    holds m'' (t_data (f_B L)) k (fun j => s' RB j - s' RGradBs j * o_lr o)%R /\
    forall j, 0 <= j < k -> s' RGradBs j <> grad_b a n k s' (xv, d) j ->
      elem m'' (t_data (f_B L)) j <> Some (Some (s' RB j - grad_b a n k s' (xv, d) j * o_lr o)%R).
Proof.
  intros D Ea Hs H E0 R Hl H' X Xd Ho Hlr.
  destruct (wp_elim _ _ _ _ (wp_fc_reset L m s H)) as (L0' & m0' & E0' & -> & A0 & _). rewrite E0 in E0'. injection E0' as -> <-.
  destruct (rounds_inv (fc_set_acc L false) n k a m0 _ l L' m' D Ea Hs A0 ltac:(reflexivity) ltac:(reflexivity) R) as (sx & -> & A & _).
  replace (match l with [] => _ | _ => true end) with true in * by (destruct l; congruence).
  destruct (stochastic_run addr (fc_set_acc (fc_set_acc L false) true) n k a m' s' x xv dt d o) as (m'' & E & P & _); auto.
  { cbn. unfold Reqb. destruct (Req_EM_T 1 1); congruence. }
  exists m''. split; [exact E|]. cbn [f_acc fc_set_acc] in P. split; [exact P|].
  intros j Hj Hne Q. cbn [f_B fc_set_acc] in P. rewrite (P j Hj) in Q. injection Q as Q. cbn [sub mul Num_R] in Q. apply Hne.
  apply (Rmult_eq_reg_r (o_lr o)); auto. unfold grad_b. cbn [fst snd mul Num_R]. lra.
Qed.

Module Examples.
Local Open Scope R_scope.
(** a layer with two inputs and one output in memory: blocks 0-8 its tensors, 9 an input, 10 a delta *)
Definition blk (l : list R) : option (list (option R)) := Some (map Some l).
Definition m0 : mem R :=
  [blk [1]; blk [2; 3]; blk [0]; blk [0]; blk [0]; blk [0; 0]; blk [0]; blk [0; 0]; blk [0; 0]; blk [5; 7]; blk [4]].
Definition tv (b : nat) (n : Z) : tensor := mk_tensor (Ptr b 0) (shape3 1 1 n).
Definition tm (b : nat) (h w : Z) : tensor := mk_tensor (Ptr b 0) (shape3 1 h w).
Definition L0 (a : activation) : fc :=
  mk_fc (shape3 1 1 2) (shape3 1 1 1) (tv 0 1) (tm 1 2 1) (Some a) (tv 2 1) (tv 3 1) (tv 4 1) (tm 5 2 1) (tv 6 1) (tm 7 2 1) (tv 8 2) false.
Definition s0 : contents R := fun r i =>
  match r with RB => 1 | RW _ => nth (Z.to_nat i) [2; 3] 0 | _ => 0 end.
Lemma L0_dims a : fc_dims (L0 a) 2 1.
Proof.
  unfold fc_dims. do 5 (split; [lia || reflexivity|]). split; [|split; [|reflexivity]]; intros t H; cbn in H;
    repeat destruct H as [<-|H]; try tauto; try reflexivity; unfold mat_is; cbn; repeat split; lia.
Qed.
Lemma L0_at a : layer_at m0 (LFC (L0 a)) s0.
Proof.
  split.
  - intros r t E. destruct r as [|[]| | | |[]| | | |]; cbn in E; try discriminate; injection E as <-;
    (split; [split; [reflexivity|]; eexists; split; [reflexivity|]; eexists; split; reflexivity|]);
    intros i Hi; change (t_size _) with 1%Z in Hi || change (t_size _) with 2%Z in Hi;
    (assert (i = 0 \/ i = 1)%Z as [-> | ->] by lia); try lia; reflexivity.
  - intros r r' t t' E E' Hne. destruct r as [|[]| | | |[]| | | |]; cbn in E; try discriminate; injection E as <-;
    destruct r' as [|[]| | | |[]| | | |]; cbn in E'; try discriminate; injection E' as <-; cbn; congruence.
Qed.
Lemma in_arg a : argument m0 (LFC (L0 a)) (tv 9 2) 2 (fun i => nth (Z.to_nat i) [5; 7] 0).
Proof.
  split; [reflexivity|]. split; [apply (holds_list m0 9 [5; 7] 0); reflexivity|].
  intros (r & t & E & Eb). destruct r as [|[]| | | |[]| | | |]; cbn in E; try discriminate; injection E as <-; discriminate Eb.
Qed.
Lemma d_arg a : argument m0 (LFC (L0 a)) (tv 10 1) 1 (fun i => nth (Z.to_nat i) [4] 0).
Proof.
  split; [reflexivity|]. split; [apply (holds_list m0 10 [4] 0); reflexivity|].
  intros (r & t & E & Eb). destruct r as [|[]| | | |[]| | | |]; cbn in E; try discriminate; injection E as <-; discriminate Eb.
Qed.
Example C51_applies : exists m' s', fc_forward (L0 (Scalar Tanh)) (tv 9 2) m0 = Ok (tt, m') /\ layer_at m' (LFC (L0 (Scalar Tanh))) s' /\
  (s' RValue 0%Z) = scalar_f Tanh (0 + 5 * 2 + 7 * 3 + 1).
Proof.
  destruct (C51_forward_value (L0 (Scalar Tanh)) 2 1 (Scalar Tanh) m0 s0 (tv 9 2) _ (L0_dims _) eq_refl ltac:(discriminate) (L0_at _) (in_arg _)) as (m' & s' & E & A & V & _).
  exists m', s'. split; [auto|]. split; [auto|]. rewrite V by lia. reflexivity.
Qed.
(** relu(5*2+7*3+1) is away from the corner *)
Example C52_applies : exists m1 m2 s', fc_forward (L0 (Scalar ReLU)) (tv 9 2) m0 = Ok (tt, m1) /\
  fc_backward (L0 (Scalar ReLU)) (tv 9 2) (tv 10 1) true m1 = Ok (tt, m2) /\ layer_at m2 (LFC (L0 (Scalar ReLU))) s' /\
  partial (fun W => weighted 1 (fun i => nth (Z.to_nat i) [4] 0) (dense ReLU 2 1 (s0 RB) W (fun i => nth (Z.to_nat i) [5; 7] 0))) (s0 (RW 0)) 1 (s' (RGradW 0) 1%Z).
Proof.
  destruct (C52_backward_gradient_partial (L0 (Scalar ReLU)) 2 1 ReLU m0 s0 (tv 9 2) _ (tv 10 1) _ true ltac:(discriminate) (L0_dims _) eq_refl (L0_at _) (in_arg _) (d_arg _)) as (m1 & m2 & s' & E1 & E2 & A & _ & GW & _).
  { intros j Hj. assert (j = 0%Z) as -> by lia. cbn [corner]. change (0 + 5 * 2 + 7 * 3 + 1 <> 0). lra. }
  exists m1, m2, s'. do 3 (split; [assumption|]). apply GW. lia.
Qed.
Example C52_softmax_applies : exists m1 m2 s', fc_forward (L0 SoftMax) (tv 9 2) m0 = Ok (tt, m1) /\
  fc_backward (L0 SoftMax) (tv 9 2) (tv 10 1) true m1 = Ok (tt, m2) /\ layer_at m2 (LFC (L0 SoftMax)) s' /\
  ~ partial (fun B => weighted 1 (fun i => nth (Z.to_nat i) [4] 0) (std_softmax 1 (dense_pre 2 1 B (s0 (RW 0)) (fun i => nth (Z.to_nat i) [5; 7] 0)))) (s0 RB) 0 (s' RGradB 0%Z).
Proof.
  apply (C52_softmax_gradient_refuted (L0 SoftMax) 2 m0 s0); auto using L0_dims, L0_at, in_arg, d_arg. change (4 <> 0). lra.
Qed.
(** one round after a reset, then the update *)
Lemma history_exists : exists L1 m1 L2 m2, fc_reset (L0 (Scalar Identity)) m0 = Ok (L1, m1) /\
  rounds 2 1 L1 m1 [(fun i => nth (Z.to_nat i) [5; 7] 0, fun i => nth (Z.to_nat i) [4] 0)] L2 m2.
Proof.
  set (L := L0 (Scalar Identity)).
  destruct (wp_elim _ _ _ _ (wp_fc_reset L m0 s0 (L0_at _))) as (L1 & m1 & E1 & -> & A1 & O1).
  assert (X : argument m1 (LFC L) (tv 9 2) 2 (fun i => nth (Z.to_nat i) [5; 7] 0)).
  { destruct (in_arg (Scalar Identity)) as (S & Hh & Ho). split; auto. split; auto.
    eapply (outside_holds _ _ (LFC L)); [exact O1| |exact Ho|exact Hh]. intros b _ [Q|Q]; eapply block_at_in; exact Q. }
  destruct (C51_forward_value L 2 1 (Scalar Identity) m1 _ (tv 9 2) _ (L0_dims _) eq_refl ltac:(discriminate) A1 X) as (m2 & s2 & E2 & A2 & _ & _ & O2).
  assert (OO : forall x n f, argument m0 (LFC L) x n f -> argument m2 (LFC L) x n f).
  { intros x n f (S & Hh & Ho). split; auto. split; auto.
    eapply (outside_holds _ _ (LFC L)); [exact O2| |exact Ho|].
    - intros b _ [Q|Q]; eapply block_at_in; exact Q.
    - eapply (outside_holds _ _ (LFC L)); [exact O1| |exact Ho|exact Hh]. intros b _ [Q|Q]; eapply block_at_in; exact Q. }
  destruct (C53_rounds_never_fail L 2 1 (Scalar Identity) m0 s0 (fc_set_acc L false) m1 [] (fc_set_acc L false) m1 (tv 9 2) _ m2
    (L0_dims _) eq_refl ltac:(discriminate) (L0_at _) E1 (rounds_start _ _ _ _) X) as [_ C].
  destruct (C E2 m2 (tv 10 1) (fun i => nth (Z.to_nat i) [4] 0) true) as (m4 & L5 & m5 & E4 & E5).
  { intros b _. reflexivity. } { apply OO, in_arg. } { apply OO, d_arg. }
  exists (fc_set_acc L false), m1, L5, m5. split; [exact E1|].
  eapply (rounds_sample 2 1 (fc_set_acc L false) m1 []); [constructor|exact X|exact E2| | | |exact E4|exact E5].
  - intros b _. reflexivity.
  - apply OO, in_arg.
  - apply OO, d_arg.
Qed.
End Examples.

Print Assumptions C51_construction.
Print Assumptions C51_forward_value.
Print Assumptions C51_forward_repeatable.
Print Assumptions C51_raw_forward_value.
Print Assumptions C51_raw_and_train_agree.
Print Assumptions C52_backward_gradient_partial.
Print Assumptions C52_softmax_gradient_refuted.
Print Assumptions C52_gelu_gradient_refuted.
Print Assumptions C53_rounds_never_fail.
Print Assumptions C53_update_gets_scaled_sum.
Print Assumptions C54_stochastic_uses_sample_partial.
Print Assumptions C54_stochastic_uses_sample_refuted.

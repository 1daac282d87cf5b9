(** * Property C126: Adam in floating-point arithmetic, whatever the size of the gradients *)
From Coq Require Import ZArith QArith Reals Lra Lia Psatz Bool List.
From Flocq Require Import Core BinarySingleNaN.
From Verif Require Import Mem Scalar MemSpec MemLemmas Lique LiqueSpec LiqueProofs LiqueProofs2 Linear LinearProofs Functions FunctionSpec FunctionProofs
  Skel Bufs Optimizer OptimizerSpec OptimizerProofs OptimizerHist Layer LayerSpec FCProofs Cells ConvSpec ConvProofs ConvProofs2 PoolSpec PoolProofs PropFC PropConv PropPool
  Net NetPlan NetProofs NetBack PropNet Checker PropChecker Schedule PropTraining Descent PropDescent OptTrain OptTrainSpec PropOptTrain SessionSpec Session PropSession
  Float FloatSpec FloatLemmas RSum FloatError FloatLib FloatAct FloatAcc FloatLoss FloatOpt PropOptimizers PropFloatOpt FloatTrainSpec FloatTrain FloatSteps Init InitSpec PropProgram PropFloatTrain FloatAdam.
From Verif Require PropFloatLayers.
Import ListNotations.
Local Open Scope R_scope.

Section Props.
Context {prec emax : Z} {Hp : Prec_gt_0 prec} {He : Prec_lt_emax prec emax} (P24 : (24 <= prec)%Z) (EM : (5 * prec + 8 <= emax)%Z).
Context (lib : libm prec emax).
Notation fl := (fl prec emax).
Notation u := (uro prec).
Notation eta := (eta prec emax).
Notation small := (small (prec := prec) (emax := emax)).
#[local] Instance NF : Num fl := Num_fl prec emax lib.

(** A new Adam optimizer whose rates satisfy beta1^2 < th * beta2 (with a margin of a few rounding
    errors) for some th below 1: old gradients are forgotten faster than their squares.
    [rho] = sqrt((1 - th) (1 - beta2)). *)
Definition paced_adam (lr0 : fl) (o : opt fl) (rho : R) : Prop :=
  exists b1 b2 th, fin b1 /\ 0 <= B2R b1 /\ fin b2 /\ 0 < B2R b2 < 1 /\ 0 < th <= 63 / 64 /\
    (B2R b1) ^ 2 * (1 + 16 * u) <= th * B2R b2 /\ o = adam lr0 b1 b2 /\ rho = sqrt ((1 - th) * (1 - B2R b2)).
Lemma paced_rates lr0 o rho : paced_adam lr0 o rho -> exists b1 b2 th, rates b1 b2 th /\ o = adam lr0 b1 b2 /\ rho = reach b2 th.
Proof. intros (b1 & b2 & th & H). exists b1, b2, th. unfold rates, reach. tauto. Qed.
Lemma paced_rho lr0 o rho : paced_adam lr0 o rho -> 0 < rho <= 1 /\ / rho <= bpow radix2 prec.
Proof. intros H. destruct (paced_rates _ _ _ H) as (b1 & b2 & th & R & _ & ->). now apply (reach_ok P24 EM b1). Qed.

(** the invariant of one element, and its update *)
Definition adam_ok (b : Z) (b1 b2 : fl) (th : R) (x : @est fl) : Prop := small (b + 1) (e_v x) /\ nn (e_s x) /\ linked b1 b2 th (e_v x) (e_s x).
Definition unit2 (t1 t2 : fl) : Prop := (fin t1 /\ 0 <= B2R t1 <= 1) /\ (fin t2 /\ 0 <= B2R t2 <= 1).
Lemma adam_start b b1 b2 th w : (0 <= b)%Z -> rates b1 b2 th -> adam_ok b b1 b2 th (mk_est w (B754_zero false) (B754_zero false)).
Proof.
  intros Hb (_ & (_ & B2) & Th & _). pose proof (u24 (prec := prec) P24). split; [apply small_zero|]. split; [split; [reflexivity|cbn; lra]|]. right. split; [reflexivity|]. cbn [e_v e_s B2R]. rewrite Rplus_0_l.
  replace (0 ^ 2) with 0 by ring. apply Rmult_le_pos; [|apply bpow_ge_0]. unfold scale. apply Rmult_le_pos; [apply pow2_ge_0|]. left. apply Rdiv_lt_0_compat; [lra|]. apply Rmult_lt_0_compat; lra.
Qed.
Lemma adam_next b1 b2 th lr0 t1 t2 : rates b1 b2 th -> unit2 t1 t2 -> unit2 (next_t1 (o_kind (adam lr0 b1 b2)) t1) (next_t2 (o_kind (adam lr0 b1 b2)) t2).
Proof.
  intros R [[F1 H1] [F2 H2]]. cbn [o_kind adam opt_new next_t1 next_t2]. cbn [mul NF Num_fl]. pose proof (rates_b1 P24 b1 b2 th R) as B1. destruct R as ((Fb1 & _) & (Fb2 & B2) & _).
  destruct (shrink t1 b1 F1 H1 Fb1 ltac:(lra)) as [A1 A2]. destruct (shrink t2 b2 F2 H2 Fb2 ltac:(lra)) as [A3 A4]. repeat split; auto; lra.
Qed.
Lemma adam_update a b b1 b2 th lr0 (x : @est fl) lr t1 t2 g : (0 <= b)%Z -> (b + 1 < emax)%Z -> (-90 <= a)%Z -> (a + 7 < emax)%Z -> rates b1 b2 th -> unit2 t1 t2 -> adam_ok b b1 b2 th x -> small a lr -> small b g ->
  let x' := elem_step (o_kind (adam lr0 b1 b2)) lr (next_t1 (o_kind (adam lr0 b1 b2)) t1) (next_t2 (o_kind (adam lr0 b1 b2)) t2) x g in
  adam_ok b b1 b2 th x' /\
  exists c, e_w x' = Bminus mode_NE (e_w x) c /\ num c /\ (fin c -> Rabs (B2R c) * reach b2 th <= (1 + 20 * u) * Rabs (B2R lr) + 3 * eta) /\
    (forall r, (0 <= r)%Z -> (a + r + 1 < emax)%Z -> / reach b2 th <= bpow radix2 r -> small (a + r + 1) c) /\
    (e_s x' = B754_infinity false -> is0 c).
Proof.
  intros Hb Hb1 Ha Ha7 R [T1 T2] (Sv & Ns & Lk) Sl Sg. destruct x as [w v s]. cbn [e_v e_s e_w] in *.
  destruct (adam_elem P24 EM lib a b b1 b2 th w v s lr t1 t2 g Hb Hb1 Ha Ha7 R T1 T2 Sv Ns Lk Sl Sg) as (Q1 & Q2 & Q3 & Q4). cbv zeta. split; [exact (conj Q1 (conj Q2 Q3))|exact Q4].
Qed.

(** ** any history of updates *)
Section Histories.
Context {Nm : Type} `{NI : Names Nm} (addr : ptr -> Z) (P : Nm -> ptr) (N : Nm -> Z).
Lemma adam_history (a b : Z) lr0 b1 b2 th m0 (w : Nm -> Z -> fl) (okW : fl -> Prop) cs lr o m :
  (0 <= b)%Z -> (b + 1 < emax)%Z -> (-90 <= a)%Z -> (a + 7 < emax)%Z -> rates b1 b2 th ->
  (forall w c, okW w -> (forall r, (0 <= r)%Z -> (a + r + 1 < emax)%Z -> / reach b2 th <= bpow radix2 r -> small (a + r + 1) c) -> okW (Bminus mode_NE w c)) ->
  distinct_tensors addr P N -> (forall k, holds m0 (P k) (N k) (w k)) -> (forall k j, (0 <= j < N k)%Z -> okW (w k j)) ->
  history addr P N lr0 (adam lr0 b1 b2) m0 cs lr o m -> all_calls N (at_most a) (at_most b) cs ->
  exists X, OptimizerProofs.inv addr P N o m X /\ o_kind o = o_kind (adam lr0 b1 b2) /\ o_lr o = lr /\ unit2 (o_t1 o) (o_t2 o) /\ forall k j, (0 <= j < N k)%Z -> okW (e_w (X k j)) /\ adam_ok b b1 b2 th (X k j).
Proof.
  intros Hb Hb1 Ha Ha7 R HW Hd Hw H0 H Hc. pose proof (fin_one (prec := prec) (emax := emax)) as F1. pose proof (val_one (prec := prec) (emax := emax)) as V1.
  apply (history_ok lib addr P N (fun _ _ x => okW (e_w x) /\ adam_ok b b1 b2 th x) unit2 (at_most a) (at_most b) lr0 (adam lr0 b1 b2) m0 w cs lr o m); auto.
  - intros k j x t1 t2 lr' g [Hx Hv] Ht Hl Hg. destruct (adam_update a b b1 b2 th lr0 x lr' t1 t2 g Hb Hb1 Ha Ha7 R Ht Hv Hl Hg) as (Q & c & E & _ & _ & Q2 & _). split; [|exact Q]. refine (eq_ind_r okW _ E). now apply HW.
  - intros t1 t2 Ht. now apply (adam_next b1 b2 th lr0).
  - repeat split.
  - intros k j Hj. split; [now apply H0|]. now apply adam_start.
  - cbn [one NF Num_fl]. repeat split; auto; cbn; lra.
Qed.

(** Gradients of any size that can be doubled without overflow: the parameters stay finite. *)
Theorem C126_any_gradient_stays_finite (a b r J : Z) lr0 o0 rho m0 (w : Nm -> Z -> fl) cs lr o m :
  (-90 <= a)%Z -> (0 <= b)%Z -> (b + 1 < emax)%Z -> (0 <= r)%Z -> (0 <= J)%Z -> (a + r + prec + 2 <= J < emax)%Z ->
  distinct_tensors addr P N -> paced_adam lr0 o0 rho -> / rho <= bpow radix2 r -> (forall k, holds m0 (P k) (N k) (w k)) ->
  (forall k j, (0 <= j < N k)%Z -> at_most J (w k j)) ->
  history addr P N lr0 o0 m0 cs lr o m -> all_calls N (at_most a) (at_most b) cs ->
  forall k, exists v, holds m (P k) (N k) v /\ forall j, (0 <= j < N k)%Z -> at_most J (v j).
Proof.
  intros Ha Hb Hb1 Hr J0 HJ Hd Ho Hrho Hw H0 H Hc k. destruct (paced_rates _ _ _ Ho) as (b1 & b2 & th & R & -> & ->).
  destruct (adam_history a b lr0 b1 b2 th m0 w (at_most J) cs lr o m) as (X & (I & _) & _ & _ & _ & HX); auto; try lia.
  - intros w' c Sw Sc. apply (acc_s' P24 EM J (a + r + 1)); try lia; [exact Sw|]. apply Sc; auto; lia.
  - exists (fun j => e_w (X k j)). split; [apply I|]. intros j Hj. exact (proj1 (HX k j Hj)).
Qed.
(** Every update moves a finite parameter by at most about learning rate / rho, and never to NaN. *)
Theorem C126_step_bound (a b : Z) lr0 o0 rho m0 (w : Nm -> Z -> fl) cs lr o m k gp g o' m' :
  (-90 <= a)%Z -> (a + 7 < emax)%Z -> (0 <= b)%Z -> (b + 1 < emax)%Z ->
  distinct_tensors addr P N -> paced_adam lr0 o0 rho -> (forall k, holds m0 (P k) (N k) (w k)) ->
  history addr P N lr0 o0 m0 cs lr o m -> all_calls N (at_most a) (at_most b) cs -> at_most a lr ->
  holds m gp (N k) g -> (forall j, (0 <= j < N k)%Z -> at_most b (g j)) -> separate_gradient addr P N o gp (N k) ->
  opt_update addr o (P k, N k) (gp, N k) m = Ok (o', m') ->
  forall j v, (0 <= j < N k)%Z -> elem m (P k) j = Some (Some v) -> fin v ->
  exists v', elem m' (P k) j = Some (Some v') /\ num v' /\
    (fin v' -> Rabs (B2R v' - B2R v) <= ((1 + 22 * u) * Rabs (B2R lr) + 4 * eta) / rho + u * Rabs (B2R v)).
Proof.
  intros Ha Ha7 Hb Hb1 Hd Ho Hw H Hc Hl Hg Fg Hs E j v Hj Ev Fv. pose proof (paced_rho _ _ _ Ho) as [Rh _]. destruct (paced_rates _ _ _ Ho) as (b1 & b2 & th & R & -> & Er).
  destruct (adam_history a b lr0 b1 b2 th m0 w (fun _ => True) cs lr o m Hb Hb1 Ha Ha7 R) as (X & I & Ek & El & Tt & HX); auto.
  pose proof (PropFloatOpt.update_step lib addr P N o m X k gp g o' m' Hd I Hg Hs E j Hj) as Ev'. eexists. split; [exact Ev'|]. rewrite Ek, El.
  assert (W : e_w (X k j) = v) by (destruct I as [I _]; pose proof (I k j Hj) as Q; congruence).
  destruct (adam_update a b b1 b2 th lr0 (X k j) lr (o_t1 o) (o_t2 o) (g j) Hb Hb1 Ha Ha7 R Tt (proj2 (HX k j Hj)) Hl (Fg j Hj)) as (_ & c & Ec & Nc & Bc & _). rewrite W in Ec. rewrite <- Er in Bc.
  refine (eq_ind_r (fun z => num z /\ (fin z -> Rabs (B2R z - B2R v) <= ((1 + 22 * u) * Rabs (B2R lr) + 4 * eta) / rho + u * Rabs (B2R v))) _ Ec). split.
  - now apply sub_num.
  - intros F. destruct (sub_fin_inv _ _ F) as (_ & Fc & Es). specialize (Bc Fc). rewrite Es. destruct (rnd_minus_err (prec := prec) (emax := emax) (B2R v) (B2R c)) as (d & D1 & ->); [apply fmt_B2R|apply fmt_B2R|].
    replace ((B2R v - B2R c) * (1 + d) - B2R v) with (B2R v * d + - (B2R c * (1 + d))) by ring. pose proof (u_pos (prec := prec)) as U0. pose proof (u_small P24) as U1. pose proof (eta_pos (prec := prec) (emax := emax)) as T0.
    eapply Rle_trans; [apply Rabs_triang|]. rewrite Rabs_Ropp, !Rabs_mult. set (C := Rabs (B2R c)) in *. set (V := Rabs (B2R v)). set (L := Rabs (B2R lr)) in *.
    assert (V0 : 0 <= V) by apply Rabs_pos. assert (C0 : 0 <= C) by apply Rabs_pos. assert (L0 : 0 <= L) by apply Rabs_pos.
    assert (D : Rabs (1 + d) <= 1 + u) by (eapply Rle_trans; [apply Rabs_triang|]; rewrite Rabs_R1; lra).
    assert (A1 : V * Rabs d <= u * V) by (rewrite Rmult_comm; apply Rmult_le_compat_r; lra).
    assert (A2 : C * Rabs (1 + d) <= ((1 + 22 * u) * L + 4 * eta) / rho).
    { apply Rmult_le_reg_r with rho; [lra|]. replace (((1 + 22 * u) * L + 4 * eta) / rho * rho) with ((1 + 22 * u) * L + 4 * eta) by (field; lra).
      apply Rle_trans with (C * rho * (1 + u)). { replace (C * Rabs (1 + d) * rho) with (C * rho * Rabs (1 + d)) by ring. apply Rmult_le_compat_l; [apply Rmult_le_pos; lra|exact D]. }
      apply Rle_trans with (((1 + 20 * u) * L + 3 * eta) * (1 + u)); [apply Rmult_le_compat_r; lra|]. assert (u * u * L <= / 64 * u * L) by (apply Rmult_le_compat_r; [lra|nra]). nra. }
    lra.
Qed.
End Histories.
End Props.

(** ** overflowing squares *)
Section Frozen.
Context {prec emax : Z} {Hp : Prec_gt_0 prec} {He : Prec_lt_emax prec emax} (P24 : (24 <= prec)%Z) (EM : (5 * prec + 8 <= emax)%Z).
Context (lib : libm prec emax).
Notation fl := (fl prec emax).
Notation small := (small (prec := prec) (emax := emax)).
#[local] Instance NF1 : Num fl := Num_fl prec emax lib.
Context {Nm : Type} `{NI : Names Nm} (addr : ptr -> Z) (P : Nm -> ptr) (N : Nm -> Z).
Lemma inf_sum (y : fl) : nn y -> Bplus mode_NE (B754_infinity false) y = B754_infinity false.
Proof. intros Hy. destruct (nn_cases y Hy) as [->|[F _]]; [reflexivity|]. destruct y; try discriminate F; reflexivity. Qed.
(** the average of the squares after an update *)
Lemma adam_square b1 b2 lr0 lr t1 t2 (x : @est fl) g : e_s (elem_step (o_kind (adam lr0 b1 b2)) lr t1 t2 x g) = Bplus mode_NE (Bmult mode_NE (e_s x) b2) (Bmult mode_NE (Bmult mode_NE g g) (Bminus mode_NE Bone b2)).
Proof. destruct x as [w v s]. reflexivity. Qed.
Lemma square_inf b1 b2 lr0 lr t1 t2 (x : @est fl) g : fin b2 -> 0 < B2R b2 < 1 -> nn (e_s x) -> fin g -> e_s x = B754_infinity false \/ overflows (lr, g) ->
  e_s (elem_step (o_kind (adam lr0 b1 b2)) lr t1 t2 x g) = B754_infinity false.
Proof.
  intros Fb Hb Nx Fg H. rewrite adam_square. assert (Hb' : 0 <= B2R b2 < 1) by lra. destruct (rbeta_ok P24 EM b2 Fb Hb') as (Fr & [R1 R2] & _). pose proof (bpow_gt_0 radix2 (- prec)) as B0. destruct H as [E|H].
  - rewrite E. destruct (pos_sign b2 Fb ltac:(lra)) as (mb & eb & Bb & Eb). rewrite Eb at 1. cbn [Bmult xorb]. apply inf_sum. refine (proj1 (nn_mul _ _ (nn_square g Fg) Fr _)). lra.
  - unfold overflows in H. cbn [snd] in H. rewrite (mul_over g g Fg Fg H). destruct (pos_sign _ Fr ltac:(lra)) as (mb & eb & Bb & Eb). rewrite Eb. cbn [Bmult xorb]. apply add_inf. exact (proj1 (nn_mul _ b2 Nx Fb (proj1 Hb))).
Qed.
Lemma square_nn b1 b2 lr0 lr t1 t2 (x : @est fl) g : fin b2 -> 0 < B2R b2 < 1 -> nn (e_s x) -> fin g -> nn (e_s (elem_step (o_kind (adam lr0 b1 b2)) lr t1 t2 x g)).
Proof. intros Fb Hb Nx Fg. rewrite adam_square. apply (rms_nn P24 EM); auto; lra. Qed.
Lemma frozen_square b1 b2 lr0 k j cs : fin b2 -> 0 < B2R b2 < 1 -> (0 <= j < N k)%Z -> all_calls N fin fin cs ->
  forall X t1 t2, nn (e_s (X k j)) -> e_s (X k j) = B754_infinity false \/ Exists overflows (own_calls k j cs) ->
  let '(X', _, _) := hrun (o_kind (adam lr0 b1 b2)) (X, t1, t2) cs in e_s (X' k j) = B754_infinity false.
Proof.
  intros Fb Hb Hj. induction cs as [|c cs IH]; intros Hc X t1 t2 Nx Hi.
  - cbn. destruct Hi as [Hi|Hi]; [exact Hi|inversion Hi].
  - apply Forall_cons_iff in Hc. destruct Hc as [[Hl Hg] Hc]. cbn [hrun fold_left hstep]. change (fold_left (hstep ?kd) cs ?x) with (hrun kd x cs). unfold own_calls in Hi. cbn [filter] in Hi. apply IH; [exact Hc| |].
    + unfold upd_state. destruct (same_spec k (c_tensor c)) as [->|]; [|exact Nx]. apply square_nn; auto.
    + unfold upd_state. destruct (same_spec (c_tensor c) k) as [E|E]; destruct (same_spec k (c_tensor c)) as [E'|E']; try congruence.
      * cbn [map] in Hi. subst k. destruct Hi as [Hi|Hi]; [left; apply square_inf; auto|]. inversion Hi as [? ? Q|? ? Q]; subst; [left; apply square_inf; auto|now right].
      * exact Hi.
Qed.
(** Once the square of a gradient has overflowed, updates leave the component as it is. *)
Theorem C126_overflow_freezes (a b : Z) lr0 o0 rho m0 (w : Nm -> Z -> fl) cs lr o m k gp g o' m' :
  (-90 <= a)%Z -> (a + 7 < emax)%Z -> (0 <= b)%Z -> (b + 1 < emax)%Z ->
  distinct_tensors addr P N -> paced_adam lib lr0 o0 rho -> (forall k, holds m0 (P k) (N k) (w k)) ->
  history addr P N lr0 o0 m0 cs lr o m -> all_calls N (at_most a) (at_most b) cs -> at_most a lr ->
  holds m gp (N k) g -> (forall j, (0 <= j < N k)%Z -> at_most b (g j)) -> separate_gradient addr P N o gp (N k) ->
  opt_update addr o (P k, N k) (gp, N k) m = Ok (o', m') ->
  forall j v, (0 <= j < N k)%Z -> elem m (P k) j = Some (Some v) -> fin v ->
  Exists overflows (own_calls k j cs) ->
  exists v', elem m' (P k) j = Some (Some v') /\ fin v' /\ B2R v' = B2R v.
Proof.
  intros Ha Ha7 Hb Hb1 Hd Ho Hw H Hc Hl Hg Fg Hs E j v Hj Ev Fv Hov. destruct (paced_rates lib _ _ _ Ho) as (b1 & b2 & th & R & -> & Er). pose proof R as (_ & (Fb2 & Hb2) & _).
  assert (Hc' : all_calls N fin fin cs). { eapply Forall_impl; [|exact Hc]. intros c [A B]. split; [apply A|]. intros i Hi. apply (B i Hi). }
  pose proof (fin_one (prec := prec) (emax := emax)) as F1. pose proof (val_one (prec := prec) (emax := emax)) as V1.
  pose proof (history_inv addr P N lr0 (adam lr0 b1 b2) m0 w cs lr o m Hd ltac:(repeat split) Hw H) as HI. unfold st0 in HI.
  pose proof (frozen_square b1 b2 lr0 k j cs Fb2 Hb2 Hj Hc' (fun k j => mk_est (w k j) zero zero) one one) as HF.
  pose proof (hrun_ok lib N (fun _ _ x => adam_ok b b1 b2 th x) unit2 (at_most a) (at_most b) (o_kind (adam lr0 b1 b2))) as HX.
  specialize (HX ltac:(intros k' j' x t1 t2 lr' g' Hx Ht Hl' Hg'; exact (proj1 (adam_update P24 EM lib a b b1 b2 th lr0 x lr' t1 t2 g' Hb Hb1 Ha Ha7 R Ht Hx Hl' Hg')))).
  specialize (HX ltac:(intros t1 t2 Ht; exact (adam_next P24 lib b1 b2 th lr0 t1 t2 R Ht)) cs (fun k j => mk_est (w k j) zero zero) one one Hc).
  specialize (HX ltac:(intros k' j' _; now apply (adam_start P24)) ltac:(cbn [one NF1 Num_fl]; repeat split; auto; cbn; lra)).
  change (PropFloatOpt.NF lib) with NF1 in HX. unfold NF1 in *.
  destruct (hrun _ _ _) as [[X t1] t2]. destruct HI as (I & Ek & E1 & E2 & El). destruct HX as [HX Tt]. specialize (HF ltac:(split; [reflexivity|cbn; lra]) (or_intror Hov)). rewrite <- E1, <- E2 in Tt.
  pose proof (PropFloatOpt.update_step lib addr P N o m X k gp g o' m' Hd I Hg Hs E j Hj) as Ev'. eexists. split; [exact Ev'|]. rewrite Ek, El.
  assert (W : e_w (X k j) = v) by (destruct I as [I _]; pose proof (I k j Hj) as Q; congruence).
  destruct (adam_update P24 EM lib a b b1 b2 th lr0 (X k j) lr (o_t1 o) (o_t2 o) (g j) Hb Hb1 Ha Ha7 R Tt (HX k j Hj) Hl (Fg j Hj)) as (_ & c & Ec & _ & _ & _ & Z). rewrite W in Ec.
  refine (eq_ind_r (fun z => fin z /\ B2R z = B2R v) _ Ec).
  destruct (Z (square_inf b1 b2 lr0 lr _ _ (X k j) (g j) Fb2 Hb2 (proj1 (proj2 (HX k j Hj))) (proj1 (Fg j Hj)) (or_introl HF))) as [Fc Zc].
  destruct (val_sub v c Fv Fc) as [Nv Vv]. rewrite Zc, Rminus_0_r, rnd_id in Vv by apply fmt_B2R. pose proof (big_lt v Fv) as B. rewrite clamp_id in Vv by lra.
  assert (F : fin (Bminus mode_NE v c)) by (apply fin_iff; split; [exact Nv|rewrite Vv; apply Rabs_def1; lra]). split; [exact F|]. now rewrite fin_val in Vv.
Qed.
End Frozen.

(** ** training and whole programs *)
Section Train.
Context {prec emax : Z} {Hp : Prec_gt_0 prec} {He : Prec_lt_emax prec emax} (P24 : (24 <= prec)%Z) (EM : (5 * prec + 8 <= emax)%Z).
Context (lib : libm prec emax) (LO : libm_ok lib).
Notation fl := (fl prec emax).
Notation small := (small (prec := prec) (emax := emax)).
Notation grow := (grow prec).
#[local] Instance NF2 : Num fl := Num_fl prec emax lib.
#[local] Existing Instance names_pname.
Notation none := (fun (_ : nat) (_ : role) (_ : Z) => (zero, zero) : fl * fl).
Lemma f2_right {A C} (P : A -> C -> Prop) (Q : C -> Prop) l : forall l', Forall2 P l l' -> Forall Q l' -> Forall2 (fun x y => P x y /\ Q y) l l'.
Proof. induction l as [|x l IH]; intros l' H K; inversion H; subst; inversion K; subst; constructor; auto. Qed.

Theorem C126_training_stays_finite (addr : ptr -> Z) (T : trainer) lo idata odata xs ys m l o lr rho cs (a r t B e : Z) Js :
  ready m l T lo idata odata xs ys -> idata <> [] -> (Z.of_nat (length idata) < 2 ^ 64)%Z ->
  paced_adam lib lr o rho -> upto a lr -> / rho <= bpow radix2 r -> (-90 <= a)%Z -> (0 <= r)%Z ->
  optimizer_for addr m l T idata odata o none -> no_sums l ->
  (0 <= t)%Z -> (0 <= e)%Z -> (0 < B)%Z -> data_upto idata (t_size (tr_delta T)) xs ys e t ->
  params_upto m l Js -> Forall (fun J => (a + r + prec + 2 <= J < emax)%Z) Js -> headroom prec emax Js lo t B e (plans l) ->
  Forall (fun b => (b + 1 < emax)%Z) (grad_exps prec Js lo t B e (plans l)) ->
  Forall (call_ok addr m l T o) cs -> Forall (fun c => (round_size (Z.of_nat (length idata)) c <= B)%Z) cs ->
  exists l' o' m', do_calls addr T idata odata cs (layers l, o) m = Ok ((layers l', o'), m') /\ plans l' = plans l /\
    ready m' l' T lo idata odata xs ys /\ params_upto m' l' Js /\ finite_predictions lib m' l' e.
Proof.
  intros R Ne N64 Ho Hlr Hr Ha Hr0 Hf Ns Ht Hee HB HD HP HJ HH HG Ok Le. destruct (paced_rates lib _ _ _ Ho) as (b1 & b2 & th & Rt & -> & ->).
  pose proof (fin_one (prec := prec) (emax := emax)) as F1. pose proof (val_one (prec := prec) (emax := emax)) as V1.
  pose proof (f2_right _ _ _ _ (f2_left _ _ _ _ (bs_range P24 lo t B Js Ht (plans l) e Hee HH) HJ) HG) as HF.
  apply (run_good P24 EM lib LO addr T lo idata odata xs ys m l (adam lr b1 b2) R Hf Ne N64 (fun J b x => small J (e_w x) /\ adam_ok b b1 b2 th x) unit2) with (t := t) (B := B); auto.
  - discriminate.
  - intros t1 t2 Hu. now apply (adam_next P24 lib b1 b2 th lr).
  - revert HF. apply f2_impl. intros J b [[Hb HJ'] Hb1]. split; [exact Hb|]. split; [intros x Hx; apply Hx|]. intros x t1 t2 g [Hx Hv] Hu Hg.
    destruct (adam_update P24 EM lib a b b1 b2 th lr x lr t1 t2 g ltac:(lia) Hb1 Ha ltac:(lia) Rt Hu Hv Hlr Hg) as (Q & c & E & _ & _ & Q2 & _). split; [|exact Q]. refine (eq_ind_r (fun z => small J z) _ E).
    destruct (Z_le_gt_dec 0 (a + r + 1 + 100)) as [L|L]; [|lia]. apply (acc_s' P24 EM J (a + r + 1)); try lia; [exact Hx|]. apply Q2; auto; lia.
  - revert HF. apply f2_impl. intros J b [[Hb _] _] w Hw. split; [exact Hw|]. apply (adam_start P24); auto. lia.
  - cbn [o_t1 o_t2 adam opt_new]. cbn [one NF2 Num_fl]. repeat split; auto; cbn; lra.
Qed.

Section Programs.
Context {S G : Type} (gen : S -> G -> fl * (S * G)).
Theorem C126_program_stays_finite (addr : ptr -> Z) m ps s g lo o lr rho idata odata xs ys cs (a r t B e : Z) Js :
  (2 <= Z.of_nat (length ps) < 2 ^ 64)%Z -> Forall plan_ok ps -> wired_back ps (p_out (last ps (PDense (Functions.Scalar Identity) 0 0))) -> (0 < outputs ps)%Z ->
  dataset m ps idata odata xs ys -> (0 < Z.of_nat (length idata) < 2 ^ 64)%Z -> addresses_differ lib addr ps m -> Forall (call_args m ps) cs ->
  paced_adam lib lr o rho -> upto a lr -> / rho <= bpow radix2 r -> (-90 <= a)%Z -> (0 <= r)%Z ->
  (0 <= t)%Z -> (0 <= e)%Z -> (0 < B)%Z -> data_upto idata (outputs ps) xs ys e t ->
  (forall s g J, In J Js -> upto J (fst (gen s g))) -> Forall (fun J => (a + r + prec + 2 <= J < emax)%Z) Js -> headroom prec emax Js lo t B e ps ->
  Forall (fun b => (b + 1 < emax)%Z) (grad_exps prec Js lo t B e ps) ->
  Forall (fun c => (round_size (Z.of_nat (length idata)) c <= B)%Z) cs ->
  exists l tr o' m', program gen addr ps s g lo o idata odata cs m = Ok ((layers l, tr, o'), m') /\
    plans l = ps /\ ready m' l tr lo idata odata xs ys /\ params_upto m' l Js /\ finite_predictions lib m' l e.
Proof.
  intros Hn Ok_ Wb Out Da Nd Ad Cs Ho Hlr Hr Ha Hr0 Ht Hee HB HD Hg HJ HH HG Le.
  assert (New : new_opt o) by (destruct Ho as (b1 & b2 & th & _ & _ & _ & _ & _ & _ & -> & _); exists lr, b1, b2; cbn; auto 10).
  destruct (program_start gen addr m ps s g lo o idata odata xs ys cs Hn Ok_ Wb Out Da Nd New Ad Cs) as (l & tr & m3 & Lp & Rd & Nei & Of & Co & Fr & Ts & Pm & Pr).
  destruct (C126_training_stays_finite addr tr lo idata odata xs ys m3 l o lr rho cs a r t B e Js) as (l' & o' & m' & D & Lp' & R & P & F); auto; try lia.
  - now apply fresh_sums.
  - now rewrite Ts.
  - eapply (fresh_params gen); eauto.
  - now rewrite Lp.
  - now rewrite Lp.
  - exists l', tr, o', m'. split; [exact (Pr _ _ _ D)|]. split; [congruence|auto].
Qed.

(** the class's default rates, 0.9 and 0.999 (Adam.hpp:54-55) *)
Definition default_adam (lr : fl) : opt fl := adam lr (lit (9 # 10)) (lit (999 # 1000)).
Lemma lit_near (n : Z) (d : positive) : (0 < n < 2 ^ 24)%Z -> (Zpos d < 2 ^ 24)%Z -> / 2 <= IZR n / IZR (Zpos d) <= 1 ->
  fin (fl_lit prec emax (n # d)) /\ (1 - uro prec) * (IZR n / IZR (Zpos d)) <= B2R (fl_lit prec emax (n # d)) <= (1 + uro prec) * (IZR n / IZR (Zpos d)).
Proof.
  intros Hn Hd H. assert (E64 : (64 <= emax)%Z) by lia. assert (F0 : fmt (prec := prec) (emax := emax) (IZR n)). { apply fmt_Z. assert (2 ^ 24 <= 2 ^ prec)%Z by (apply Z.pow_le_mono_r; lia). lia. }
  assert (F1 : fmt (prec := prec) (emax := emax) (IZR (Zpos d))). { apply fmt_Z. assert (2 ^ 24 <= 2 ^ prec)%Z by (apply Z.pow_le_mono_r; lia). lia. }
  assert (Bg : forall z, (0 < z < 2 ^ 24)%Z -> Rabs (IZR z) < big emax). { intros z Hz. rewrite Rabs_pos_eq by (apply IZR_le; lia). apply Rlt_le_trans with (bpow radix2 24); [|apply bpow_le; lia]. change (bpow radix2 24) with (IZR (2 ^ 24)). apply IZR_lt. lia. }
  destruct (lit_val n d F0 F1 (Bg n Hn) (Bg (Zpos d) ltac:(lia))) as [N E].
  assert (F : fin (fl_lit prec emax (n # d))).
  { destruct (lit_bounds P24 E64 n d (-1) 0) as [F _]; auto; try lia. }
  split; [exact F|]. rewrite (fin_rnd _ _ N E F). set (q := IZR n / IZR (Zpos d)) in *. destruct (rnd_err_normal (prec := prec) (emax := emax) q) as (dd & Hd' & ->).
  { rewrite Rabs_pos_eq by lra. apply Rle_trans with (bpow radix2 (-1)); [apply bpow_le; lia|change (bpow radix2 (-1)) with (/ 2); lra]. }
  apply Rabs_le_inv in Hd'. split; nra.
Qed.
Theorem C126_default_rates lr : exists rho, paced_adam lib lr (default_adam lr) rho /\ / rho <= 75.
Proof.
  destruct (lit_near 9 10 ltac:(lia) ltac:(lia) ltac:(lra)) as [F1 B1]. destruct (lit_near 999 1000 ltac:(lia) ltac:(lia) ltac:(lra)) as [F2 B2]. pose proof (u24 (prec := prec) P24) as U.
  exists (sqrt ((1 - 82 / 100) * (1 - B2R (fl_lit prec emax (999 # 1000))))). split.
  - exists (fl_lit prec emax (9 # 10)), (fl_lit prec emax (999 # 1000)), (82 / 100). set (x := B2R (fl_lit prec emax (9 # 10))) in *. set (y := B2R (fl_lit prec emax (999 # 1000))) in *. clearbody x y.
    repeat split; auto; try nra.
  - set (y := B2R (fl_lit prec emax (999 # 1000))) in *. clearbody y. rewrite <- (Rinv_inv 75). apply Rinv_le; [lra|]. rewrite <- (sqrt_pow2 (/ 75)) by lra. apply sqrt_le_1_alt. nra.
Qed.
(** The library's example networks with Adam's default rates, in every format: learning rate at most
    2^-5 (the programs use 0.01), inputs and targets between -1 and 1, initial parameters of at most
    2^(prec+4); any calls, any number of epochs, batches of any size. *)
Theorem C126_examples_stay_finite (addr : ptr -> Z) m ps s g lr idata odata xs ys cs : example_net ps ->
  dataset m ps idata odata xs ys -> (0 < Z.of_nat (length idata) < 2 ^ 64)%Z -> addresses_differ lib addr ps m -> Forall (call_args m ps) cs ->
  upto (-5) lr -> data_upto idata (outputs ps) xs ys 0 0 ->
  (forall s g, upto (prec + 4) (fst (gen s g))) ->
  exists l tr o' m', program gen addr ps s g CCE (default_adam lr) idata odata cs m = Ok ((layers l, tr, o'), m') /\
    plans l = ps /\ ready m' l tr CCE idata odata xs ys /\ params_upto m' l (map (fun _ => prec + 4)%Z ps) /\ finite_predictions lib m' l 0.
Proof.
  intros Ex Da Nd Ad Cs Hlr HD Hg. destruct (some_B (Z.of_nat (length idata)) cs) as (B & HB & Le). destruct (C126_default_rates lr) as (rho & Ho & Hr).
  pose proof (grow_top (prec := prec) B). pose proof (grow_nonneg P24 B).
  pose proof (grow_le (prec := prec) 2 4 ltac:(lia) ltac:(lia)). pose proof (grow_le (prec := prec) 3 5 ltac:(lia) ltac:(lia)). pose proof (grow_le (prec := prec) 2 3 ltac:(lia) ltac:(lia)). pose proof (grow_le (prec := prec) 10 784 ltac:(lia) ltac:(lia)). pose proof (grow_le (prec := prec) 8 256 ltac:(lia) ltac:(lia)). pose proof (grow_le (prec := prec) 4 10 ltac:(lia) ltac:(lia)).
  pose proof (grow_nonneg P24 4). pose proof (grow_nonneg P24 5). pose proof (grow_nonneg P24 3). pose proof (grow_nonneg P24 784). pose proof (grow_nonneg P24 256). pose proof (grow_nonneg P24 10).
  apply (C126_program_stays_finite addr m ps s g CCE (default_adam lr) lr rho idata odata xs ys cs (-5) 7 0 B 0 (map (fun _ => prec + 4)%Z ps)); auto; try lia.
  - destruct Ex as [-> | ->]; cbn; lia.
  - destruct Ex as [-> | ->]; unfold simple_net, mnist_net; repeat apply Forall_cons; try apply Forall_nil; cbn [plan_ok]; repeat split; try lia; discriminate.
  - destruct Ex as [-> | ->]; cbn; auto.
  - destruct Ex as [-> | ->]; unfold outputs; cbn; lia.
  - change (bpow radix2 7) with 128. lra.
  - intros s' g' J HJ. apply in_map_iff in HJ as (p & <- & _). apply Hg.
  - apply Forall_forall. intros J HJ. apply in_map_iff in HJ as (p & <- & _). lia.
  - destruct Ex as [-> | ->]; unfold simple_net, mnist_net; cbn [map headroom delta_exp act_exp slope_exp loss_exp tame]; unfold pre_exp.
    + repeat match goal with |- _ /\ _ => split end; try exact I; try lia. exists 1%Z. split; [reflexivity|lia].
    + repeat match goal with |- _ /\ _ => split end; try exact I; try lia. exists 1%Z. split; [reflexivity|lia].
  - destruct Ex as [-> | ->]; unfold simple_net, mnist_net; cbn [map grad_exps delta_exp act_exp slope_exp loss_exp]; unfold pre_exp; repeat apply Forall_cons; try apply Forall_nil; lia.
Qed.
End Programs.
End Train.

(** ** The hypotheses can be met *)
Module Examples.
Import PropProgram.Examples PropOptTrain.Examples PropFloatTrain.Examples.
Section Float.
Import PropFloatOpt.Examples.
#[local] Instance P24' : Prec_gt_0 24 := Hp24.
#[local] Instance E24' : Prec_lt_emax 24 128 := He24.
#[local] Instance N24' : Num (fl 24 128) := Num_fl 24 128 lib24.
(** simple_test.cpp in single precision with its AdamOptimizer(net, 0.01f), initial parameters 1/2 *)
Example C126_simple_test_adam : exists l tr o' m',
  program half_gen24 at_addr simple_net tt tt CCE (default_adam lib24 (lit (1 # 100))) idata odata (simple_calls idata odata) (fmem lib24) = Ok ((layers l, tr, o'), m') /\
  plans l = simple_net /\ params_upto m' l [28; 28; 28; 28]%Z /\ finite_predictions lib24 m' l 0.
Proof.
  assert (LO24 : libm_ok lib24) by now apply cr_lib_ok.
  assert (D : dataset (fmem lib24) simple_net idata odata (fxs lib24) (fys lib24)) by (apply (rows_dataset _ 4 3); [lia|cbn; auto|lia|reflexivity|apply frows]).
  destruct (C126_examples_stay_finite (prec := 24) (emax := 128) ltac:(lia) ltac:(lia) lib24 LO24 half_gen24 at_addr (fmem lib24) simple_net tt tt (fl_lit 24 128 (1 # 100)) idata odata
    (fxs lib24) (fys lib24) (simple_calls idata odata)) as (l & tr & o' & m' & E & P & _ & U & F).
  - now left.
  - exact D.
  - cbn. lia.
  - intros N m1 _ b b' c c' _ _. apply at_addr_distinct.
  - assert (Sd : some_dataset (fmem lib24) simple_net idata odata) by (exists (fxs lib24), (fys lib24); exact D).
    unfold simple_calls. apply Forall_cons; [cbn; lia|]. apply Forall_app. split; [eapply rows_predict; exact D|]. repeat apply Forall_cons; try apply Forall_nil; exact Sd.
  - destruct (lit_001 (prec := 24) (emax := 128) ltac:(lia) ltac:(lia)) as (F & B). split; [exact F|]. change (bpow radix2 (-5)) with (/ 32). apply Rabs_le. lra.
  - apply fdata.
  - intros s g. apply pw_most; lia.
  - exists l, tr, o', m'. auto.
Qed.
(** one parameter, gradients 2^126 and then 1: the first gradient's square overflows, so from then on the parameter does
    not move; it stays below 2^60 and no update produces NaN *)
Example C126_huge_gradient : exists o m o' m' v v', history ex_addr ex_P ex_N (lit (1 # 100)) (default_adam lib24 (lit (1 # 100))) (f_m (pw 0) (pw 0) (pw 126) (pw 0)) [mk_call 0%nat (lit (1 # 100)) (fun _ => pw 126)] (lit (1 # 100)) o m /\
  opt_update ex_addr o (ex_P 0, ex_N 0) (Ptr 3 0, 1%Z) m = Ok (o', m') /\
  elem m (ex_P 0) 0 = Some (Some v) /\ at_most 60 v /\ elem m' (ex_P 0) 0 = Some (Some v') /\ fin v' /\ B2R v' = B2R v.
Proof.
  set (lr := lit (1 # 100) : fl 24 128). destruct (C126_default_rates (prec := 24) (emax := 128) ltac:(lia) ltac:(lia) lib24 lr) as (rho & Ho & Hr).
  assert (Hl : at_most (-5) lr). { destruct (lit_001 (prec := 24) (emax := 128) ltac:(lia) ltac:(lia)) as (F & B). split; [exact F|]. change (bpow radix2 (-5)) with (/ 32). apply Rabs_le. unfold lr. cbn [lit N24' Num_fl]. lra. }
  destruct (f_history lr (default_adam lib24 lr) (pw 0) (pw 0) (pw 126) (pw 0) ltac:(repeat split)) as (o & m & o' & m' & H & Hg & Hs & E & _).
  assert (Hc : all_calls ex_N (at_most (-5)) (at_most 126) [mk_call 0%nat lr (fun _ => pw 126)]).
  { unfold all_calls. apply Forall_cons; [|apply Forall_nil]. split; cbn [c_lr c_grad]; intros; [exact Hl|apply pw_most; lia]. }
  destruct (C126_any_gradient_stays_finite (prec := 24) (emax := 128) ltac:(lia) ltac:(lia) lib24 ex_addr ex_P ex_N (-5) 126 7 60 _ _ rho _ (f_w (pw 0) (pw 0)) _ _ o m ltac:(lia) ltac:(lia) ltac:(lia) ltac:(lia) ltac:(lia) ltac:(lia) ex_distinct Ho
    ltac:(change (bpow radix2 7) with 128; lra) (f_holds _ _ _ _)
    ltac:(intros k j _; unfold f_w; destruct k; apply pw_most; lia) H Hc 0%nat) as (v & Hv & B).
  specialize (Hv 0%Z ltac:(cbn; lia)). specialize (B 0%Z ltac:(cbn; lia)).
  destruct (C126_overflow_freezes (prec := 24) (emax := 128) ltac:(lia) ltac:(lia) lib24 ex_addr ex_P ex_N (-5) 126 lr (default_adam lib24 lr) rho (f_m (pw 0) (pw 0) (pw 126) (pw 0)) (f_w (pw 0) (pw 0)) [mk_call 0%nat lr (fun _ => pw 126)] lr o m 0%nat (Ptr 3 0) (fun _ => pw 0) o' m') with (j := 0%Z) (v := v 0%Z) as (v' & Ev & Fv & Bv); auto; try lia.
  - apply ex_distinct.
  - apply f_holds.
  - intros. apply pw_most; lia.
  - cbn. lia.
  - apply B.
  - apply Exists_cons_hd. unfold overflows. cbn [snd c_grad]. destruct (pw_ok 126 ltac:(lia)) as [_ ->]. rewrite <- bpow_plus. unfold big. apply bpow_le. lia.
  - exists o, m, o', m', (v 0%Z), v'. auto 10.
Qed.
(** gradients 2^10 and 2^-5: the second update moves the parameter by at most 0.01 * 75 plus rounding *)
Example C126_small_step : exists o m o' m' v v', history ex_addr ex_P ex_N (lit (1 # 100)) (default_adam lib24 (lit (1 # 100))) (f_m (pw 0) (pw 0) (pw 10) (pw (-5))) [mk_call 0%nat (lit (1 # 100)) (fun _ => pw 10)] (lit (1 # 100)) o m /\
  opt_update ex_addr o (ex_P 0, ex_N 0) (Ptr 3 0, 1%Z) m = Ok (o', m') /\
  elem m (ex_P 0) 0 = Some (Some v) /\ elem m' (ex_P 0) 0 = Some (Some v') /\ num v' /\
  exists rho, 0 < rho /\ / rho <= 75 /\ (fin v' -> Rabs (B2R v' - B2R v) <= ((1 + 22 * uro 24) * Rabs (B2R (lit (1 # 100) : fl 24 128)) + 4 * eta 24 128) / rho + uro 24 * Rabs (B2R v)).
Proof.
  set (lr := lit (1 # 100) : fl 24 128). destruct (C126_default_rates (prec := 24) (emax := 128) ltac:(lia) ltac:(lia) lib24 lr) as (rho & Ho & Hr).
  assert (Hl : at_most (-5) lr). { destruct (lit_001 (prec := 24) (emax := 128) ltac:(lia) ltac:(lia)) as (F & B). split; [exact F|]. change (bpow radix2 (-5)) with (/ 32). apply Rabs_le. unfold lr. cbn [lit N24' Num_fl]. lra. }
  destruct (f_history lr (default_adam lib24 lr) (pw 0) (pw 0) (pw 10) (pw (-5)) ltac:(repeat split)) as (o & m & o' & m' & H & Hg & Hs & E & _).
  assert (Hc : all_calls ex_N (at_most (-5)) (at_most 10) [mk_call 0%nat lr (fun _ => pw 10)]).
  { unfold all_calls. apply Forall_cons; [|apply Forall_nil]. split; cbn [c_lr c_grad]; intros; [exact Hl|apply pw_most; lia]. }
  destruct (C126_any_gradient_stays_finite (prec := 24) (emax := 128) ltac:(lia) ltac:(lia) lib24 ex_addr ex_P ex_N (-5) 10 7 60 _ _ rho _ (f_w (pw 0) (pw 0)) _ _ o m ltac:(lia) ltac:(lia) ltac:(lia) ltac:(lia) ltac:(lia) ltac:(lia) ex_distinct Ho
    ltac:(change (bpow radix2 7) with 128; lra) (f_holds _ _ _ _)
    ltac:(intros k j _; unfold f_w; destruct k; apply pw_most; lia) H Hc 0%nat) as (v & Hv & B).
  specialize (Hv 0%Z ltac:(cbn; lia)). specialize (B 0%Z ltac:(cbn; lia)).
  destruct (C126_step_bound (prec := 24) (emax := 128) ltac:(lia) ltac:(lia) lib24 ex_addr ex_P ex_N (-5) 10 lr (default_adam lib24 lr) rho (f_m (pw 0) (pw 0) (pw 10) (pw (-5))) (f_w (pw 0) (pw 0)) [mk_call 0%nat lr (fun _ => pw 10)] lr o m 0%nat (Ptr 3 0) (fun _ => pw (-5)) o' m') with (j := 0%Z) (v := v 0%Z) as (v' & Ev & Nv & Bv); auto; try lia.
  - apply ex_distinct.
  - apply f_holds.
  - intros. apply pw_most; lia.
  - cbn. lia.
  - apply B.
  - exists o, m, o', m', (v 0%Z), v'. repeat (split; [assumption|]). exists rho. pose proof (paced_rho (prec := 24) (emax := 128) ltac:(lia) ltac:(lia) lib24 _ _ _ Ho) as [[R0 _] _]. auto.
Qed.
End Float.
End Examples.

Print Assumptions C126_any_gradient_stays_finite.
Print Assumptions C126_step_bound.
Print Assumptions C126_overflow_freezes.
Print Assumptions C126_training_stays_finite.
Print Assumptions C126_program_stays_finite.
Print Assumptions C126_default_rates.
Print Assumptions C126_examples_stay_finite.

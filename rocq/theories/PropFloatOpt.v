(** * Properties C110-C112: optimizers in IEEE arithmetic *)
From Coq Require Import ZArith QArith Reals Lra Lia Psatz Bool List.
From Flocq Require Import Core BinarySingleNaN.
From Verif Require Import Mem Scalar MemSpec MemLemmas Lique LiqueProofs LinearProofs Optimizer Bufs OptimizerProofs OptimizerSpec OptimizerHist RealSpec Float FloatSpec FloatLemmas FloatError FloatLib FloatAct FloatAcc FloatLoss FloatOpt PropOptimizers.
Import ListNotations.
Local Open Scope R_scope.

Section Props.
Context {prec emax : Z} {Hp : Prec_gt_0 prec} {He : Prec_lt_emax prec emax} (P24 : (24 <= prec)%Z) (EM : (5 * prec + 8 <= emax)%Z).
Context (lib : libm prec emax).
Notation fl := (fl prec emax).
Notation u := (uro prec).
Notation eta := (eta prec emax).
#[local] Instance NF : Num fl := Num_fl prec emax lib.
Context {Nm : Type} `{NI : Names Nm} (addr : ptr -> Z) (P : Nm -> ptr) (N : Nm -> Z).

(** a finite number of magnitude at most 2^k *)
Definition at_most (k : Z) (x : fl) : Prop := fin x /\ Rabs (B2R x) <= bpow radix2 k.
(** new optimizers with constants from the range their users choose from *)
Definition usual_optimizer (lr0 : fl) (o : opt fl) : Prop :=
  o = grad_descent lr0 \/
  (exists decay, fin decay /\ 0 <= B2R lr0 * B2R decay <= 2 /\ o = sto_grad_descent lr0 decay) \/
  (exists mu, fin mu /\ Rabs (B2R mu) <= 1 /\ (o = momentum_opt lr0 mu \/ o = nestorov_opt lr0 mu)) \/
  o = ada_grad lr0 \/
  (exists beta, fin beta /\ 0 <= B2R beta < 1 /\ o = rms_prop lr0 beta) \/
  (exists b1 b2, fin b1 /\ fin b2 /\ 0 <= B2R b1 < 1 /\ 0 <= B2R b2 < 1 /\ o = adam lr0 b1 b2).
(** every call was made with a learning rate that satisfies [L] and gradients that satisfy [G] *)
Definition all_calls (L G : fl -> Prop) (cs : list (call fl Nm)) : Prop :=
  Forall (fun c => L (c_lr c) /\ forall j, (0 <= j < N (c_tensor c))%Z -> G (c_grad c j)) cs.

Lemma usual_fresh lr0 o : usual_optimizer lr0 o -> fresh_opt lr0 o.
Proof. unfold usual_optimizer. intros H. decompose [or ex and] H; subst; repeat split. Qed.
Lemma usual_kind lr0 o : fin lr0 -> usual_optimizer lr0 o -> kind_ok (o_kind o).
Proof.
  intros Fl H. destruct H as [ -> | [ (decay & Fd & Hd & ->) | [ (mu & Fm & Hm & [ -> | -> ]) | [ -> | [ (beta & Fb & Hb & ->) | (b1 & b2 & Fb1 & Fb2 & Hb1 & Hb2 & ->) ] ] ] ] ]; cbn; auto.
  - (* alpha = 1 - lr0 * decay is between -1 and 1 *)
    pose proof (big_gt_1 (prec := prec) (emax := emax)) as B1. assert (B2 : 2 < big emax) by (change 2 with (bpow radix2 1); apply bpow_lt; lia). assert (F2 : fmt (prec := prec) (emax := emax) 2) by (change 2 with (bpow radix2 1); apply fmt_bpow; lia).
    assert (W : within (Bmult mode_NE lr0 decay) 0 2) by (apply mul_within; auto using fmt_0; lra). assert (F : fin (Bmult mode_NE lr0 decay)) by (apply (within_fin _ _ _ W); lra). pose proof (within_B2R _ _ _ F W).
    pose proof (fin_one (prec := prec) (emax := emax)) as F1. pose proof (val_one (prec := prec) (emax := emax)) as V1.
    assert (W2 : within (Bminus mode_NE Bone (Bmult mode_NE lr0 decay)) (-1) 1) by (apply sub_within; auto using fmt_1; [apply (fmt_opp 1), fmt_1|lra|lra|lra]).
    assert (F3 : fin (Bminus mode_NE Bone (Bmult mode_NE lr0 decay))) by (apply (within_fin _ _ _ W2); lra). split; [exact F3|]. pose proof (within_B2R _ _ _ F3 W2). apply Rabs_le. change (bpow radix2 0) with 1. lra.
  - split; auto.
  - split; auto.
Qed.

(** the invariant of a whole history *)
Lemma hrun_ok (okX : Nm -> Z -> @est fl -> Prop) (okT : fl -> fl -> Prop) (L G : fl -> Prop) kd :
  (forall k j x t1 t2 lr g, okX k j x -> okT t1 t2 -> L lr -> G g -> okX k j (elem_step kd lr (next_t1 kd t1) (next_t2 kd t2) x g)) ->
  (forall t1 t2, okT t1 t2 -> okT (next_t1 kd t1) (next_t2 kd t2)) ->
  forall cs X t1 t2, all_calls L G cs -> (forall k j, (0 <= j < N k)%Z -> okX k j (X k j)) -> okT t1 t2 ->
  let '(X', t1', t2') := hrun kd (X, t1, t2) cs in (forall k j, (0 <= j < N k)%Z -> okX k j (X' k j)) /\ okT t1' t2'.
Proof.
  intros Hx Ht. induction cs as [|c cs IH]; intros X t1 t2 Hc HX HT; [cbn; auto|]. apply Forall_cons_iff in Hc. destruct Hc as [[HL HG] Hc']. cbn [hrun fold_left hstep].
  change (fold_left (hstep kd) cs ?x) with (hrun kd x cs). apply IH; [exact Hc'| |now apply Ht]. intros k j Hj. unfold upd_state. destruct (same_spec k (c_tensor c)) as [->|]; auto.
Qed.
Lemma history_ok (okX : Nm -> Z -> @est fl -> Prop) (okT : fl -> fl -> Prop) (L G : fl -> Prop) lr0 (o0 : opt fl) m0 (w : Nm -> Z -> fl) cs lr o m :
  (forall k j x t1 t2 lr g, okX k j x -> okT t1 t2 -> L lr -> G g -> okX k j (elem_step (o_kind o0) lr (next_t1 (o_kind o0) t1) (next_t2 (o_kind o0) t2) x g)) ->
  (forall t1 t2, okT t1 t2 -> okT (next_t1 (o_kind o0) t1) (next_t2 (o_kind o0) t2)) ->
  distinct_tensors addr P N -> fresh_opt lr0 o0 -> (forall k, holds m0 (P k) (N k) (w k)) ->
  (forall k j, (0 <= j < N k)%Z -> okX k j (mk_est (w k j) zero zero)) -> okT one one ->
  history addr P N lr0 o0 m0 cs lr o m -> all_calls L G cs ->
  exists X, inv addr P N o m X /\ o_kind o = o_kind o0 /\ o_lr o = lr /\ okT (o_t1 o) (o_t2 o) /\ forall k j, (0 <= j < N k)%Z -> okX k j (X k j).
Proof.
  intros Hx Ht Hd Hf Hw H0 HT H Hc. pose proof (history_inv addr P N lr0 o0 m0 w cs lr o m Hd Hf Hw H) as HI. unfold st0 in HI.
  pose proof (hrun_ok okX okT L G (o_kind o0) Hx Ht cs (fun k j => mk_est (w k j) zero zero) one one Hc H0 HT) as HR.
  destruct (hrun _ _ _) as [[X t1] t2]. destruct HI as (I & Ek & <- & <- & El). exists X. intuition auto.
Qed.

(** ** C110: bounded gradients never make a parameter overflow, over any number of updates *)
Theorem C110_parameters_stay_finite (a b J : Z) lr0 o0 m0 (w : Nm -> Z -> fl) cs lr o m :
  (0 <= a)%Z -> (0 <= b)%Z -> (3 * prec + 17 + a + b <= J)%Z -> (J < emax)%Z -> (prec + 1 + 2 * b < emax)%Z ->
  distinct_tensors addr P N -> fin lr0 -> usual_optimizer lr0 o0 -> (forall k, holds m0 (P k) (N k) (w k)) ->
  (forall k j, (0 <= j < N k)%Z -> at_most J (w k j)) ->
  history addr P N lr0 o0 m0 cs lr o m -> all_calls (at_most a) (at_most b) cs ->
  forall k, exists v, holds m (P k) (N k) v /\ forall j, (0 <= j < N k)%Z -> at_most J (v j).
Proof.
  intros Ha Hb HJ J1 B2 Hd Fl Hu Hw H0 H Hc k. pose proof (usual_kind lr0 o0 Fl Hu) as HK.
  pose proof (fin_one (prec := prec) (emax := emax)) as F1. pose proof (val_one (prec := prec) (emax := emax)) as V1.
  assert (NZ : nn (B754_zero false : fl)) by (split; [reflexivity|cbn; lra]).
  destruct (history_ok (fun _ _ x => est_ok a b J (o_kind o0) x) (pow_ok (o_kind o0)) (at_most a) (at_most b) lr0 o0 m0 w cs lr o m) as (X & (I & _) & _ & _ & _ & HX); auto.
  - intros k' j x t1 t2 lr' g Hx Ht Hl Hg. now apply (step_ok P24 EM lib a b J).
  - intros t1 t2 Ht. refine (proj2 (step_ok P24 EM lib a b J (o_kind o0) (mk_est (B754_zero false) (B754_zero false) (B754_zero false)) (B754_zero false) t1 t2 (B754_zero false) Ha Hb HJ J1 B2 HK Ht _ _ _)); try apply small_zero.
    split; [apply small_zero|]. destruct (o_kind o0); cbn [e_v e_s]; auto using small_zero.
  - now apply usual_fresh.
  - intros k' j Hj. split; [exact (H0 k' j Hj)|]. cbn [e_v e_s]. change zero with (B754_zero false : fl). destruct (o_kind o0); auto using small_zero.
  - unfold pow_ok. cbn [one NF Num_fl]. destruct (o_kind o0); auto. repeat split; auto; lra.
  - exists (fun j => e_w (X k j)). split; [apply I|]. intros j Hj. exact (proj1 (HX k j Hj)).
Qed.

(** ** C111: AdaGrad and RMSProp *)
(** [rho]: 1 for AdaGrad, sqrt(1 - beta) for RMSProp *)
Definition scaled_optimizer (lr0 : fl) (o : opt fl) (rho : R) : Prop :=
  (o = ada_grad lr0 /\ rho = 1) \/ (exists beta, fin beta /\ 0 < B2R beta < 1 /\ o = rms_prop lr0 beta /\ rho = sqrt (1 - B2R beta)).
Lemma scaled_fresh lr0 o rho : scaled_optimizer lr0 o rho -> fresh_opt lr0 o.
Proof. intros [[-> _]|(b & _ & _ & -> & _)]; repeat split. Qed.
Lemma scaled_rho lr0 o rho : scaled_optimizer lr0 o rho -> 0 < rho <= 1 /\ / rho <= bpow radix2 prec.
Proof.
  intros [[_ ->]|(b & Fb & Hb & _ & ->)].
  - split; [lra|]. rewrite Rinv_1. change 1 with (bpow radix2 0). apply bpow_le. lia.
  - apply rho_inv; auto. lra.
Qed.
(** one element: the new accumulator, the step *)
Lemma scaled_step lr0 o rho t1 t2 (x : @est fl) lr g : scaled_optimizer lr0 o rho -> nn (e_v x) -> fin lr -> fin g ->
  nn (e_v (elem_step (o_kind o) lr t1 t2 x g)) /\
  exists i, fin i /\ 0 <= B2R i <= bpow radix2 15 /\ B2R i * Rabs (B2R g) * rho <= 1 + 5 * u /\
    (e_v (elem_step (o_kind o) lr t1 t2 x g) = B754_infinity false -> is0 i) /\
    e_w (elem_step (o_kind o) lr t1 t2 x g) = Bminus mode_NE (e_w x) (Bmult mode_NE (Bmult mode_NE i g) lr).
Proof.
  intros Ho Hv Fl Fg. destruct x as [w v s]. cbn [e_v] in Hv. destruct Ho as [[-> ->]|(b & Fb & Hb & -> & ->)]; cbn [o_kind ada_grad rms_prop opt_new elem_step e_v e_w]; cbn [add mul sub one NF Num_fl].
  - pose proof (ada_nn v g Hv Fg) as NV. split; [exact NV|]. destruct (inv_sqrt_ok P24 EM lib _ NV) as (Fi & Li & Zi). eexists. split; [exact Fi|]. split; [exact Li|]. split; [|split; [exact Zi|reflexivity]].
    pose proof (ada_root P24 EM lib v g Hv Fg) as Q. now rewrite sqrt_1 in Q.
  - assert (Hb' : 0 <= B2R b < 1) by lra. pose proof (rms_nn P24 EM v b g Hv Fg Fb Hb' (or_introl (proj1 Hb))) as NV. split; [exact NV|]. destruct (inv_sqrt_ok P24 EM lib _ NV) as (Fi & Li & Zi). eexists. split; [exact Fi|]. split; [exact Li|]. split; [|split; [exact Zi|reflexivity]].
    exact (rms_root P24 EM lib v b g Hv Fg Fb Hb' (or_introl (proj1 Hb))).
Qed.
Lemma scaled_history lr0 o0 rho m0 (w : Nm -> Z -> fl) cs lr o m : distinct_tensors addr P N -> scaled_optimizer lr0 o0 rho -> (forall k, holds m0 (P k) (N k) (w k)) ->
  history addr P N lr0 o0 m0 cs lr o m -> all_calls fin fin cs ->
  exists X, inv addr P N o m X /\ o_kind o = o_kind o0 /\ o_lr o = lr /\ forall k j, (0 <= j < N k)%Z -> nn (e_v (X k j)).
Proof.
  intros Hd Ho Hw H Hc. destruct (history_ok (fun _ _ x => nn (e_v x)) (fun _ _ => True) fin fin lr0 o0 m0 w cs lr o m) as (X & I & Ek & El & _ & HX); eauto.
  - intros k j x t1 t2 lr' g Hx _ Hl Hg. exact (proj1 (scaled_step lr0 o0 rho _ _ x lr' g Ho Hx Hl Hg)).
  - eapply scaled_fresh; eauto.
  - intros k j _. cbn. split; [reflexivity|cbn; lra].
Qed.

(** whatever finite gradients arrive, parameters stay finite, over any number of updates *)
Theorem C111_any_gradient_stays_finite (a J : Z) lr0 o0 rho m0 (w : Nm -> Z -> fl) cs lr o m :
  (0 <= a)%Z -> (2 * prec + 2 + a <= J)%Z -> (J < emax)%Z ->
  distinct_tensors addr P N -> scaled_optimizer lr0 o0 rho -> (forall k, holds m0 (P k) (N k) (w k)) ->
  (forall k j, (0 <= j < N k)%Z -> at_most J (w k j)) ->
  history addr P N lr0 o0 m0 cs lr o m -> all_calls (at_most a) fin cs ->
  forall k, exists v, holds m (P k) (N k) v /\ forall j, (0 <= j < N k)%Z -> at_most J (v j).
Proof.
  intros Ha HJ J1 Hd Ho Hw H0 H Hc k. destruct (scaled_rho lr0 o0 rho Ho) as [R1 R2].
  destruct (history_ok (fun _ _ x => at_most J (e_w x) /\ nn (e_v x)) (fun _ _ => True) (at_most a) fin lr0 o0 m0 w cs lr o m) as (X & (I & _) & _ & _ & _ & HX); auto.
  - intros k' j x t1 t2 lr' g [Hx Hv] _ Hl Hg. destruct (scaled_step lr0 o0 rho (next_t1 (o_kind o0) t1) (next_t2 (o_kind o0) t2) x lr' g Ho Hv (proj1 Hl) Hg) as (NV & i & Fi & Li & Ri & _ & E). split; [|exact NV]. rewrite E.
    apply (acc_s' P24 EM J (a + prec + 1)); try lia; [exact Hx|].
    exact (proj2 (proj2 (step_of P24 EM i g lr' rho Fi Li Hg (proj1 Hl) R1 R2 Ri)) a prec Ha ltac:(lia) ltac:(lia) R2 Hl).
  - eapply scaled_fresh; eauto.
  - intros k' j Hj. split; [exact (H0 k' j Hj)|]. cbn. split; [reflexivity|cbn; lra].
  - exists (fun j => e_w (X k j)). split; [apply I|]. intros j Hj. exact (proj1 (HX k j Hj)).
Qed.

Lemma sub_num (x y : fl) : fin x -> num y -> num (Bminus mode_NE x y).
Proof.
  intros Fx Ny. destruct y as [s|s| |s m e B] eqn:Ey; [now apply val_sub| |discriminate Ny|now apply val_sub]. destruct x; try discriminate Fx; reflexivity.
Qed.
Lemma update_step o m X k gp g o' m' : distinct_tensors addr P N -> inv addr P N o m X -> holds m gp (N k) g -> separate_gradient addr P N o gp (N k) ->
  opt_update addr o (P k, N k) (gp, N k) m = Ok (o', m') ->
  holds m' (P k) (N k) (fun j => e_w (elem_step (o_kind o) (o_lr o) (next_t1 (o_kind o) (o_t1 o)) (next_t2 (o_kind o) (o_t2 o)) (X k j) (g j))).
Proof.
  intros Ht I Hg Hs E. apply grad_ok_of in Hs. pose proof (wp_update addr P N o m X k gp g Ht I Hs Hg) as W. unfold wp in W. rewrite E in W. destruct W as ((W & _) & _).
  specialize (W k). rewrite upd_state_same in W. exact W.
Qed.
(** every update moves a finite parameter by at most about learning rate / rho, and never to NaN *)
Theorem C111_step_bound lr0 o0 rho m0 (w : Nm -> Z -> fl) cs lr o m k gp g o' m' :
  distinct_tensors addr P N -> scaled_optimizer lr0 o0 rho -> (forall k, holds m0 (P k) (N k) (w k)) ->
  history addr P N lr0 o0 m0 cs lr o m -> all_calls fin fin cs -> fin lr ->
  holds m gp (N k) g -> (forall j, (0 <= j < N k)%Z -> fin (g j)) -> separate_gradient addr P N o gp (N k) ->
  opt_update addr o (P k, N k) (gp, N k) m = Ok (o', m') ->
  forall j v, (0 <= j < N k)%Z -> elem m (P k) j = Some (Some v) -> fin v ->
  exists v', elem m' (P k) j = Some (Some v') /\ num v' /\
    (fin v' -> Rabs (B2R v' - B2R v) <= (1 + 12 * u) * Rabs (B2R lr) / rho + u * Rabs (B2R v) + 2 * eta).
Proof.
  intros Hd Ho Hw H Hc Fl Hg Fg Hs E j v Hj Ev Fv. destruct (scaled_history lr0 o0 rho m0 w cs lr o m Hd Ho Hw H Hc) as (X & I & Ek & El & HX).
  pose proof (update_step o m X k gp g o' m' Hd I Hg Hs E j Hj) as Ev'. eexists. split; [exact Ev'|]. rewrite Ek, El.
  assert (W : e_w (X k j) = v) by (destruct I as [I _]; pose proof (I k j Hj) as Q; congruence).
  destruct (scaled_step lr0 o0 rho (next_t1 (o_kind o0) (o_t1 o)) (next_t2 (o_kind o0) (o_t2 o)) (X k j) lr (g j) Ho (HX k j Hj) Fl (Fg j Hj)) as (_ & i & Fi & Li & Ri & _ & ->). rewrite W.
  destruct (scaled_rho lr0 o0 rho Ho) as [R1 R2]. destruct (step_of P24 EM i (g j) lr rho Fi Li (Fg j Hj) Fl R1 R2 Ri) as (Nc & Bc & _).
  set (c := Bmult mode_NE (Bmult mode_NE i (g j)) lr) in *. split.
  - now apply sub_num.
  - intros F. destruct (sub_fin_inv _ _ F) as (_ & Fc & Es). specialize (Bc Fc). rewrite Es. destruct (rnd_minus_err (prec := prec) (emax := emax) (B2R v) (B2R c)) as (d & D1 & ->); [apply fmt_B2R|apply fmt_B2R|].
    replace ((B2R v - B2R c) * (1 + d) - B2R v) with (B2R v * d + - (B2R c * (1 + d))) by ring. pose proof (u_pos (prec := prec)) as U0. pose proof (u_small P24) as U1. pose proof (eta_pos (prec := prec) (emax := emax)) as T0.
    eapply Rle_trans; [apply Rabs_triang|]. rewrite Rabs_Ropp, !Rabs_mult. set (C := Rabs (B2R c)) in *. set (V := Rabs (B2R v)). set (L := Rabs (B2R lr)) in *.
    assert (V0 : 0 <= V) by apply Rabs_pos. assert (C0 : 0 <= C) by apply Rabs_pos. assert (L0 : 0 <= L) by apply Rabs_pos.
    assert (D : Rabs (1 + d) <= 1 + u) by (eapply Rle_trans; [apply Rabs_triang|]; rewrite Rabs_R1; lra).
    assert (Bc' : C <= (1 + 10 * u) * (L / rho) + eta).
    { apply Rmult_le_reg_r with rho; [lra|]. apply Rle_trans with (1 := Bc). right. field. lra. }
    assert (Q0 : 0 <= L / rho) by (apply Rmult_le_pos; [exact L0|left; apply Rinv_0_lt_compat; lra]).
    replace ((1 + 12 * u) * L / rho) with ((1 + 12 * u) * (L / rho)) by (field; lra). set (q := L / rho) in *.
    assert (A1 : V * Rabs d <= u * V) by (rewrite Rmult_comm; apply Rmult_le_compat_r; lra).
    assert (A2 : C * Rabs (1 + d) <= ((1 + 10 * u) * q + eta) * (1 + u)) by (apply Rmult_le_compat; [exact C0|apply Rabs_pos|exact Bc'|exact D]).
    assert (A3 : (1 + 10 * u) * (1 + u) * q <= (1 + 12 * u) * q) by (apply Rmult_le_compat_r; [exact Q0|nra]). nra.
Qed.

(** a gradient whose square overflows stops the component for good *)
Lemma zero_prod (x y : fl) : is0 x -> fin y -> is0 (Bmult mode_NE x y). Proof. intros A B. exact (proj1 (mul_is0 x y A B)). Qed.
Definition overflows (lg : fl * fl) : Prop := big emax <= B2R (snd lg) * B2R (snd lg).
Lemma frozen_acc lr0 o rho : scaled_optimizer lr0 o rho -> forall l (x : @est fl), nn (e_v x) -> Forall (fun lg => fin (fst lg) /\ fin (snd lg)) l ->
  e_v x = B754_infinity false \/ Exists overflows l -> e_v (fold_left (fun x lg => elem_step (o_kind o) (fst lg) one one x (snd lg)) l x) = B754_infinity false.
Proof.
  intros Ho. induction l as [|[lr g] l IH]; intros x Hx Hl Hi; [destruct Hi as [Hi|Hi]; [exact Hi|inversion Hi]|].
  apply Forall_cons_iff in Hl. destruct Hl as [[Fl Fg] Hl]. cbn [fst snd] in *. cbn [fold_left fst snd]. apply IH; [exact (proj1 (scaled_step lr0 o rho _ _ x lr g Ho Hx Fl Fg))|exact Hl|].
  assert (Inf : forall y : fl, nn y -> Bplus mode_NE (B754_infinity false) y = B754_infinity false).
  { intros y Hy. destruct (nn_cases y Hy) as [->|[F _]]; [reflexivity|]. destruct y; try discriminate F; reflexivity. }
  assert (Hi' : (e_v x = B754_infinity false \/ overflows (lr, g)) \/ Exists overflows l) by (destruct Hi as [Hi|Hi]; [auto|inversion Hi; subst; auto]).
  destruct Hi' as [Hi'|Hi']; [left|now right]. destruct x as [w v s]. cbn [e_v] in *.
  assert (Q : overflows (lr, g) -> Bmult mode_NE g g = B754_infinity false) by (intros Q; now apply mul_over).
  destruct Ho as [[-> ->]|(b & Fb & Hb & -> & ->)]; cbn [o_kind ada_grad rms_prop opt_new elem_step e_v]; cbn [add mul sub one NF Num_fl].
  - destruct Hi' as [->|Hg]; [apply Inf, nn_square, Fg|]. rewrite (Q Hg). now apply add_inf.
  - assert (Hb' : 0 <= B2R b < 1) by lra. destruct (rbeta_ok P24 EM b Fb Hb') as (Fr & [R1 R2] & _). pose proof (bpow_gt_0 radix2 (- prec)) as B0.
    destruct Hi' as [->|Hg].
    + destruct (pos_sign b Fb ltac:(lra)) as (mb & eb & Bb & Eb). rewrite Eb at 1. cbn [Bmult xorb]. apply Inf. refine (proj1 (nn_mul _ _ (nn_square g Fg) Fr _)). lra.
    + rewrite (Q Hg). destruct (pos_sign _ Fr ltac:(lra)) as (mb & eb & Bb & Eb). rewrite Eb. cbn [Bmult xorb]. apply add_inf. exact (proj1 (nn_mul v b Hx Fb (proj1 Hb))).
Qed.
Lemma own_calls_fin k j cs : (0 <= j < N k)%Z -> all_calls fin fin cs -> Forall (fun lg => fin (fst lg) /\ fin (snd lg)) (own_calls k j cs).
Proof.
  intros Hj H. unfold own_calls. apply Forall_map. apply Forall_forall. intros c Hc. apply filter_In in Hc. destruct Hc as [Hc Ek]. destruct (same_spec (c_tensor c) k) as [<-|]; [|discriminate].
  unfold all_calls in H. rewrite Forall_forall in H. destruct (H c Hc) as [A B]. cbn [fst snd]. auto.
Qed.
Theorem C111_overflow_freezes lr0 o0 rho m0 (w : Nm -> Z -> fl) cs lr o m k gp g o' m' :
  distinct_tensors addr P N -> scaled_optimizer lr0 o0 rho -> (forall k, holds m0 (P k) (N k) (w k)) ->
  history addr P N lr0 o0 m0 cs lr o m -> all_calls fin fin cs -> fin lr ->
  holds m gp (N k) g -> (forall j, (0 <= j < N k)%Z -> fin (g j)) -> separate_gradient addr P N o gp (N k) ->
  opt_update addr o (P k, N k) (gp, N k) m = Ok (o', m') ->
  forall j v, (0 <= j < N k)%Z -> elem m (P k) j = Some (Some v) -> fin v ->
  Exists overflows (own_calls k j cs) ->
  exists v', elem m' (P k) j = Some (Some v') /\ fin v' /\ B2R v' = B2R v.
Proof.
  intros Hd Ho Hw H Hc Fl Hg Fg Hs E j v Hj Ev Fv Hov.
  pose proof (scaled_fresh lr0 o0 rho Ho) as Hf. pose proof (history_inv addr P N lr0 o0 m0 w cs lr o m Hd Hf Hw H) as HI. unfold st0 in HI.
  assert (NA : not_adam (o_kind o0)) by (destruct Ho as [[-> _]|(b & _ & _ & -> & _)]; exact I).
  pose proof (hrun_own (o_kind o0) cs NA (fun k j => mk_est (w k j) zero zero) one one k j) as HO.
  destruct (hrun _ _ _) as [[X t1] t2]. destruct HI as (HI & Ek & _ & _ & El). cbn [fst] in HO.
  pose proof (own_calls_fin k j cs Hj Hc) as Hfin. assert (N0 : nn (e_v (mk_est (w k j) zero zero))) by (cbn; split; [reflexivity|cbn; lra]).
  pose proof (update_step o m X k gp g o' m' Hd HI Hg Hs E j Hj) as Ev'. eexists. split; [exact Ev'|]. rewrite Ek, El.
  assert (W : e_w (X k j) = v) by (destruct HI as [I0 _]; pose proof (I0 k j Hj) as Q; congruence).
  assert (VI : e_v (X k j) = B754_infinity false) by (rewrite HO; now apply (frozen_acc lr0 o0 rho Ho); auto).
  assert (NV : nn (e_v (X k j))) by (rewrite VI; apply nn_inf).
  destruct (scaled_step lr0 o0 rho (next_t1 (o_kind o0) (o_t1 o)) (next_t2 (o_kind o0) (o_t2 o)) (X k j) lr (g j) Ho NV Fl (Fg j Hj)) as (_ & i & Fi & Li & Ri & Zi & ->). rewrite W.
  assert (ZI : is0 i).
  { apply Zi. rewrite (elem_step_t _ _ _ _ one one) by exact NA. apply (frozen_acc lr0 o0 rho Ho [(lr, g j)] (X k j) NV); [|now left]. constructor; [|constructor]. cbn. auto. }
  pose proof (zero_prod _ lr (zero_prod i (g j) ZI (Fg j Hj)) Fl) as [Fc Zc]. set (c := Bmult mode_NE (Bmult mode_NE i (g j)) lr) in *.
  destruct (val_sub v c Fv Fc) as [Nv Vv]. rewrite Zc, Rminus_0_r, rnd_id in Vv by apply fmt_B2R. pose proof (big_lt v Fv) as B. rewrite clamp_id in Vv by lra.
  assert (F : fin (Bminus mode_NE v c)) by (apply fin_iff; split; [exact Nv|rewrite Vv; apply Rabs_def1; lra]). split; [exact F|]. now rewrite fin_val in Vv.
Qed.

(** RMSProp with beta = 0: after a gradient whose square overflows the next update makes the parameter NaN, and it stays NaN *)
Lemma nan_sub (x : fl) : Bminus mode_NE B754_nan x = B754_nan. Proof. destruct x; reflexivity. Qed.
Lemma nan_sub' (x : fl) : Bminus mode_NE x B754_nan = B754_nan. Proof. destruct x; reflexivity. Qed.
Theorem C111_rmsprop_beta_zero_nan lr0 m0 (w : Nm -> Z -> fl) cs lr o m k j l1 g1 l2 g2 rest :
  distinct_tensors addr P N -> (forall k, holds m0 (P k) (N k) (w k)) ->
  history addr P N lr0 (rms_prop lr0 zero) m0 cs lr o m -> (0 <= j < N k)%Z ->
  own_calls k j cs = (l1, g1) :: (l2, g2) :: rest -> fin g1 -> big emax <= B2R g1 * B2R g1 ->
  elem m (P k) j = Some (Some (B754_nan : fl)).
Proof.
  intros Hd Hw H Hj Ho F1 Hov. pose proof (history_params addr P N lr0 (rms_prop lr0 zero) m0 w cs lr o m k Hd ltac:(repeat split) Logic.I Hw H j Hj) as E. rewrite E. do 2 f_equal. rewrite Ho.
  cbn [fold_left fst snd]. match goal with |- context [fold_left ?f rest ?x] => set (ff := f); assert (A : e_w x = B754_nan) end.
  - cbn [o_kind rms_prop opt_new elem_step e_w e_v]. cbn [add mul sub one zero NF Num_fl]. assert (Z : 0 <= B2R (B754_zero false : fl) < 1) by (cbn; lra). destruct (rbeta_ok P24 EM (B754_zero false) eq_refl Z) as (Fr & [R1 R2] & _).
    pose proof (bpow_gt_0 radix2 (- prec)) as B0. rewrite (mul_over g1 g1 F1 F1 Hov). destruct (pos_sign _ Fr ltac:(lra)) as (mb & eb & Bb & ->). unfold invert_sqrt. cbn [lit div one nsqrt add NF Num_fl].
    destruct (Bmult mode_NE g2 g2) as [?|?| |? ? ? ?]; cbn [Bmult Bplus xorb]; destruct (fl_lit prec emax (1 # 1000000000)); cbn [Bplus Bsqrt Bdiv Bmult]; destruct Bone; cbn [Bdiv Bmult]; rewrite ?nan_sub'; reflexivity.
  - match goal with |- e_w (fold_left ff rest ?x) = _ => revert A; generalize x end. clear - rest. induction rest as [|[lr g] l IH]; intros x A; [exact A|]. cbn [fold_left]. apply IH. unfold ff. destruct x as [w v s]. cbn in A |- *. rewrite A. apply nan_sub.
Qed.

(** ** C112: the rounding error of gradient descent over a whole history *)
Definition real_calls (l : list (fl * fl)) : list (R * R) := map (fun lg => (B2R (fst lg), B2R (snd lg))) l.
Definition total_step (l : list (fl * fl)) : R := fold_right (fun lg s => Rabs (B2R (fst lg) * B2R (snd lg)) + s) 0 l.
Lemma accu_msub x y : accu (fun s => sub s (mul x y)) 1 (- (B2R y * B2R x)) (Rabs (B2R y * B2R x)) (fin x /\ fin y).
Proof.
  split; [lia|apply Rabs_pos| | |]; cbn [sub mul NF Num_fl].
  - intros s F. destruct (sub_fin_inv _ _ F) as (F1 & F2 & _). destruct (mul_fin_inv _ _ F2) as (F3 & F4 & _). auto.
  - intros s K M E A HK HM F [_ H]. split; [exact F|]. destruct (sub_fin_inv _ _ F) as (F1 & F2 & E1). destruct (mul_fin_inv _ _ F2) as (F3 & F4 & E2). rewrite E1, E2. unfold Rminus. rewrite <- rnd_opp, (Rmult_comm (B2R x)), <- (Rabs_Ropp (B2R y * B2R x)). now apply appR_mac; auto using fmt_B2R.
  - intros s K M E A HK HM [Fx Fy] [Fs H] L. pose proof (appR_A _ _ _ _ _ H) as HA. set (p := - (B2R y * B2R x)) in *. rewrite <- (Rabs_Ropp (B2R y * B2R x)) in L. fold p in L.
    assert (Q : appR (prec := prec) (emax := emax) 2 1 (rnd (prec := prec) (emax := emax) (0 + rnd (prec := prec) (emax := emax) p)) (0 + p) (Rabs 0 + Rabs p)).
    { apply (appR_mac 1 0); [lia|lia|apply fmt_0|]. now apply appR_exact. }
    rewrite Rabs_R0, !Rplus_0_l, (rnd_id (rnd (prec := prec) (emax := emax) p)) in Q by apply fmt_rnd. apply appR_bound in Q.
    destruct (val_mul x y Fx Fy) as [Nu V]. replace (B2R x * B2R y) with (- p) in V by (unfold p; ring). rewrite rnd_opp in V. assert (LP : Rabs (rnd (prec := prec) (emax := emax) p) < big emax).
    { apply Rle_lt_trans with (1 := Q). apply Rle_lt_trans with (2 := L). pose proof (Rabs_pos p). apply Rplus_le_compat; [lra|]. apply slack_mono; lia || lra. }
    apply Rabs_def2 in LP.
    assert (Fm : fin (Bmult mode_NE x y)).
    { apply fin_iff. split; [exact Nu|]. rewrite V. rewrite clamp_id by lra. apply Rabs_def1; lra. }
    destruct (mul_fin_inv _ _ Fm) as (_ & _ & Em). replace (B2R x * B2R y) with (- p) in Em by (unfold p; ring). rewrite rnd_opp in Em. destruct (val_sub s _ Fs Fm) as [N' V']. rewrite Em in V'.
    replace (B2R s - - rnd (prec := prec) (emax := emax) p) with (B2R s + rnd (prec := prec) (emax := emax) p) in V' by ring.
    pose proof (appR_mac K M _ _ _ p HK HM (fmt_B2R s) H) as Q'. apply appR_bound in Q'. assert (LS : Rabs (rnd (prec := prec) (emax := emax) (B2R s + rnd (prec := prec) (emax := emax) p)) < big emax) by lra.
    apply fin_iff. split; [exact N'|]. rewrite V'. apply Rabs_def2 in LS. rewrite clamp_id by lra. apply Rabs_def1; lra.
Qed.
Lemma gd_shift l : forall x, gd_rule x (real_calls l) = x + gd_rule 0 (real_calls l).
Proof.
  induction l as [|[lr g] l IH]; intros x; cbn [real_calls map gd_rule fst snd]; [ring|]. change (map _ l) with (real_calls l). rewrite (IH (x - _)), (IH (0 - _)). ring.
Qed.
Lemma accu_gd (f : @est fl -> fl * fl -> @est fl) l : (forall x lg, e_w (f x lg) = sub (e_w x) (mul (snd lg) (fst lg))) ->
  accu (fun s => e_w (fold_left f l (mk_est s zero zero))) (Z.of_nat (length l)) (gd_rule 0 (real_calls l)) (total_step l) (Forall (fun lg => fin (fst lg) /\ fin (snd lg)) l).
Proof.
  intros Hf. assert (Ex : forall x y, e_w x = e_w y -> forall l, e_w (fold_left f l x) = e_w (fold_left f l y)).
  { intros x y E l'. revert x y E. induction l' as [|lg l' IH]; intros x y E; [exact E|]. cbn [fold_left]. apply IH. rewrite !Hf. now rewrite E. }
  induction l as [|[lr g] l IH].
  - cbn. eapply accu_ext; [eapply accu_weaken; [apply (accu_skip 0); lia|lia|]| | |]; try reflexivity. split; auto.
  - pose proof (accu_seq _ _ _ _ _ _ _ _ _ _ (accu_msub g lr) IH) as Q. eapply accu_ext; [eapply accu_weaken; [exact Q| |]| | |].
    + cbn [length]. lia.
    + rewrite Forall_cons_iff. cbn [fst snd]. tauto.
    + intros s. cbn [fold_left]. apply Ex. rewrite Hf. reflexivity.
    + cbn [real_calls map gd_rule fst snd]. change (map _ l) with (real_calls l). rewrite gd_shift. ring.
    + cbn [total_step fold_right fst snd]. reflexivity.
Qed.
(** The computed parameter against the exact rule applied to the same learning rates and gradients. *)
Theorem C112_gradient_descent_accurate lr0 m0 (w : Nm -> Z -> fl) cs lr o m k j :
  distinct_tensors addr P N -> (forall k, holds m0 (P k) (N k) (w k)) ->
  history addr P N lr0 (grad_descent lr0) m0 cs lr o m -> (0 <= j < N k)%Z ->
  let l := own_calls k j cs in let n := Z.of_nat (length l) in
  exists v, elem m (P k) j = Some (Some v) /\
    accurate v (n + 1) n (gd_rule (B2R (w k j)) (real_calls l)) (Rabs (B2R (w k j)) + total_step l)
      (fin (w k j) /\ Forall (fun lg => fin (fst lg) /\ fin (snd lg)) l).
Proof.
  intros Hd Hw H Hj l n. pose proof (history_params addr P N lr0 (grad_descent lr0) m0 w cs lr o m k Hd ltac:(repeat split) Logic.I Hw H j Hj) as E. eexists. split; [exact E|]. cbv beta. fold l.
  assert (A : accu (fun s => e_w (fold_left (fun x lg => elem_step (o_kind (grad_descent lr0)) (fst lg) one one x (snd lg)) l (mk_est s zero zero))) n (gd_rule 0 (real_calls l)) (total_step l) (Forall (fun lg => fin (fst lg) /\ fin (snd lg)) l)).
  { apply accu_gd. intros [x v s] lg. reflexivity. }
  eapply accurate_ext; [exact (accu_accurate _ _ _ _ _ (w k j) A)|reflexivity| |reflexivity|reflexivity]. apply gd_shift.
Qed.
End Props.

(** ** The hypotheses can be met: two updates of one parameter, the first with an enormous gradient *)
Module Examples.
Section AnyT.
Context {T : Type} `{NT : Num T}.
Definition f_m (w0 w1 g0 g1 : T) : mem T := [Some [Some w0]; Some [Some w1]; Some [Some g0]; Some [Some g1]].
Definition f_w (w0 w1 : T) (k : nat) (j : Z) : T := match k with 0%nat => w0 | _ => w1 end.
Lemma f_holds w0 w1 g0 g1 k : holds (f_m w0 w1 g0 g1) (ex_P k) (ex_N k) (f_w w0 w1 k).
Proof. destruct k as [|[|k]]; intros i Hi; cbn in Hi; try lia; replace i with 0%Z by lia; reflexivity. Qed.
Lemma f_grad b w0 w1 g0 g1 : (b = 2 \/ b = 3)%nat -> holds (f_m w0 w1 g0 g1) (Ptr b 0) 1 (fun _ => if Nat.eqb b 2 then g0 else g1).
Proof. intros [-> | ->] i Hi; replace i with 0%Z by lia; reflexivity. Qed.
Lemma f_sep lr0 (o : opt T) b : fresh_opt lr0 o -> (b = 2 \/ b = 3)%nat -> separate_gradient ex_addr ex_P ex_N o (Ptr b 0) 1.
Proof.
  intros (_ & E1 & E2 & E3 & _) Hb. split.
  - intros [|[|k]] b' i [-> Hi]; cbn; intros [E Hi2]; lia.
  - intros k q. unfold opt_memory. rewrite E1, E2, E3. cbn. intros [<-|[<-|[<-|[]]]] b' i _ [].
Qed.
(** tensor 0 is updated with gradient [g0]; a second update with gradient [g1] is then possible *)
Lemma f_history lr0 (o0 : opt T) w0 w1 g0 g1 : fresh_opt lr0 o0 ->
  exists o m o' m', history ex_addr ex_P ex_N lr0 o0 (f_m w0 w1 g0 g1) [mk_call 0%nat lr0 (fun _ => g0)] lr0 o m /\
    holds m (Ptr 3 0) 1 (fun _ => g1) /\ separate_gradient ex_addr ex_P ex_N o (Ptr 3 0) 1 /\
    opt_update ex_addr o (ex_P 0, ex_N 0) (Ptr 3 0, 1%Z) m = Ok (o', m') /\
    history ex_addr ex_P ex_N lr0 o0 (f_m w0 w1 g0 g1) [mk_call 0%nat lr0 (fun _ => g0); mk_call 0%nat lr0 (fun _ => g1)] lr0 o' m'.
Proof.
  intros Hf. pose proof (h_start ex_addr ex_P ex_N lr0 o0 (f_m w0 w1 g0 g1)) as H0.
  destruct (history_progress ex_addr ex_P ex_N lr0 o0 _ (f_w w0 w1) [] lr0 o0 _ 0%nat (Ptr 2 0) (fun _ => g0) ex_distinct Hf (f_holds w0 w1 g0 g1) H0)
    as (o1 & m1 & E1 & _ & _ & F1 & S1); [apply (f_grad 2); auto|apply (f_sep lr0 o0 2); auto|].
  assert (H1 : history ex_addr ex_P ex_N lr0 o0 (f_m w0 w1 g0 g1) [mk_call 0%nat lr0 (fun _ => g0)] lr0 o1 m1).
  { eapply (h_update ex_addr ex_P ex_N lr0 o0 _ [] lr0 o0 _ 0%nat (Ptr 2 0)); [exact H0|apply (f_grad 2); auto|apply (f_sep lr0 o0 2); auto|exact E1]. }
  assert (Hg : holds m1 (Ptr 3 0) 1 (fun _ => g1)).
  { apply F1; [apply (f_grad 3); auto| | |].
    - intros b i [-> _] [E _]. discriminate.
    - intros b i [-> _] [E _]. discriminate.
    - intros r Hr. apply (f_sep lr0 o0 3) in Hr; auto. }
  assert (Hs : separate_gradient ex_addr ex_P ex_N o1 (Ptr 3 0) 1).
  { apply S1; [|apply (f_sep lr0 o0 3); auto]. eapply holds_room. apply (f_grad 3); auto. }
  destruct (history_progress ex_addr ex_P ex_N lr0 o0 _ (f_w w0 w1) _ lr0 o1 m1 0%nat (Ptr 3 0) (fun _ => g1) ex_distinct Hf (f_holds w0 w1 g0 g1) H1 Hg Hs)
    as (o2 & m2 & E2 & _).
  exists o1, m1, o2, m2. split; [exact H1|]. split; [exact Hg|]. split; [exact Hs|]. split; [exact E2|].
  eapply (h_update ex_addr ex_P ex_N lr0 o0 _ [mk_call 0%nat lr0 (fun _ => g0)] lr0 o1 m1 0%nat (Ptr 3 0) (fun _ => g1)); [exact H1|exact Hg|exact Hs|exact E2].
Qed.
End AnyT.
#[local] Instance Hp24 : Prec_gt_0 24 := eq_refl.
#[local] Instance He24 : Prec_lt_emax 24 128 := eq_refl.
Definition lib24 := cr_lib (prec := 24) (emax := 128).
#[local] Instance N24 : Num (fl 24 128) := Num_fl 24 128 lib24.
Definition pw (k : Z) : fl 24 128 := fl_of (bpow radix2 k).
Lemma pw_ok k : (-100 <= k < 128)%Z -> fin (pw k) /\ B2R (pw k) = bpow radix2 k.
Proof. intros Hk. apply fl_of_exact; [apply fmt_bpow; lia|]. rewrite Rabs_pos_eq by apply bpow_ge_0. apply bpow_lt. lia. Qed.
Lemma pw_most j k : (-100 <= k < 128)%Z -> (k <= j)%Z -> at_most j (pw k).
Proof. intros Hk Hj. destruct (pw_ok k Hk) as [F V]. split; [exact F|]. rewrite V, Rabs_pos_eq by apply bpow_ge_0. now apply bpow_le. Qed.

Ltac calls := unfold all_calls; repeat (apply Forall_cons; [split; cbn [c_lr c_grad]; intros; first [apply pw_most; lia|apply pw_ok; lia]|]); apply Forall_nil.

(** Adam in float with rate 2^-7, beta1 = 1/2, beta2 = 1/2, gradients 2^10 and 2^-5: finite whatever follows *)
Example C110_adam : exists cs o m v, history ex_addr ex_P ex_N (pw (-7)) (adam (pw (-7)) (pw (-1)) (pw (-1))) (f_m (pw 0) (pw 0) (pw 10) (pw (-5))) cs (pw (-7)) o m /\
  length cs = 2%nat /\ elem m (ex_P 0) 0 = Some (Some v) /\ at_most 100 v.
Proof.
  destruct (f_history (pw (-7)) (adam (pw (-7)) (pw (-1)) (pw (-1))) (pw 0) (pw 0) (pw 10) (pw (-5)) ltac:(repeat split)) as (_ & _ & o & m & _ & _ & _ & _ & H).
  assert (Fl : fin (pw (-7))) by (apply pw_ok; lia).
  assert (Hu : usual_optimizer lib24 (pw (-7)) (adam (pw (-7)) (pw (-1)) (pw (-1)))).
  { right. right. right. right. right. destruct (pw_ok (-1) ltac:(lia)) as [F V]. exists (pw (-1)), (pw (-1)). split; [exact F|]. split; [exact F|]. rewrite V. change (bpow radix2 (-1)) with (/ 2). split; [lra|]. split; [lra|reflexivity]. }
  assert (Hc : all_calls ex_N (at_most 0) (at_most 10) [mk_call 0%nat (pw (-7)) (fun _ => pw 10); mk_call 0%nat (pw (-7)) (fun _ => pw (-5))]).
  { calls. }
  destruct (C110_parameters_stay_finite (prec := 24) (emax := 128) ltac:(lia) ltac:(lia) lib24 ex_addr ex_P ex_N 0 10 100 _ _ _ (f_w (pw 0) (pw 0)) _ _ o m ltac:(lia) ltac:(lia) ltac:(lia) ltac:(lia) ltac:(lia) ex_distinct Fl Hu (f_holds _ _ _ _)
    ltac:(intros k j _; unfold f_w; destruct k; apply pw_most; lia) H Hc 0%nat) as (v & Hv & B).
  do 4 eexists. split; [exact H|]. split; [reflexivity|]. split; [exact (Hv 0%Z ltac:(cbn; lia))|]. apply B. cbn. lia.
Qed.
(** AdaGrad in float: a gradient of 2^100, whose square overflows; the next gradient, 1, has no effect *)
Example C111_frozen : exists o m o' m' v v', history ex_addr ex_P ex_N (pw (-7)) (ada_grad (pw (-7))) (f_m (pw 0) (pw 0) (pw 100) (pw 0)) [mk_call 0%nat (pw (-7)) (fun _ => pw 100)] (pw (-7)) o m /\
  opt_update ex_addr o (ex_P 0, ex_N 0) (Ptr 3 0, 1%Z) m = Ok (o', m') /\
  elem m (ex_P 0) 0 = Some (Some v) /\ at_most 60 v /\ elem m' (ex_P 0) 0 = Some (Some v') /\ fin v' /\ B2R v' = B2R v.
Proof.
  assert (Hso : scaled_optimizer lib24 (pw (-7)) (ada_grad (pw (-7))) 1) by (left; split; reflexivity).
  destruct (f_history (pw (-7)) (ada_grad (pw (-7))) (pw 0) (pw 0) (pw 100) (pw 0) ltac:(repeat split)) as (o & m & o' & m' & H & Hg & Hs & E & _).
  assert (Hc : all_calls ex_N (at_most 0) fin [mk_call 0%nat (pw (-7)) (fun _ => pw 100)]) by calls.
  assert (Hc' : all_calls ex_N fin fin [mk_call 0%nat (pw (-7)) (fun _ => pw 100)]) by calls.
  destruct (C111_any_gradient_stays_finite (prec := 24) (emax := 128) ltac:(lia) ltac:(lia) lib24 ex_addr ex_P ex_N 0 60 _ _ 1 _ (f_w (pw 0) (pw 0)) _ _ o m ltac:(lia) ltac:(lia) ltac:(lia) ex_distinct Hso (f_holds _ _ _ _)
    ltac:(intros k j _; unfold f_w; destruct k; apply pw_most; lia) H Hc 0%nat) as (v & Hv & B).
  specialize (Hv 0%Z ltac:(cbn; lia)). specialize (B 0%Z ltac:(cbn; lia)).
  destruct (C111_overflow_freezes (prec := 24) (emax := 128) ltac:(lia) ltac:(lia) lib24 ex_addr ex_P ex_N _ _ 1 _ (f_w (pw 0) (pw 0)) _ _ o m 0%nat (Ptr 3 0) (fun _ => pw 0) o' m' ex_distinct Hso (f_holds _ _ _ _) H Hc') with (j := 0%Z) (v := v 0%Z) as (v' & Ev & Fv & Bv); auto.
  - apply pw_ok. lia.
  - intros. apply pw_ok. lia.
  - cbn. lia.
  - apply B.
  - apply Exists_cons_hd. unfold overflows. cbn [snd c_grad]. destruct (pw_ok 100 ltac:(lia)) as [_ ->]. rewrite <- bpow_plus. unfold big. apply bpow_le. lia.
  - exists o, m, o', m', (v 0%Z), v'. auto 10.
Qed.
(** RMSProp with beta = 0 in float: gradients 2^100 and 1 make the parameter NaN *)
Example C111_rmsprop_nan : exists cs o m, history ex_addr ex_P ex_N (pw (-7)) (rms_prop (pw (-7)) zero) (f_m (pw 0) (pw 0) (pw 100) (pw 0)) cs (pw (-7)) o m /\
  elem m (ex_P 0) 0 = Some (Some B754_nan).
Proof.
  destruct (f_history (pw (-7)) (rms_prop (pw (-7)) zero) (pw 0) (pw 0) (pw 100) (pw 0) ltac:(repeat split)) as (_ & _ & o & m & _ & _ & _ & _ & H).
  do 3 eexists. split; [exact H|].
  apply (C111_rmsprop_beta_zero_nan (prec := 24) (emax := 128) ltac:(lia) ltac:(lia) lib24 ex_addr ex_P ex_N _ _ (f_w (pw 0) (pw 0)) _ _ o m 0%nat 0%Z (pw (-7)) (pw 100) (pw (-7)) (pw 0) [] ex_distinct (f_holds _ _ _ _) H); [cbn; lia|reflexivity|apply pw_ok; lia|].
  destruct (pw_ok 100 ltac:(lia)) as [_ ->]. rewrite <- bpow_plus. unfold big. apply bpow_le. lia.
Qed.
(** gradient descent in float, two steps: within three roundings of 1 - 2^-7 * 4 - 2^-7 * 8 = 1 - 3/32 *)
Example C112_two_steps : exists cs o m v, history ex_addr ex_P ex_N (pw (-7)) (grad_descent (pw (-7))) (f_m (pw 0) (pw 0) (pw 2) (pw 3)) cs (pw (-7)) o m /\
  elem m (ex_P 0) 0 = Some (Some v) /\ fin v /\ Rabs (B2R v - (1 - 3 / 32)) <= roundings 24 128 3 2 (1 + 3 / 32).
Proof.
  destruct (f_history (pw (-7)) (grad_descent (pw (-7))) (pw 0) (pw 0) (pw 2) (pw 3) ltac:(repeat split)) as (_ & _ & o & m & _ & _ & _ & _ & H).
  destruct (C112_gradient_descent_accurate (prec := 24) (emax := 128) lib24 ex_addr ex_P ex_N _ _ (f_w (pw 0) (pw 0)) _ _ o m 0%nat 0%Z ex_distinct (f_holds _ _ _ _) H ltac:(cbn; lia)) as (v & Ev & A1 & A2).
  do 4 eexists. split; [exact H|]. split; [exact Ev|].
  match type of A2 with ?ok -> _ => assert (OK : ok) end.
  { split; [apply pw_ok; lia|]. repeat (apply Forall_cons; [split; cbn [fst snd]; apply pw_ok; lia|]). apply Forall_nil. }
  destruct (pw_ok (-7) ltac:(lia)) as [_ V7]. destruct (pw_ok 0 ltac:(lia)) as [_ V0]. destruct (pw_ok 2 ltac:(lia)) as [_ V2]. destruct (pw_ok 3 ltac:(lia)) as [_ V3].
  assert (X : Rabs (B2R (f_w (pw 0) (pw 0) 0 0)) + total_step (own_calls 0%nat 0%Z [mk_call 0%nat (pw (-7)) (fun _ => pw 2); mk_call 0%nat (pw (-7)) (fun _ => pw 3)]) = 1 + 3 / 32).
  { unfold total_step. cbn [own_calls filter same names_nat Nat.eqb c_tensor map fold_right fst snd c_lr c_grad f_w]. rewrite V7, V0, V2, V3. rewrite <- !bpow_plus, !Rabs_pos_eq by apply bpow_ge_0. change (bpow radix2 (-7 + 2)) with (/ 32). change (bpow radix2 (-7 + 3)) with (/ 16). change (bpow radix2 0) with 1. lra. }
  assert (Y : gd_rule (B2R (f_w (pw 0) (pw 0) 0 0)) (real_calls (own_calls 0%nat 0%Z [mk_call 0%nat (pw (-7)) (fun _ => pw 2); mk_call 0%nat (pw (-7)) (fun _ => pw 3)])) = 1 - 3 / 32).
  { unfold real_calls. cbn [own_calls filter same names_nat Nat.eqb c_tensor map gd_rule fst snd c_lr c_grad f_w]. rewrite V7, V0, V2, V3. rewrite <- !bpow_plus. change (bpow radix2 (-7 + 2)) with (/ 32). change (bpow radix2 (-7 + 3)) with (/ 16). change (bpow radix2 0) with 1. lra. }
  rewrite X in A1, A2. rewrite Y in A1. change (Z.of_nat _ + 1)%Z with 3%Z in A1, A2. change (Z.of_nat _) with 2%Z in A1, A2.
  assert (F : fin v).
  { apply A2; [exact OK|]. unfold roundings. change (Z.to_nat 3) with 3%nat. assert (U : uro 24 <= / 64) by (unfold uro; change (/ 64) with (bpow radix2 (-6)); apply bpow_le; lia). assert (U0 : 0 < uro 24) by apply bpow_gt_0.
    assert (T : eta 24 128 <= 1) by (unfold eta; change 1 with (bpow radix2 0); apply bpow_le; lia). assert (T0 : 0 < eta 24 128) by apply bpow_gt_0.
    assert (B : 64 < big 128) by (change 64 with (bpow radix2 6); apply bpow_lt; lia). assert (Q : (1 + uro 24) ^ 3 <= 2) by nra. assert (Q0 : 1 <= (1 + uro 24) ^ 3) by (apply pow_R1_Rle; lra). nra. }
  split; [exact F|]. apply A1, F.
Qed.
End Examples.

Print Assumptions C110_parameters_stay_finite.
Print Assumptions C111_any_gradient_stays_finite.
Print Assumptions C111_step_bound.
Print Assumptions C111_overflow_freezes.
Print Assumptions C111_rmsprop_beta_zero_nan.
Print Assumptions C112_gradient_descent_accurate.

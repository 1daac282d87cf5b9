(** * Adam in IEEE arithmetic: the step does not depend on the size of the gradient (proofs for C126) *)
From Coq Require Import ZArith QArith Reals Lra Lia Psatz Bool.
From Flocq Require Import Core BinarySingleNaN.
From Verif Require Import Mem Scalar Optimizer OptimizerProofs OptimizerSpec OptimizerHist Functions Float FloatSpec FloatLemmas RSum FloatError FloatLib FloatAct FloatAcc FloatLoss FloatOpt.
Local Open Scope R_scope.

(** ** real numbers *)
Lemma titu2 (X Y a b : R) : 0 < a -> 0 < b -> (X + Y) ^ 2 / (a + b) <= X ^ 2 / a + Y ^ 2 / b.
Proof.
  intros A B. assert (E : X ^ 2 / a + Y ^ 2 / b - (X + Y) ^ 2 / (a + b) = (b * X - a * Y) ^ 2 / (a * b * (a + b))) by (field; lra).
  assert (0 <= (b * X - a * Y) ^ 2 / (a * b * (a + b))); [|lra]. apply Rmult_le_pos; [apply pow2_ge_0|]. left. apply Rinv_0_lt_compat. repeat apply Rmult_lt_0_compat; lra.
Qed.
Lemma titu3 (X Y Z a b c : R) : 0 < a -> 0 < b -> 0 < c -> a + b + c = 1 -> (X + Y + Z) ^ 2 <= X ^ 2 / a + Y ^ 2 / b + Z ^ 2 / c.
Proof.
  intros A B C E. pose proof (titu2 X Y a b A B). pose proof (titu2 (X + Y) Z (a + b) c ltac:(lra) C) as Q. rewrite E in Q. unfold Rdiv in Q at 1. rewrite Rinv_1, Rmult_1_r in Q. lra.
Qed.
(** [v] average of the gradients with weight c, [s] average of their squares with weight e2 = 1 - b2 *)
Lemma coupled (u eta tau th b1 c b2 v s g v' s' : R) :
  0 < u <= / 16777216 -> 0 <= eta -> 0 < tau -> 0 < th < 1 -> 0 <= b1 -> 0 < c -> 0 <= b2 < 1 -> 0 <= s ->
  b1 ^ 2 * (1 + 16 * u) <= th * b2 -> 6 * eta <= (1 - b2) * tau -> 18 * eta ^ 2 <= u * c ^ 2 * tau ->
  let k := (1 + 16 * u) / ((1 - th) * (1 - b2)) in
  v ^ 2 <= c ^ 2 * k * (s + tau) ->
  Rabs v' <= (1 + u) ^ 2 * (b1 * Rabs v + c * Rabs g) + 3 * eta ->
  (1 - u) ^ 2 * (b2 * s) + (1 - u) ^ 4 * ((1 - b2) * g ^ 2) - 3 * eta <= s' ->
  v' ^ 2 <= c ^ 2 * k * (s' + tau).
Proof.
  intros U Et Ta Th B1 Cp B2 S0 HB E1 E2 k Hv Hv' Hs'. set (h := 1 - th) in *. set (e := 1 - b2) in *. assert (h0 : 0 < h) by (unfold h; lra). assert (e0 : 0 < e) by (unfold e; lra).
  assert (F1 : (1 + u) ^ 4 <= (1 + 16 * u) * (1 - u) ^ 2) by nra.
  assert (F2 : (1 + u) ^ 4 <= (1 + 16 * u) * (1 - u) ^ 5).
  { apply Rle_trans with ((1 + 16 * u) * (1 - 5 * u)); [nra|]. apply Rmult_le_compat_l; [lra|].
    replace ((1 - u) ^ 5) with (1 - 5 * u + u ^ 2 * (10 - 10 * u + 5 * u ^ 2 - u ^ 3)) by ring. assert (0 <= u ^ 2) by apply pow2_ge_0. assert (u ^ 3 <= 1) by (replace 1 with (1 ^ 3) by ring; apply pow_incr; lra). assert (0 <= u ^ 2 * (10 - 10 * u + 5 * u ^ 2 - u ^ 3)) by (apply Rmult_le_pos; nra). lra. }
  assert (k0 : 0 < k) by (unfold k; apply Rdiv_lt_0_compat; [lra|now apply Rmult_lt_0_compat]). set (K := c ^ 2 * k) in *. assert (K0 : 0 < K) by (unfold K; apply Rmult_lt_0_compat; [now apply pow_lt|exact k0]).
  set (X := (1 + u) ^ 2 * (b1 * Rabs v)). set (Y := (1 + u) ^ 2 * (c * Rabs g)). set (Z := 3 * eta).
  assert (Q0 : v' ^ 2 <= (X + Y + Z) ^ 2). { rewrite <- pow2_abs. apply pow_incr. split; [apply Rabs_pos|]. unfold X, Y, Z. lra. }
  pose proof (titu3 X Y Z th (h * (1 - u)) (h * u) ltac:(lra) ltac:(nra) ltac:(nra) ltac:(unfold h; ring)) as T.
  assert (A1 : X ^ 2 / th <= K * ((1 - u) ^ 2 * (b2 * s) + b2 * tau)).
  { apply Rle_trans with ((1 - u) ^ 2 * b2 * v ^ 2).
    - unfold X. replace (((1 + u) ^ 2 * (b1 * Rabs v)) ^ 2) with ((1 + u) ^ 4 * b1 ^ 2 * v ^ 2) by (rewrite <- (pow2_abs v); ring).
      replace ((1 + u) ^ 4 * b1 ^ 2 * v ^ 2 / th) with ((1 + u) ^ 4 * b1 ^ 2 / th * v ^ 2) by (field; lra). apply Rmult_le_compat_r; [apply pow2_ge_0|].
      apply Rmult_le_reg_r with th; [lra|]. replace ((1 + u) ^ 4 * b1 ^ 2 / th * th) with ((1 + u) ^ 4 * b1 ^ 2) by (field; lra).
      apply Rle_trans with ((1 + 16 * u) * (1 - u) ^ 2 * b1 ^ 2); [apply Rmult_le_compat_r; [apply pow2_ge_0|exact F1]|].
      replace ((1 + 16 * u) * (1 - u) ^ 2 * b1 ^ 2) with ((1 - u) ^ 2 * (b1 ^ 2 * (1 + 16 * u))) by ring. replace ((1 - u) ^ 2 * b2 * th) with ((1 - u) ^ 2 * (th * b2)) by ring. apply Rmult_le_compat_l; [apply pow2_ge_0|exact HB].
    - apply Rle_trans with ((1 - u) ^ 2 * b2 * (K * (s + tau))). { apply Rmult_le_compat_l; [|exact Hv]. apply Rmult_le_pos; [apply pow2_ge_0|lra]. }
      replace ((1 - u) ^ 2 * b2 * (K * (s + tau))) with (K * ((1 - u) ^ 2 * (b2 * s) + (1 - u) ^ 2 * (b2 * tau))) by ring. apply Rmult_le_compat_l; [lra|]. apply Rplus_le_compat_l.
      assert (0 <= b2 * tau) by (apply Rmult_le_pos; lra). assert ((1 - u) ^ 2 <= 1) by nra. nra. }
  assert (A2 : Y ^ 2 / (h * (1 - u)) <= K * ((1 - u) ^ 4 * (e * g ^ 2))).
  { unfold Y, K, k. replace (((1 + u) ^ 2 * (c * Rabs g)) ^ 2) with ((1 + u) ^ 4 * (c ^ 2 * g ^ 2)) by (rewrite <- (pow2_abs g); ring).
    apply Rmult_le_reg_r with (h * (1 - u)); [nra|]. replace ((1 + u) ^ 4 * (c ^ 2 * g ^ 2) / (h * (1 - u)) * (h * (1 - u))) with ((1 + u) ^ 4 * (c ^ 2 * g ^ 2)) by (field; lra).
    replace (c ^ 2 * ((1 + 16 * u) / (h * e)) * ((1 - u) ^ 4 * (e * g ^ 2)) * (h * (1 - u))) with ((1 + 16 * u) * (1 - u) ^ 5 * (c ^ 2 * g ^ 2)) by (field; lra).
    apply Rmult_le_compat_r; [|exact F2]. apply Rmult_le_pos; apply pow2_ge_0. }
  assert (A3 : Z ^ 2 / (h * u) <= K * (e * tau - 3 * eta)).
  { apply Rle_trans with (K * (e * tau / 2)); [|apply Rmult_le_compat_l; lra]. unfold Z, K, k. apply Rmult_le_reg_r with (2 * (h * u)); [nra|].
    replace ((3 * eta) ^ 2 / (h * u) * (2 * (h * u))) with (18 * eta ^ 2) by (field; lra). replace (c ^ 2 * ((1 + 16 * u) / (h * e)) * (e * tau / 2) * (2 * (h * u))) with ((1 + 16 * u) * (u * c ^ 2 * tau)) by (field; lra).
    assert (0 <= u * c ^ 2 * tau) by (apply Rmult_le_pos; [apply Rmult_le_pos; [lra|apply pow2_ge_0]|lra]). nra. }
  apply Rle_trans with (1 := Q0). apply Rle_trans with (1 := T).
  apply Rle_trans with (K * ((1 - u) ^ 2 * (b2 * s) + (1 - u) ^ 4 * (e * g ^ 2) - 3 * eta + tau)); [|apply Rmult_le_compat_l; lra].
  replace (K * ((1 - u) ^ 2 * (b2 * s) + (1 - u) ^ 4 * (e * g ^ 2) - 3 * eta + tau)) with (K * ((1 - u) ^ 2 * (b2 * s) + b2 * tau) + K * ((1 - u) ^ 4 * (e * g ^ 2)) + K * (e * tau - 3 * eta)) by (unfold e; ring).
  lra.
Qed.

Section Adam.
Context {prec emax : Z} {Hp : Prec_gt_0 prec} {He : Prec_lt_emax prec emax} (P24 : (24 <= prec)%Z) (EM : (5 * prec + 8 <= emax)%Z).
Context (lib : libm prec emax).
Notation fl := (fl prec emax).
Notation rnd := (rnd (prec := prec) (emax := emax)).
Notation fmt := (fmt (prec := prec) (emax := emax)).
Notation clamp := (clamp (emax := emax)).
Notation u := (uro prec).
Notation eta := (eta prec emax).
Notation small := (small (prec := prec) (emax := emax)).
Notation tau := (bpow radix2 (-30)).
#[local] Instance NF : Num fl := Num_fl prec emax lib.
Implicit Types x y g w v s : fl.
Lemma u24 : 0 < u <= / 16777216.
Proof. split; [apply u_pos|]. unfold uro. apply Rle_trans with (bpow radix2 (-24)); [apply bpow_le; lia|]. right. reflexivity. Qed.
(** decay rates with b1^2 < th * b2 (up to rounding): gradients are forgotten faster than their squares *)
Definition rates (b1 b2 : fl) (th : R) : Prop :=
  (fin b1 /\ 0 <= B2R b1) /\ (fin b2 /\ 0 < B2R b2 < 1) /\ 0 < th <= 63 / 64 /\ (B2R b1) ^ 2 * (1 + 16 * u) <= th * B2R b2.
Lemma rates_b1 b1 b2 th : rates b1 b2 th -> 0 <= B2R b1 <= 127 / 128.
Proof. intros ((_ & B) & (_ & B2) & T & H). pose proof u24. split; [exact B|]. assert (B2R b1 ^ 2 <= 63 / 64); nra. Qed.
Definition scale (b1 b2 : fl) (th : R) : R := (B2R (Bminus mode_NE Bone b1)) ^ 2 * ((1 + 16 * u) / ((1 - th) * (1 - B2R b2))).
Definition linked (b1 b2 : fl) (th : R) (v s : fl) : Prop := s = B754_infinity false \/ (fin s /\ (B2R v) ^ 2 <= scale b1 b2 th * (B2R s + tau)).

Lemma rb1_ok b1 b2 th : rates b1 b2 th -> let r := Bminus mode_NE Bone b1 in fin r /\ / 128 <= B2R r <= 1 /\ B2R r <= (1 + u) * (1 - B2R b1).
Proof.
  intros H r. pose proof (rates_b1 _ _ _ H) as B. destruct H as ((F & _) & _). pose proof (fin_one (prec := prec) (emax := emax)) as F1. pose proof (val_one (prec := prec) (emax := emax)) as V1. pose proof (big_gt_1 (prec := prec) (emax := emax)) as B1.
  assert (W : within r (/ 128) 1) by (apply sub_within; auto using fmt_1; [change (/ 128) with (bpow radix2 (-7)); apply fmt_bpow; lia|lra|lra|lra]).
  assert (G : fin r) by (apply (within_fin _ _ _ W); lra). split; [exact G|]. split; [now apply within_B2R|].
  destruct (val_sub Bone b1 F1 F) as [N E]. fold r in N, E. rewrite (fin_rnd _ _ N E G), V1. destruct (rnd_minus_err (prec := prec) (emax := emax) 1 (B2R b1)) as (d & Hd & Ed); [apply fmt_1|apply fmt_B2R|].
  rewrite Ed. apply Rabs_le_inv in Hd. nra.
Qed.
Lemma mul_abs x y : fin x -> fin y -> fin (Bmult mode_NE x y) -> Rabs (B2R (Bmult mode_NE x y)) <= (1 + u) * (Rabs (B2R x) * Rabs (B2R y)) + eta.
Proof.
  intros Fx Fy F. destruct (mul_fin_inv _ _ F) as (_ & _ & ->). destruct (rnd_err (prec := prec) (emax := emax) (B2R x * B2R y)) as (d & e & Hd & He' & ->). pose proof (u_pos (prec := prec)).
  eapply Rle_trans; [apply Rabs_triang|]. rewrite !Rabs_mult. apply Rplus_le_compat; [|exact He']. rewrite Rmult_comm. apply Rmult_le_compat_r; [apply Rmult_le_pos; apply Rabs_pos|].
  eapply Rle_trans; [apply Rabs_triang|]. rewrite Rabs_R1. lra.
Qed.
Lemma eta_tiny : eta <= / 1000000.
Proof. unfold FloatSpec.eta. apply Rle_trans with (bpow radix2 (-20)); [apply bpow_le; lia|]. change (bpow radix2 (-20)) with (/ 1048576). lra. Qed.
(** the average of the gradients *)
Lemma avg_ok b b1 b2 th v g : (0 <= b)%Z -> (b + 1 < emax)%Z -> rates b1 b2 th -> small (b + 1) v -> small b g ->
  let v' := Bplus mode_NE (Bmult mode_NE v b1) (Bmult mode_NE (Bminus mode_NE Bone b1) g) in
  small (b + 1) v' /\ Rabs (B2R v') <= (1 + u) ^ 2 * (B2R b1 * Rabs (B2R v) + B2R (Bminus mode_NE Bone b1) * Rabs (B2R g)) + 3 * eta.
Proof.
  intros Hb Hb1 R Sv Sg. pose proof (rates_b1 _ _ _ R) as B. destruct (rb1_ok _ _ _ R) as (Fr & Lr & Ur). destruct R as ((F1 & B0) & _). set (r := Bminus mode_NE Bone b1) in *. pose proof u24 as U. pose proof (eta_pos (prec := prec) (emax := emax)) as T0. pose proof eta_tiny as T1.
  assert (S1 : small 0 b1) by (split; [exact F1|]; rewrite Rabs_pos_eq by lra; change (bpow radix2 0) with 1; lra).
  assert (S2 : small 0 r) by (split; [exact Fr|]; rewrite Rabs_pos_eq by lra; change (bpow radix2 0) with 1; lra).
  assert (SA : small (b + 1) (Bmult mode_NE v b1)) by (apply (mul_l P24 EM); auto; lia). assert (SB : small b (Bmult mode_NE r g)) by (apply (mul_r P24 EM); auto; lia).
  set (A := Bmult mode_NE v b1) in *. set (C := Bmult mode_NE r g) in *.
  assert (MA : Rabs (B2R A) <= (1 + u) * (Rabs (B2R v) * B2R b1) + eta). { rewrite <- (Rabs_pos_eq (B2R b1)) at 1 by lra. apply mul_abs; [apply Sv|exact F1|apply SA]. }
  assert (MC : Rabs (B2R C) <= (1 + u) * (B2R r * Rabs (B2R g)) + eta). { rewrite <- (Rabs_pos_eq (B2R r)) at 1 by lra. apply mul_abs; [exact Fr|apply Sg|apply SB]. }
  destruct (val_add A C (proj1 SA) (proj1 SB)) as [N E]. pose proof (Rabs_triang (B2R A) (B2R C)) as Tr.
  assert (S' : small (b + 1) (Bplus mode_NE A C)).
  { apply bounded; [exact N| |exact Hb1]. rewrite E. apply (clamp_abs P24 EM); [lia|]. eapply Rle_trans; [exact Tr|]. destruct Sv as [_ Sv]. destruct Sg as [_ Sg]. rewrite bpow_plus in *. change (bpow radix2 1) with 2 in *.
    assert (M1 : 1 <= bpow radix2 b) by (change 1 with (bpow radix2 0); now apply bpow_le). set (M := bpow radix2 b) in *. clearbody M.
    assert (Q1 : Rabs (B2R v) * B2R b1 <= M * 2 * B2R b1) by (apply Rmult_le_compat_r; lra). assert (Q2 : B2R r * Rabs (B2R g) <= (1 + u) * (1 - B2R b1) * M) by (apply Rmult_le_compat; try lra; apply Rabs_pos).
    set (vv := Rabs (B2R v) * B2R b1) in *. set (gg := B2R r * Rabs (B2R g)) in *. clearbody vv gg.
    apply Rle_trans with ((1 + u) * (M * 2 * B2R b1) + eta + ((1 + u) * ((1 + u) * (1 - B2R b1) * M) + eta)); [nra|].
    apply Rle_trans with (M * ((1 + u) * (1 + u) * (1 + B2R b1)) + 2 * eta).
    - assert (0 <= (1 + u) * (M * 2 * B2R b1) * u) by (repeat apply Rmult_le_pos; lra). nra.
    - assert ((1 + u) * (1 + u) * (1 + B2R b1) <= 2 - / 256) by nra. nra. }
  split; [exact S'|]. destruct (add_fin_inv _ _ (proj1 S')) as (_ & _ & ->). destruct (rnd_plus_err (prec := prec) (emax := emax) (B2R A) (B2R C)) as (d & Hd & ->); [apply fmt_B2R|apply fmt_B2R|].
  rewrite Rabs_mult. assert (D : Rabs (1 + d) <= 1 + u) by (eapply Rle_trans; [apply Rabs_triang|]; rewrite Rabs_R1; lra).
  apply Rle_trans with (((1 + u) * (Rabs (B2R v) * B2R b1) + eta + ((1 + u) * (B2R r * Rabs (B2R g)) + eta)) * (1 + u)); [apply Rmult_le_compat; auto using Rabs_pos; lra|]. nra.
Qed.
(** the average of the squares *)
Lemma sq_ok b2 s g : fin b2 -> 0 < B2R b2 < 1 -> nn s -> fin g ->
  let s' := Bplus mode_NE (Bmult mode_NE s b2) (Bmult mode_NE (Bmult mode_NE g g) (Bminus mode_NE Bone b2)) in
  nn s' /\ (s' = B754_infinity false \/ (fin s' /\ fin s /\ (1 - u) ^ 2 * (B2R b2 * B2R s) + (1 - u) ^ 4 * ((1 - B2R b2) * (B2R g) ^ 2) - 3 * eta <= B2R s')).
Proof.
  intros F2 B2 Ns Fg s'. assert (B2' : 0 <= B2R b2 < 1) by lra. assert (N' : nn s') by (apply (rms_nn P24 EM); auto; lra). split; [exact N'|]. destruct (nn_cases _ N') as [E|[F P]]; [now left|right]. split; [exact F|].
  destruct (rbeta_ok P24 EM b2 F2 B2') as (Fr & [R1 R2] & R3). set (r := Bminus mode_NE Bone b2) in *. pose proof u24 as U. pose proof (eta_pos (prec := prec) (emax := emax)) as T0. pose proof (bpow_gt_0 radix2 (- prec)) as B0.
  destruct (add_fin_inv _ _ F) as (FA & FB & E). destruct (mul_fin_inv _ _ FA) as (Fs & _ & EA). destruct (mul_fin_inv _ _ FB) as (FG & _ & EB). destruct (mul_fin_inv _ _ FG) as (_ & _ & EG). split; [exact Fs|].
  destruct Ns as [_ Ns]. rewrite fin_val in Ns by exact Fs. destruct (nn_square g Fg) as [_ NG]. rewrite fin_val in NG by exact FG. set (A := B2R (Bmult mode_NE s b2)) in *. set (C := B2R (Bmult mode_NE (Bmult mode_NE g g) r)) in *. set (gg := B2R (Bmult mode_NE g g)) in *.
  destruct (rnd_plus_err (prec := prec) (emax := emax) A C) as (d & Hd & Ed); [apply fmt_B2R|apply fmt_B2R|].
  assert (LA : (1 - u) * (B2R b2 * B2R s) - eta <= A). { rewrite EA. destruct (rnd_err (prec := prec) (emax := emax) (B2R s * B2R b2)) as (d1 & e1 & Hd1 & He1 & ->). apply Rabs_le_inv in Hd1, He1. assert (0 <= B2R s * B2R b2) by (apply Rmult_le_pos; lra). nra. }
  assert (LG : (1 - u) * B2R g ^ 2 - eta <= gg). { rewrite EG. destruct (rnd_err (prec := prec) (emax := emax) (B2R g * B2R g)) as (d1 & e1 & Hd1 & He1 & ->). apply Rabs_le_inv in Hd1, He1. assert (0 <= B2R g * B2R g) by nra. nra. }
  assert (LC : (1 - u) * (gg * B2R r) - eta <= C). { rewrite EB. destruct (rnd_err (prec := prec) (emax := emax) (gg * B2R r)) as (d1 & e1 & Hd1 & He1 & ->). apply Rabs_le_inv in Hd1, He1. assert (0 <= gg * B2R r) by (apply Rmult_le_pos; lra). nra. }
  assert (A0 : 0 <= A). { rewrite EA. rewrite <- (rnd_0 (prec := prec) (emax := emax)). apply rnd_le. apply Rmult_le_pos; lra. }
  assert (C0 : 0 <= C). { rewrite EB. rewrite <- (rnd_0 (prec := prec) (emax := emax)). apply rnd_le. apply Rmult_le_pos; lra. }
  change (B2R s') with (B2R (Bplus mode_NE (Bmult mode_NE s b2) (Bmult mode_NE (Bmult mode_NE g g) r))). rewrite E, Ed. apply Rabs_le_inv in Hd. apply Rle_trans with ((A + C) * (1 - u)); [|apply Rmult_le_compat_l; lra].
  assert (G0 : 0 <= B2R g ^ 2) by apply pow2_ge_0. set (g2 := B2R g ^ 2) in *. set (e2 := 1 - B2R b2) in *.
  assert (L1 : (1 - u) * ((1 - u) * g2) * ((1 - u) * e2) - 2 * eta <= C).
  { apply Rle_trans with (2 := LC). assert (Q : ((1 - u) * g2 - eta) * B2R r <= gg * B2R r) by (apply Rmult_le_compat_r; lra). assert (Q1 : (1 - u) * g2 * ((1 - u) * e2) <= (1 - u) * g2 * B2R r) by (apply Rmult_le_compat_l; [apply Rmult_le_pos; lra|exact R3]).
    assert (Q2 : eta * B2R r <= eta) by nra. assert (Q3 : (1 - u) * g2 * ((1 - u) * e2) - eta <= gg * B2R r) by lra. nra. }
  replace ((1 - u) ^ 2 * (B2R b2 * B2R s) + (1 - u) ^ 4 * (e2 * g2) - 3 * eta) with (((1 - u) * (B2R b2 * B2R s) + (1 - u) * ((1 - u) * g2) * ((1 - u) * e2)) * (1 - u) - 3 * eta) by ring.
  assert (((1 - u) * (B2R b2 * B2R s) + (1 - u) * ((1 - u) * g2) * ((1 - u) * e2) - 3 * eta) <= A + C) by lra. nra.
Qed.
Lemma linked_step b b1 b2 th v s g : (0 <= b)%Z -> (b + 1 < emax)%Z -> rates b1 b2 th -> small (b + 1) v -> nn s -> linked b1 b2 th v s -> small b g ->
  linked b1 b2 th (Bplus mode_NE (Bmult mode_NE v b1) (Bmult mode_NE (Bminus mode_NE Bone b1) g)) (Bplus mode_NE (Bmult mode_NE s b2) (Bmult mode_NE (Bmult mode_NE g g) (Bminus mode_NE Bone b2))).
Proof.
  intros Hb Hb1 R Sv Ns Lk Sg. destruct (avg_ok b b1 b2 th v g Hb Hb1 R Sv Sg) as [_ V']. pose proof (rb1_ok _ _ _ R) as (Fr & Lr & _). destruct R as ((F1 & B1) & (F2 & B2) & Th & HB).
  destruct (sq_ok b2 s g F2 B2 Ns (proj1 Sg)) as [_ [E|(F & Fs & S')]]; [left; exact E|right]. split; [exact F|].
  destruct Lk as [->|[_ Lk]]; [discriminate Fs|]. destruct Ns as [_ Ns]. rewrite fin_val in Ns by exact Fs.
  pose proof (below_one P24 EM b2 F2 (proj2 B2)) as Q. unfold scale in *. unfold uro, FloatSpec.eta in *.
  apply (coupled (bpow radix2 (- prec)) (bpow radix2 (3 - emax - prec - 1)) tau th (B2R b1) _ (B2R b2) (B2R v) (B2R s) (B2R g)); auto; try lra.
  - exact u24.
  - apply bpow_ge_0.
  - apply bpow_gt_0.
  - apply Rle_trans with (bpow radix2 (- prec) * tau); [|apply Rmult_le_compat_r; [apply bpow_ge_0|exact Q]].
    apply Rle_trans with (bpow radix2 3 * bpow radix2 (3 - emax - prec - 1)); [apply Rmult_le_compat_r; [apply bpow_ge_0|change (bpow radix2 3) with 8; lra]|]. rewrite <- !bpow_plus. apply bpow_le. lia.
  - assert (C7 : bpow radix2 (-7) <= B2R (Bminus mode_NE Bone b1)) by (change (bpow radix2 (-7)) with (/ 128); lra).
    apply Rle_trans with (bpow radix2 (- prec) * bpow radix2 (-7) ^ 2 * tau).
    + apply Rle_trans with (bpow radix2 5 * (bpow radix2 (3 - emax - prec - 1) ^ 2)); [apply Rmult_le_compat_r; [apply pow2_ge_0|change (bpow radix2 5) with 32; lra]|]. cbn [pow]. rewrite !Rmult_1_r, <- !bpow_plus. apply bpow_le. lia.
    + apply Rmult_le_compat_r; [apply bpow_ge_0|]. apply Rmult_le_compat_l; [apply bpow_ge_0|]. apply pow_incr. split; [apply bpow_ge_0|exact C7].
Qed.
(** ** the step *)
Lemma inv_sqrt_e x g kappa : nn x -> fin g -> 0 < kappa -> x = B754_infinity false \/ kappa * (B2R g) ^ 2 <= val x + tau ->
  B2R (invert_sqrt x) * Rabs (B2R g) * ((1 - u) ^ 2 * sqrt kappa) <= 1 + u.
Proof.
  intros H Fg Kp Hk. pose proof u24 as U. destruct Hk as [->|Hk].
  { destruct (inv_sqrt_ok P24 EM lib _ H) as (_ & _ & Z0). destruct (Z0 eq_refl) as [_ Z]. refine (eq_ind_r (fun z => z * Rabs (B2R g) * ((1 - u) ^ 2 * sqrt kappa) <= 1 + u) _ Z). lra. }
  unfold invert_sqrt. cbn [lit div one nsqrt add NF Num_fl]. destruct (eps_ok P24 EM) as [Fe Pe]. set (eps := fl_lit prec emax (1#1000000000)) in *. pose proof (bpow_gt_0 radix2 (-30)) as B0.
  assert (Ne : nn eps) by (apply nn_fin; [exact Fe|lra]). pose proof (fin_one (prec := prec) (emax := emax)) as F1. pose proof (val_one (prec := prec) (emax := emax)) as V1.
  destruct (nn_add eps x Ne H) as (NS & L & L'). rewrite fin_val in L by exact Fe.
  destruct (nn_cases _ NS) as [E|[F P]].
  { rewrite E, sqrt_inf. destruct (div_inf Bone F1) as [_ Z]. rewrite Z. lra. }
  rewrite (fin_val _ F) in L, L'. destruct (val_sqrt _ F P) as (_ & Fs & Es). destruct (add_fin_inv _ _ F) as (_ & Fx & Eq). rewrite fin_val in Hk by exact Fx. set (q := Bplus mode_NE eps x) in *. set (s := Bsqrt mode_NE q) in *.
  assert (Gq : (1 - u) * (B2R eps + B2R x) <= B2R q).
  { rewrite Eq. destruct (rnd_plus_err (prec := prec) (emax := emax) (B2R eps) (B2R x)) as (d & Hd & ->); [apply fmt_B2R|apply fmt_B2R|]. apply Rabs_le_inv in Hd. destruct H as [_ H]. rewrite fin_val in H by exact Fx. nra. }
  assert (Lq : bpow radix2 (-15) <= sqrt (B2R q)).
  { rewrite <- (sqrt_bpow radix2 (-15)). apply sqrt_le_1_alt. change (2 * -15)%Z with (-30)%Z. lra. }
  pose proof (bpow_gt_0 radix2 (-15)) as B15.
  destruct (rnd_err_normal (prec := prec) (emax := emax) (sqrt (B2R q))) as (d & Hd & Ed).
  { rewrite Rabs_pos_eq by lra. apply Rle_trans with (2 := Lq). apply bpow_le. lia. }
  assert (Ls : (1 - u) * sqrt (B2R q) <= B2R s). { rewrite Es, Ed. apply Rabs_le_inv in Hd. nra. }
  assert (Ls2 : bpow radix2 (-15) <= B2R s). { rewrite Es. rewrite <- (rnd_id (bpow radix2 (-15))) by (apply (fmtz P24 EM); lia). now apply rnd_le. }
  assert (Us : B2R s <= bpow radix2 (emax - 2)).
  { rewrite Es. rewrite <- (rnd_id (prec := prec) (emax := emax) (bpow radix2 (emax - 2))) by (apply fmt_bpow; lia). apply rnd_le.
    pose proof (big_lt q F) as Bq. apply Rle_trans with (sqrt (bpow radix2 (2 * (emax - 2)))); [apply sqrt_le_1_alt; apply Rle_trans with (big emax); [lra|apply bpow_le; lia]|]. right. apply sqrt_bpow. }
  assert (Nm : bpow radix2 (2 - emax) <= / B2R s). { replace (2 - emax)%Z with (- (emax - 2))%Z by lia. rewrite bpow_opp. apply Rinv_le; [lra|exact Us]. }
  destruct (val_div Bone s F1 Fs ltac:(lra)) as [N E].
  assert (Pi : 0 < / B2R s) by (apply Rinv_0_lt_compat; lra).
  destruct (rnd_err_normal (prec := prec) (emax := emax) (1 / B2R s)) as (d' & Hd' & Ed').
  { unfold Rdiv. rewrite Rmult_1_l, Rabs_pos_eq by lra. exact Nm. }
  destruct (inv_sqrt_ok P24 EM lib x H) as (Fd & _). unfold invert_sqrt in Fd. cbn [lit div one nsqrt add FloatOpt.NF Num_fl] in Fd. fold eps q in Fd. fold s in Fd.
  rewrite V1 in E. pose proof (fin_rnd _ _ N E Fd) as ER. rewrite ER, Ed'. unfold Rdiv. rewrite Rmult_1_l.
  assert (G : (1 - u) * (sqrt kappa * Rabs (B2R g)) <= sqrt (B2R q)).
  { rewrite <- sqrt_Rsqr_abs, <- sqrt_mult; [|lra|apply Rle_0_sqr]. rewrite <- (sqrt_Rsqr (1 - u)) at 1 by lra. rewrite <- sqrt_mult; [|apply Rle_0_sqr|apply Rmult_le_pos; [lra|apply Rle_0_sqr]]. apply sqrt_le_1_alt. apply Rle_trans with (2 := Gq). unfold Rsqr.
    apply Rle_trans with ((1 - u) * (kappa * (B2R g * B2R g))); [|apply Rmult_le_compat_l; lra]. apply Rmult_le_compat_r; [|nra]. apply Rmult_le_pos; [lra|nra]. }
  pose proof (sqrt_pos kappa) as SK. pose proof (Rabs_pos (B2R g)) as AG. apply Rabs_le_inv in Hd'.
  assert (G2 : Rabs (B2R g) * ((1 - u) ^ 2 * sqrt kappa) <= B2R s).
  { apply Rle_trans with (2 := Ls). replace (Rabs (B2R g) * ((1 - u) ^ 2 * sqrt kappa)) with ((1 - u) * ((1 - u) * (sqrt kappa * Rabs (B2R g)))) by ring. apply Rmult_le_compat_l; lra. }
  apply Rle_trans with (/ B2R s * (1 + d') * B2R s).
  - rewrite (Rmult_assoc _ (Rabs _)). apply Rmult_le_compat_l; [|exact G2]. apply Rmult_le_pos; lra.
  - replace (/ B2R s * (1 + d') * B2R s) with (1 + d') by (field; lra). lra.
Qed.
Definition reach (b2 : fl) (th : R) : R := sqrt ((1 - th) * (1 - B2R b2)).
Lemma reach_ok b1 b2 th : rates b1 b2 th -> 0 < reach b2 th <= 1 /\ / reach b2 th <= bpow radix2 prec.
Proof.
  intros (_ & (F2 & B2) & Th & _). pose proof (below_one P24 EM b2 F2 (proj2 B2)) as Q. unfold reach. set (e := 1 - B2R b2) in *. assert (E1 : e <= 1) by (unfold e; lra). pose proof (bpow_gt_0 radix2 (- prec)) as B0.
  assert (L : bpow radix2 (-6) * bpow radix2 (- prec) <= (1 - th) * e) by (apply Rmult_le_compat; try apply bpow_ge_0; [change (bpow radix2 (-6)) with (/ 64); lra|exact Q]).
  assert (U : (1 - th) * e <= 1) by nra. assert (L2 : bpow radix2 (- prec) <= sqrt ((1 - th) * e)).
  { rewrite <- (sqrt_bpow radix2 (- prec)). apply sqrt_le_1_alt. apply Rle_trans with (2 := L). rewrite <- bpow_plus. apply bpow_le. lia. }
  split; [split; [lra|]|].
  - pose proof (sqrt_le_1_alt _ _ U) as Q2. rewrite sqrt_1 in Q2. exact Q2.
  - rewrite (bpow_prec (prec := prec)). apply Rinv_le; lra.
Qed.
(** (1/sqrt(eps + q s')) |v'| *)
Lemma ratio_ok b1 b2 th v x s : rates b1 b2 th -> fin v -> nn x -> x = B754_infinity false \/ (fin s /\ B2R s <= val x) -> linked b1 b2 th v s \/ x = B754_infinity false ->
  B2R (invert_sqrt x) * Rabs (B2R v) * reach b2 th <= (1 + 12 * u) * B2R (Bminus mode_NE Bone b1).
Proof.
  intros R Fv Nx Hx Lk. pose proof u24 as U. destruct (rb1_ok _ _ _ R) as (Fr & Lr & _). pose proof (reach_ok _ _ _ R) as [[P0 P1] _]. pose proof R as (_ & (F2 & B2) & Th & _). set (c := B2R (Bminus mode_NE Bone b1)) in *. set (rho := reach b2 th) in *.
  set (D := (1 - th) * (1 - B2R b2)) in *. assert (D0 : 0 < D) by (unfold D; apply Rmult_lt_0_compat; lra).
  set (K := scale b1 b2 th). assert (K0 : 0 < K). { unfold K, scale. fold c D. apply Rmult_lt_0_compat; [apply pow_lt; lra|]. apply Rdiv_lt_0_compat; lra. }
  assert (Q : B2R (invert_sqrt x) * Rabs (B2R v) * ((1 - u) ^ 2 * sqrt (/ K)) <= 1 + u).
  { apply inv_sqrt_e; auto; [now apply Rinv_0_lt_compat|]. destruct Hx as [Hx|[Fs Hx]]; [now left|]. destruct Lk as [[Lk|[_ Lk]]|Lk]; [rewrite Lk in Fs; discriminate Fs| |now left]. right. fold K in Lk.
    apply Rmult_le_reg_l with K; [exact K0|]. rewrite <- Rmult_assoc, Rinv_r, Rmult_1_l by lra. apply Rle_trans with (1 := Lk). apply Rmult_le_compat_l; lra. }
  assert (SK : rho <= c * (1 + 8 * u) * sqrt (/ K)).
  { unfold rho, reach. fold D. replace (/ K) with ((/ c) ^ 2 * (D / (1 + 16 * u))) by (unfold K, scale; fold c D; field; lra). rewrite sqrt_mult by (try apply pow2_ge_0; left; apply Rdiv_lt_0_compat; lra).
    rewrite sqrt_pow2 by (left; apply Rinv_0_lt_compat; lra). replace (c * (1 + 8 * u) * (/ c * sqrt (D / (1 + 16 * u)))) with ((1 + 8 * u) * sqrt (D / (1 + 16 * u))) by (field; lra).
    rewrite <- (sqrt_pow2 (1 + 8 * u)) by lra. rewrite <- sqrt_mult by (try apply pow2_ge_0; left; apply Rdiv_lt_0_compat; lra). apply sqrt_le_1_alt.
    apply Rmult_le_reg_r with (1 + 16 * u); [lra|]. replace ((1 + 8 * u) ^ 2 * (D / (1 + 16 * u)) * (1 + 16 * u)) with ((1 + 8 * u) ^ 2 * D) by (field; lra). rewrite Rmult_comm. apply Rmult_le_compat_r; nra. }
  destruct (inv_sqrt_ok P24 EM lib x Nx) as (_ & [I0 _] & _). fold NF in I0. set (i := B2R (invert_sqrt x)) in *. pose proof (Rabs_pos (B2R v)) as V0. set (V := Rabs (B2R v)) in *. set (z := sqrt (/ K)) in *. assert (iv : 0 <= i * V) by now apply Rmult_le_pos.
  apply Rle_trans with (i * V * (c * (1 + 8 * u) * z)); [apply Rmult_le_compat_l; assumption|]. replace (i * V * (c * (1 + 8 * u) * z)) with (c * (1 + 8 * u) * (i * V * z)) by ring.
  assert (Y0 : 0 <= i * V * z) by (apply Rmult_le_pos; [exact iv|apply sqrt_pos]). assert (Y : i * V * z * (1 - u) ^ 2 <= 1 + u) by lra. set (y := i * V * z) in *. clearbody y.
  assert (Y2 : (1 + 8 * u) * y <= 1 + 12 * u).
  { apply Rmult_le_reg_r with ((1 - u) ^ 2); [apply pow_lt; lra|]. apply Rle_trans with ((1 + 8 * u) * (1 + u)); [nra|]. replace ((1 + 12 * u) * (1 - u) ^ 2) with ((1 + 8 * u) * (1 + u) + u * (1 - 31 * u + 12 * (u * u))) by ring. nra. }
  nra.
Qed.
(** the update of one element *)
Lemma adam_elem a b b1 b2 th (w v s lr t1 t2 g : fl) : (0 <= b)%Z -> (b + 1 < emax)%Z -> (-90 <= a)%Z -> (a + 7 < emax)%Z -> rates b1 b2 th ->
  fin t1 /\ 0 <= B2R t1 <= 1 -> fin t2 /\ 0 <= B2R t2 <= 1 -> small (b + 1) v -> nn s -> linked b1 b2 th v s -> small a lr -> small b g ->
  let kd := Adam b1 b2 (Bminus mode_NE Bone b1) (Bminus mode_NE Bone b2) in
  let x := elem_step kd lr (next_t1 kd t1) (next_t2 kd t2) (mk_est w v s) g in
  small (b + 1) (e_v x) /\ nn (e_s x) /\ linked b1 b2 th (e_v x) (e_s x) /\
  exists c, e_w x = Bminus mode_NE w c /\ num c /\ (fin c -> Rabs (B2R c) * reach b2 th <= (1 + 20 * u) * Rabs (B2R lr) + 3 * eta) /\
    (forall r, (0 <= r)%Z -> (a + r + 1 < emax)%Z -> / reach b2 th <= bpow radix2 r -> small (a + r + 1) c) /\
    (e_s x = B754_infinity false -> is0 c).
Proof.
  intros Hb Hb1 Ha Ha7 R [Ft1 Ht1] [Ft2 Ht2] Sv Ns Lk Sl Sg kd x. unfold x, kd. clear x kd. cbn [elem_step e_v e_s e_w next_t1 next_t2]. cbn [add mul sub div one NF Num_fl].
  destruct (avg_ok b b1 b2 th v g Hb Hb1 R Sv Sg) as [Sv' _]. pose proof (linked_step b b1 b2 th v s g Hb Hb1 R Sv Ns Lk Sg) as Lk'. destruct (rb1_ok _ _ _ R) as (Fr & Lr & _). pose proof (reach_ok _ _ _ R) as [[P0 P1] P2]. pose proof (rates_b1 _ _ _ R) as B1.
  pose proof R as ((F1 & _) & (F2 & B2) & Th & _). destruct (sq_ok b2 s g F2 B2 Ns (proj1 Sg)) as [Ns' Hs']. assert (B1' : 0 <= B2R b1 < 1) by lra. assert (B2' : 0 <= B2R b2 < 1) by lra.
  destruct (shrink t1 b1 Ft1 Ht1 F1 B1') as [Fu1 Hu1]. destruct (shrink t2 b2 Ft2 Ht2 F2 B2') as [Fu2 Hu2]. set (v' := Bplus mode_NE (Bmult mode_NE v b1) _) in *. set (s' := Bplus mode_NE (Bmult mode_NE s b2) _) in *. set (T1 := Bmult mode_NE t1 b1) in *. set (T2 := Bmult mode_NE t2 b2) in *.
  split; [exact Sv'|]. split; [exact Ns'|]. split; [exact Lk'|].
  set (q := Bdiv mode_NE Bone (Bminus mode_NE Bone T2)). pose proof (fin_one (prec := prec) (emax := emax)) as FO. pose proof (val_one (prec := prec) (emax := emax)) as VO. pose proof (big_pos (emax := emax)) as BP.
  destruct (rbeta_ok P24 EM T2 Fu2 ltac:(lra)) as (Fr2 & [L1 L2] & _). pose proof (bpow_gt_0 radix2 (- prec)) as B0.
  assert (W : within q 1 (bpow radix2 prec)).
  { apply div_within; auto using fmt_1; [lra|apply (fmtz P24 EM); lia|lra|pose proof (below (emax := emax) prec ltac:(lia)); lra|]. rewrite VO. unfold Rdiv. rewrite Rmult_1_l. split.
    - rewrite <- Rinv_1. apply Rinv_le; lra.
    - rewrite (bpow_prec (prec := prec)). apply Rinv_le; lra. }
  pose proof (below (emax := emax) prec ltac:(lia)) as Bpr. assert (Fq : fin q) by (apply (within_fin _ _ _ W); lra). pose proof (within_B2R _ _ _ Fq W) as Vq.
  set (X := Bmult mode_NE q s'). assert (NX : nn X) by (apply (proj2 (nn_mul s' q Ns' Fq ltac:(lra)))).
  assert (HX : X = B754_infinity false \/ (fin s' /\ B2R s' <= val X)).
  { destruct Hs' as [E|(Fs' & _ & _)].
    - left. unfold X. rewrite E. destruct (pos_sign q Fq ltac:(lra)) as (mq & eq & Bq & ->). reflexivity.
    - right. split; [exact Fs'|]. destruct (val_mul q s' Fq Fs') as [_ EX]. fold X in EX. rewrite EX. pose proof (big_lt s' Fs'). destruct Ns' as [_ N0]. rewrite fin_val in N0 by exact Fs'. apply le_clamp; [apply fmt_B2R|lra|nra]. }
  pose proof (ratio_ok b1 b2 th v' X s' R (proj1 Sv') NX HX (or_introl Lk')) as Ra. destruct (inv_sqrt_ok P24 EM lib X NX) as (Fi & [I0 I1] & IZ). change (FloatOpt.NF lib) with (Num_fl prec emax lib) in Fi, I0, I1, IZ. unfold NF in Ra |- *. set (i := @invert_sqrt _ (Num_fl prec emax lib) X) in *. clearbody i.
  set (c := B2R (Bminus mode_NE Bone b1)) in *. set (rho := reach b2 th) in *. pose proof u24 as U. pose proof (eta_pos (prec := prec) (emax := emax)) as E0. pose proof (Rinv_0_lt_compat rho ltac:(lra)) as PI.
  assert (Eu : eta <= u / 128). { unfold FloatSpec.eta, uro. change (/ 128) with (bpow radix2 (-7)). unfold Rdiv. change (/ 128) with (bpow radix2 (-7)). rewrite <- bpow_plus. apply bpow_le. lia. }
  assert (Av : Rabs (B2R i * B2R v') = B2R i * Rabs (B2R v')) by (rewrite Rabs_mult, (Rabs_pos_eq (B2R i)); lra).
  assert (Ra' : B2R i * Rabs (B2R v') <= (1 + 12 * u) * c * / rho). { apply Rmult_le_reg_r with rho; [lra|]. rewrite (Rmult_assoc _ (/ rho)), Rinv_l, Rmult_1_r by lra. exact Ra. }
  (* the product with the root *)
  destruct (val_mul i v' Fi (proj1 Sv')) as [Np Ep]. set (p := Bmult mode_NE i v') in *.
  assert (Sp : small (prec + 1) p).
  { apply bounded; [exact Np| |lia]. rewrite Ep. apply (clamp_abs P24 EM); [lia|]. rewrite Av. apply Rle_trans with (1 := Ra'). rewrite bpow_plus. change (bpow radix2 1) with 2. rewrite (Rmult_comm (bpow _ _)). apply Rmult_le_compat; try lra; [apply Rmult_le_pos; lra|nra]. }
  assert (Bp : Rabs (B2R p) * rho <= (1 + 15 * u) * c).
  { apply Rle_trans with (((1 + u) * (B2R i * Rabs (B2R v')) + eta) * rho).
    - apply Rmult_le_compat_r; [lra|]. rewrite <- (Rabs_pos_eq (B2R i)) by lra. apply mul_abs; [exact Fi|apply Sv'|apply Sp].
    - assert (eta * rho <= u * c) by nra. nra. }
  (* the learning rate over 1 - t1 *)
  destruct (rbeta_ok P24 EM T1 Fu1 ltac:(lra)) as (Fw & [Lw1 Lw2] & _). set (ww := Bminus mode_NE Bone T1) in *.
  assert (Cw : c <= B2R ww). { destruct (val_sub Bone T1 FO Fu1) as [Nw Ew]. fold ww in Nw, Ew. rewrite (fin_rnd _ _ Nw Ew Fw). destruct (val_sub Bone b1 FO F1) as [Nc Ec]. unfold c. rewrite (fin_rnd _ _ Nc Ec Fr). apply rnd_le. lra. }
  destruct (val_div lr ww (proj1 Sl) Fw ltac:(lra)) as [Nl El]. set (l := Bdiv mode_NE lr ww) in *.
  assert (Iw : / B2R ww <= / c) by (apply Rinv_le; lra). assert (Iw0 : 0 < / B2R ww) by (apply Rinv_0_lt_compat; lra). assert (Ic : / c <= 128) by (rewrite <- (Rinv_inv 128); apply Rinv_le; lra).
  assert (Al : Rabs (B2R lr / B2R ww) <= Rabs (B2R lr) * / c). { unfold Rdiv. rewrite Rabs_mult. apply Rmult_le_compat_l; [apply Rabs_pos|]. rewrite Rabs_pos_eq; lra. }
  assert (Sl' : small (a + 7) l).
  { apply bounded; [exact Nl| |exact Ha7]. rewrite El. apply (clamp_abs P24 EM); [lia|]. apply Rle_trans with (1 := Al). rewrite bpow_plus. change (bpow radix2 7) with 128. apply Rmult_le_compat; auto using Rabs_pos; [left; apply Rinv_0_lt_compat; lra|apply Sl]. }
  assert (Bl : Rabs (B2R l) * c <= (1 + u) * Rabs (B2R lr) + eta).
  { rewrite (fin_rnd _ _ Nl El (proj1 Sl')). destruct (rnd_err (prec := prec) (emax := emax) (B2R lr / B2R ww)) as (d & e & Hd & He' & ->).
    apply Rle_trans with ((Rabs (B2R lr) * / c * (1 + u) + eta) * c).
    - apply Rmult_le_compat_r; [lra|]. eapply Rle_trans; [apply Rabs_triang|]. rewrite Rabs_mult. apply Rplus_le_compat; [|exact He']. apply Rmult_le_compat; auto using Rabs_pos. eapply Rle_trans; [apply Rabs_triang|]. rewrite Rabs_R1. lra.
    - replace ((Rabs (B2R lr) * / c * (1 + u) + eta) * c) with ((1 + u) * Rabs (B2R lr) + eta * c) by (field; lra). nra. }
  destruct (val_mul p l (proj1 Sp) (proj1 Sl')) as [Nc Ec]. exists (Bmult mode_NE p l). split; [reflexivity|]. split; [exact Nc|].
  pose proof (Rabs_pos (B2R lr)) as L0. pose proof (Rabs_pos (B2R p)) as p0. pose proof (Rabs_pos (B2R l)) as l0. set (LR := Rabs (B2R lr)) in *. set (Pp := Rabs (B2R p)) in *. set (Ll := Rabs (B2R l)) in *.
  assert (PL : Pp * Ll * rho <= (1 + 15 * u) * ((1 + u) * LR + eta)).
  { apply Rle_trans with ((1 + 15 * u) * (Ll * c)); [|apply Rmult_le_compat_l; lra]. replace (Pp * Ll * rho) with (Pp * rho * Ll) by ring. replace ((1 + 15 * u) * (Ll * c)) with ((1 + 15 * u) * c * Ll) by ring. apply Rmult_le_compat_r; assumption. }
  split; [|split].
  - intros Fc. apply Rle_trans with (((1 + u) * (Pp * Ll) + eta) * rho).
    + apply Rmult_le_compat_r; [lra|]. apply mul_abs; [apply Sp|apply Sl'|exact Fc].
    + replace (((1 + u) * (Pp * Ll) + eta) * rho) with ((1 + u) * (Pp * Ll * rho) + eta * rho) by ring. assert (Q : (1 + u) * (Pp * Ll * rho) <= (1 + u) * ((1 + 15 * u) * ((1 + u) * LR + eta))) by (apply Rmult_le_compat_l; lra).
      assert (Q1 : (1 + u) * (1 + 15 * u) * (1 + u) <= 1 + 20 * u) by nra. assert (Q2 : (1 + u) * (1 + 15 * u) <= 2) by nra. nra.
  - intros r Hr Har Hrho. apply bounded; [exact Nc| |exact Har]. rewrite Ec. apply (clamp_abs P24 EM); [lia|]. rewrite Rabs_mult. fold Pp Ll.
    apply Rle_trans with ((1 + 15 * u) * ((1 + u) * LR + eta) * / rho). { apply Rmult_le_reg_r with rho; [lra|]. rewrite (Rmult_assoc _ (/ rho)), Rinv_l, Rmult_1_r by lra. exact PL. }
    destruct Sl as [_ Sl]. fold LR in Sl. assert (Ea : eta <= u * bpow radix2 a). { unfold FloatSpec.eta, uro. rewrite <- bpow_plus. apply bpow_le. lia. }
    replace (bpow radix2 (a + r + 1)) with (2 * bpow radix2 a * bpow radix2 r) by (rewrite !bpow_plus; change (bpow radix2 1) with 2; ring). pose proof (bpow_gt_0 radix2 a) as Ba. set (A := bpow radix2 a) in *.
    assert (0 <= (1 + 15 * u) * ((1 + u) * LR + eta)) by (apply Rmult_le_pos; nra). apply Rmult_le_compat; try lra. apply Rle_trans with ((1 + 15 * u) * ((1 + u) * A + u * A)); [apply Rmult_le_compat_l; nra|]. nra.
  - intros Ei. assert (XI : X = B754_infinity false). { destruct HX as [Q|[Q _]]; [exact Q|]. rewrite Ei in Q. discriminate Q. }
    exact (proj1 (mul_is0 p l (proj1 (mul_is0 i v' (IZ XI) (proj1 Sv'))) (proj1 Sl'))).
Qed.
End Adam.

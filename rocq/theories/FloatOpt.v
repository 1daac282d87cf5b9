(** * Optimizer updates in IEEE arithmetic *)
From Coq Require Import ZArith QArith Reals Lra Lia Psatz Bool.
From Flocq Require Import Core BinarySingleNaN.
From Verif Require Import Mem Scalar Optimizer OptimizerProofs OptimizerSpec OptimizerHist Functions Float FloatSpec FloatLemmas RSum FloatError FloatLib FloatAct FloatAcc FloatLoss.
Local Open Scope R_scope.

Section Opt.
Context {prec emax : Z} {Hp : Prec_gt_0 prec} {He : Prec_lt_emax prec emax} (P24 : (24 <= prec)%Z) (EM : (5 * prec + 8 <= emax)%Z).
Context (lib : libm prec emax).
Notation fl := (fl prec emax).
Notation rnd := (rnd (prec := prec) (emax := emax)).
Notation fmt := (fmt (prec := prec) (emax := emax)).
Notation clamp := (clamp (emax := emax)).
Notation u := (uro prec).
Notation eta := (eta prec emax).
Notation small := (small (prec := prec) (emax := emax)).
#[local] Instance NF : Num fl := Num_fl prec emax lib.
#[local] Existing Instance fexp_ok.
#[local] Existing Instance fexp_mono.
Implicit Types x y g w v s : fl.
Lemma E64 : (64 <= emax)%Z. Proof. lia. Qed.
Lemma fmtz e : (-100 <= e)%Z -> fmt (bpow radix2 e). Proof. intros. apply fmt_bpow. lia. Qed.
Lemma below e : (e < emax)%Z -> bpow radix2 e < big emax. Proof. intros. now apply bpow_lt. Qed.
Notation eps := (fl_lit prec emax (1#1000000000)).
Lemma eps_ok : fin eps /\ bpow radix2 (-30) <= B2R eps <= bpow radix2 (-29).
Proof. exact (lit_eps P24 E64). Qed.

Lemma bounded x k : num x -> Rabs (val x) <= bpow radix2 k -> (k < emax)%Z -> small k x.
Proof.
  intros N H L. pose proof (below k L). assert (F : fin x) by (apply fin_iff; split; [exact N|lra]). split; [exact F|]. now rewrite fin_val in H.
Qed.
Lemma small_up j k x : (j <= k)%Z -> small j x -> small k x.
Proof. intros L [F H]. split; [exact F|]. apply Rle_trans with (1 := H). now apply bpow_le. Qed.
Lemma small_zero k : small k (B754_zero false). Proof. split; [reflexivity|]. cbn. rewrite Rabs_R0. apply bpow_ge_0. Qed.
Lemma clamp_abs r k : (-100 <= k < emax)%Z -> Rabs r <= bpow radix2 k -> Rabs (clamp (rnd r)) <= bpow radix2 k.
Proof.
  intros K H. pose proof (below k ltac:(lia)). pose proof (bpow_gt_0 radix2 k). apply Rabs_le_inv in H. apply Rabs_le.
  apply clamp_rnd; auto using fmt_opp, fmtz; try lra; [apply fmt_opp|]; apply fmtz; lia.
Qed.
Lemma mul_s a b x y : (-100 <= a + b < emax)%Z -> small a x -> small b y -> small (a + b) (Bmult mode_NE x y).
Proof.
  intros K [Fx Hx] [Fy Hy]. destruct (val_mul x y Fx Fy) as [N E]. apply bounded; [exact N| |lia]. rewrite E. apply clamp_abs; [exact K|].
  rewrite Rabs_mult, bpow_plus. apply Rmult_le_compat; auto using Rabs_pos.
Qed.
Lemma mul_1 a x y : (-100 <= a < emax)%Z -> small a x -> small 0 y -> small a (Bmult mode_NE x y) /\ small a (Bmult mode_NE y x).
Proof.
  intros K Hx Hy. split.
  - pose proof (mul_s a 0 x y) as H. rewrite Z.add_0_r in H. auto.
  - pose proof (mul_s 0 a y x) as H. cbn [Z.add] in H. auto.
Qed.
Lemma mul_l a x y : (-100 <= a < emax)%Z -> small a x -> small 0 y -> small a (Bmult mode_NE x y). Proof. intros K A B. exact (proj1 (mul_1 a x y K A B)). Qed.
Lemma mul_r a x y : (-100 <= a < emax)%Z -> small 0 x -> small a y -> small a (Bmult mode_NE x y). Proof. intros K A B. exact (proj2 (mul_1 a y x K B A)). Qed.
Lemma saturate k r : (-100 <= k)%Z -> Rabs r <= bpow radix2 (prec + 1 + k) + bpow radix2 k -> Rabs (rnd r) <= bpow radix2 (prec + 1 + k).
Proof.
  intros Hk Hr. assert (Fb : fmt (bpow radix2 (prec + 1 + k))) by (apply fmtz; lia).
  assert (Q : rnd (bpow radix2 (prec + 1 + k) + bpow radix2 k) <= bpow radix2 (prec + 1 + k)).
  { apply round_N_le_midp; [typeclasses eauto|exact Fb|]. rewrite succ_eq_pos by apply bpow_ge_0. rewrite ulp_bpow. rewrite fexp_flt. unfold FLT_exp. rewrite Z.max_l by lia.
    replace (prec + 1 + k + 1 - prec)%Z with (2 + k)%Z by lia. rewrite (bpow_plus radix2 2 k). change (bpow radix2 2) with 4. pose proof (bpow_gt_0 radix2 k). lra. }
  apply Rabs_le_inv in Hr. apply Rabs_le. split.
  - replace (rnd r) with (- rnd (- r)) by (rewrite rnd_opp; lra). apply Ropp_le_contravar. apply Rle_trans with (2 := Q). apply rnd_le. lra.
  - apply Rle_trans with (2 := Q). apply rnd_le. lra.
Qed.
Lemma acc_a k s y : (-100 <= k)%Z -> (prec + 1 + k < emax)%Z -> small (prec + 1 + k) s -> small k y -> small (prec + 1 + k) (Bplus mode_NE s y).
Proof.
  intros K L [Fs Hs] [Fy Hy]. destruct (val_add s y Fs Fy) as [N E]. apply bounded; [exact N| |lia]. rewrite E.
  assert (Q : Rabs (rnd (B2R s + B2R y)) <= bpow radix2 (prec + 1 + k)) by (apply saturate; [exact K|]; eapply Rle_trans; [apply Rabs_triang|]; lra).
  pose proof (below _ L). pose proof (Rabs_le_inv _ _ Q). rewrite clamp_id by lra. exact Q.
Qed.
Lemma small_opp k y : small k y -> small k (Bopp y).
Proof. intros [F H]. split; [now apply fin_opp|]. now rewrite B2R_Bopp, Rabs_Ropp. Qed.
Lemma acc_s k s y : (-100 <= k)%Z -> (prec + 1 + k < emax)%Z -> small (prec + 1 + k) s -> small k y -> small (prec + 1 + k) (Bminus mode_NE s y).
Proof.
  intros K L [Fs Hs] [Fy Hy]. destruct (val_sub s y Fs Fy) as [N E]. apply bounded; [exact N| |lia]. rewrite E.
  assert (Q : Rabs (rnd (B2R s - B2R y)) <= bpow radix2 (prec + 1 + k)) by (apply saturate; [exact K|]; unfold Rminus; eapply Rle_trans; [apply Rabs_triang|]; rewrite Rabs_Ropp; lra).
  pose proof (below _ L). pose proof (Rabs_le_inv _ _ Q). rewrite clamp_id by lra. exact Q.
Qed.
(** a larger box also holds *)
Lemma acc_a' j k s y : (-100 <= k)%Z -> (k + prec + 1 <= j)%Z -> (j < emax)%Z -> small j s -> small k y -> small j (Bplus mode_NE s y).
Proof.
  intros K L J Hs Hy. replace j with (prec + 1 + (j - prec - 1))%Z in * by lia. apply acc_a; try lia; [exact Hs|]. eapply small_up; [|exact Hy]. lia.
Qed.
Lemma acc_s' j k s y : (-100 <= k)%Z -> (k + prec + 1 <= j)%Z -> (j < emax)%Z -> small j s -> small k y -> small j (Bminus mode_NE s y).
Proof.
  intros K L J Hs Hy. replace j with (prec + 1 + (j - prec - 1))%Z in * by lia. apply acc_s; try lia; [exact Hs|]. eapply small_up; [|exact Hy]. lia.
Qed.

(** ** numbers that are at least zero *)
Definition nn x : Prop := num x /\ 0 <= val x.
Lemma nn_cases x : nn x -> x = B754_infinity false \/ (fin x /\ 0 <= B2R x).
Proof.
  intros [N H]. destruct x as [?|[]| |? ? ? ?]; cbn in *; try discriminate; auto.
  - right. split; [reflexivity|]. cbn. lra.
  - pose proof (big_pos (emax := emax)). lra.
  - right. split; [reflexivity|]. exact H.
Qed.
Lemma nn_fin x : fin x -> 0 <= B2R x -> nn x. Proof. intros F H. split; [now apply fin_num|]. now rewrite fin_val. Qed.
Lemma nn_inf : nn (B754_infinity false : fl). Proof. split; [reflexivity|]. cbn. pose proof (big_pos (emax := emax)). lra. Qed.
Lemma clamp_pos r : 0 <= r -> 0 <= clamp (rnd r).
Proof.
  intros H. rewrite <- (rnd_0 (prec := prec) (emax := emax)). pose proof (big_pos (emax := emax)). rewrite <- (clamp_id (emax := emax) (rnd 0)) by (rewrite rnd_0; lra). apply clamp_le, rnd_le, H.
Qed.
Lemma le_clamp a r : fmt a -> - big emax <= a <= big emax -> a <= r -> a <= clamp (rnd r).
Proof. intros F B H. rewrite <- (clamp_id (emax := emax) a) by exact B. apply clamp_le. rewrite <- (rnd_id a) by exact F. now apply rnd_le. Qed.
Lemma nn_add x y : nn x -> nn y -> nn (Bplus mode_NE x y) /\ val x <= val (Bplus mode_NE x y) /\ val y <= val (Bplus mode_NE x y).
Proof.
  intros Hx Hy. pose proof (val_bound x) as Bx. pose proof (val_bound y) as By. apply Rabs_le_inv in Bx, By.
  destruct (nn_cases x Hx) as [->|[Fx Px]]; destruct (nn_cases y Hy) as [->|[Fy Py]].
  - cbn. split; [apply nn_inf|]. lra.
  - destruct y; try discriminate Fy; cbn [Bplus]; (split; [apply nn_inf|split; [lra|]]); change (val (B754_infinity false)) with (big emax); lra.
  - destruct x; try discriminate Fx; cbn [Bplus]; (split; [apply nn_inf|split; [|lra]]); change (val (B754_infinity false)) with (big emax); lra.
  - destruct (val_add x y Fx Fy) as [N E]. split; [split; [exact N|rewrite E; apply clamp_pos; lra]|]. rewrite E. rewrite !fin_val in * by assumption.
    split; apply le_clamp; auto using fmt_B2R; lra.
Qed.
Lemma nn_mul x y : nn x -> fin y -> 0 < B2R y -> nn (Bmult mode_NE x y) /\ nn (Bmult mode_NE y x).
Proof.
  intros Hx Fy Py. destruct (nn_cases x Hx) as [->|[Fx Px]].
  - destruct (pos_sign y Fy Py) as (m & e & B & ->). cbn. split; apply nn_inf.
  - destruct (val_mul x y Fx Fy) as [N E]. destruct (val_mul y x Fy Fx) as [N' E'].
    split; (split; [assumption|]); rewrite ?E, ?E'; apply clamp_pos; nra.
Qed.
Lemma nn_mul_fin x y : fin x -> 0 <= B2R x -> fin y -> 0 <= B2R y -> nn (Bmult mode_NE x y).
Proof. intros Fx Px Fy Py. destruct (val_mul x y Fx Fy) as [N E]. split; [exact N|]. rewrite E. apply clamp_pos. nra. Qed.
Lemma nn_square g : fin g -> nn (Bmult mode_NE g g).
Proof. intros F. destruct (val_mul g g F F) as [N E]. split; [exact N|]. rewrite E. apply clamp_pos. nra. Qed.

(** ** 1 / sqrt(1e-9 + x) *)
Lemma sqrt_inf : Bsqrt mode_NE (B754_infinity false : fl) = B754_infinity false. Proof. reflexivity. Qed.
Lemma bsqrt_nn x : nn x -> nn (Bsqrt mode_NE x).
Proof.
  intros H. destruct (nn_cases x H) as [->|[F P]]; [apply nn_inf|]. destruct (val_sqrt x F P) as ([N [L _]] & _). split; [exact N|exact L].
Qed.
Lemma div_inf x : fin x -> is0 (Bdiv mode_NE x (B754_infinity false)).
Proof. destruct x; intros F; try discriminate F; cbn; split; reflexivity. Qed.
(** the reciprocal root: a finite number between 0 and 2^15; zero when the accumulator has overflowed *)
Lemma inv_sqrt_ok x : nn x -> fin (invert_sqrt x) /\ 0 <= B2R (invert_sqrt x) <= bpow radix2 15 /\ (x = B754_infinity false -> is0 (invert_sqrt x)).
Proof.
  intros H. unfold invert_sqrt. cbn [lit div one nsqrt add NF Num_fl]. destruct eps_ok as [Fe Pe]. pose proof (bpow_gt_0 radix2 (-30)) as B0.
  assert (Ne : nn eps) by (apply nn_fin; [exact Fe|lra]). pose proof (fin_one (prec := prec) (emax := emax)) as F1. pose proof (val_one (prec := prec) (emax := emax)) as V1.
  destruct (nn_add eps x Ne H) as (NS & L & L'). rewrite fin_val in L by exact Fe.
  assert (I0 : is0 (Bdiv mode_NE Bone (B754_infinity false) : fl)) by (apply div_inf, F1).
  destruct (nn_cases _ NS) as [E|[F P]].
  - rewrite E, sqrt_inf. destruct I0 as [A B]. split; [exact A|]. rewrite B. split; [|intros _; split; assumption]. split; [lra|apply bpow_ge_0].
  - rewrite (fin_val _ F) in L, L'. destruct (val_sqrt _ F P) as (_ & Fs & Es). set (s := Bsqrt mode_NE (Bplus mode_NE eps x)) in *.
    assert (Ls : bpow radix2 (-15) <= B2R s).
    { rewrite Es. rewrite <- (rnd_id (bpow radix2 (-15))) by (apply fmtz; lia). apply rnd_le. rewrite <- (sqrt_bpow radix2 (-15)) by idtac. apply sqrt_le_1_alt. change (2 * -15)%Z with (-30)%Z. lra. }
    pose proof (bpow_gt_0 radix2 (-15)) as B15. assert (Bi : 0 <= 1 / B2R s <= bpow radix2 15).
    { unfold Rdiv. rewrite Rmult_1_l. split; [left; apply Rinv_0_lt_compat; lra|]. change 15%Z with (- (-15))%Z. rewrite bpow_opp. apply Rinv_le; lra. }
    assert (W : within (Bdiv mode_NE Bone s) 0 (bpow radix2 15)).
    { pose proof (below 15 ltac:(lia)). apply div_within; auto using fmt_0; [lra|apply fmtz; lia|pose proof (big_pos (emax := emax)); lra|lra|]. now rewrite V1. }
    pose proof (below 15 ltac:(lia)). pose proof (big_pos (emax := emax)). assert (Fd : fin (Bdiv mode_NE Bone s)) by (apply (within_fin _ _ _ W); lra).
    split; [exact Fd|]. split; [now apply within_B2R|]. intros ->. destruct eps; try discriminate Fe; discriminate F.
Qed.

(** ** the step of AdaGrad and RMSProp *)
Lemma u_small : u <= / 64. Proof. unfold uro. change (/ 64) with (bpow radix2 (-6)). apply bpow_le. lia. Qed.
Lemma eta_u : eta <= u. Proof. unfold FloatSpec.eta, uro. apply bpow_le. lia. Qed.
Notation upos := (u_pos (prec := prec)).

(** 1/sqrt(eps + x) * |g| when x >= kappa * g^2 *)
Lemma inv_sqrt_g x g kappa : nn x -> fin g -> 0 < kappa -> x = B754_infinity false \/ kappa * (B2R g) ^ 2 <= val x ->
  B2R (invert_sqrt x) * Rabs (B2R g) * ((1 - u) * sqrt kappa) <= 1 + u.
Proof.
  intros H Fg Kp Hk. pose proof upos as U0. pose proof u_small as U1. destruct Hk as [->|Hk].
  { destruct (inv_sqrt_ok _ H) as (_ & _ & Z0). destruct (Z0 eq_refl) as [_ Z]. rewrite Z. lra. }
  unfold invert_sqrt. cbn [lit div one nsqrt add NF Num_fl]. destruct eps_ok as [Fe Pe]. pose proof (bpow_gt_0 radix2 (-30)) as B0.
  assert (Ne : nn eps) by (apply nn_fin; [exact Fe|lra]). pose proof (fin_one (prec := prec) (emax := emax)) as F1. pose proof (val_one (prec := prec) (emax := emax)) as V1.
  destruct (nn_add eps x Ne H) as (NS & L & L'). rewrite fin_val in L by exact Fe.
  destruct (nn_cases _ NS) as [E|[F P]].
  { rewrite E, sqrt_inf. destruct (div_inf Bone F1) as [_ Z]. rewrite Z. lra. }
  rewrite (fin_val _ F) in L, L'. destruct (val_sqrt _ F P) as (_ & Fs & Es). set (q := Bplus mode_NE eps x) in *. set (s := Bsqrt mode_NE q) in *.
  assert (Lq : bpow radix2 (-15) <= sqrt (B2R q)).
  { rewrite <- (sqrt_bpow radix2 (-15)). apply sqrt_le_1_alt. change (2 * -15)%Z with (-30)%Z. lra. }
  pose proof (bpow_gt_0 radix2 (-15)) as B15.
  destruct (rnd_err_normal (prec := prec) (emax := emax) (sqrt (B2R q))) as (d & Hd & Ed).
  { rewrite Rabs_pos_eq by lra. apply Rle_trans with (2 := Lq). apply bpow_le. lia. }
  assert (Ls : (1 - u) * sqrt (B2R q) <= B2R s). { rewrite Es, Ed. apply Rabs_le_inv in Hd. nra. }
  assert (Ls2 : bpow radix2 (-15) <= B2R s). { rewrite Es. rewrite <- (rnd_id (bpow radix2 (-15))) by (apply fmtz; lia). now apply rnd_le. }
  assert (Us : B2R s <= bpow radix2 (emax - 2)).
  { rewrite Es. rewrite <- (rnd_id (prec := prec) (emax := emax) (bpow radix2 (emax - 2))) by (apply fmt_bpow; lia). apply rnd_le.
    pose proof (big_lt q F) as Bq. apply Rle_trans with (sqrt (bpow radix2 (2 * (emax - 2)))); [apply sqrt_le_1_alt; apply Rle_trans with (big emax); [lra|apply bpow_le; lia]|]. right. apply sqrt_bpow. }
  assert (Nm : bpow radix2 (2 - emax) <= / B2R s). { replace (2 - emax)%Z with (- (emax - 2))%Z by lia. rewrite bpow_opp. apply Rinv_le; [lra|exact Us]. }
  destruct (val_div Bone s F1 Fs ltac:(lra)) as [N E].
  assert (Bi : 1 / B2R s <= bpow radix2 15). { unfold Rdiv. rewrite Rmult_1_l. change 15%Z with (- (-15))%Z. rewrite bpow_opp. apply Rinv_le; lra. }
  assert (Pi : 0 < / B2R s) by (apply Rinv_0_lt_compat; lra).
  destruct (rnd_err_normal (prec := prec) (emax := emax) (1 / B2R s)) as (d' & Hd' & Ed').
  { unfold Rdiv. rewrite Rmult_1_l, Rabs_pos_eq by lra. exact Nm. }
  destruct (inv_sqrt_ok x H) as (Fd & _). unfold invert_sqrt in Fd. cbn [lit div one nsqrt add NF Num_fl] in Fd. fold q in Fd. fold s in Fd.
  rewrite V1 in E. pose proof (fin_rnd _ _ N E Fd) as ER. rewrite ER, Ed'. unfold Rdiv. rewrite Rmult_1_l.
  assert (G : sqrt kappa * Rabs (B2R g) <= sqrt (B2R q)).
  { rewrite <- sqrt_Rsqr_abs, <- sqrt_mult; [|lra|apply Rle_0_sqr]. apply sqrt_le_1_alt. unfold Rsqr. lra. }
  pose proof (sqrt_pos kappa) as SK. pose proof (Rabs_pos (B2R g)) as AG. apply Rabs_le_inv in Hd'.
  assert (G2 : Rabs (B2R g) * ((1 - u) * sqrt kappa) <= B2R s) by nra.
  apply Rle_trans with (/ B2R s * (1 + d') * B2R s).
  - rewrite (Rmult_assoc _ (Rabs _)). apply Rmult_le_compat_l; [|exact G2]. apply Rmult_le_pos; lra.
  - replace (/ B2R s * (1 + d') * B2R s) with (1 + d') by (field; lra). lra.
Qed.

Lemma root_bound x g (r : R) : nn x -> fin g -> 0 < r <= 1 ->
  (bpow radix2 (-30) <= (B2R g) ^ 2 -> x = B754_infinity false \/ r * (1 - u) ^ 3 * (B2R g) ^ 2 <= val x) ->
  B2R (invert_sqrt x) * Rabs (B2R g) * sqrt r <= 1 + 5 * u.
Proof.
  intros H Fg Hr Hx. pose proof upos as U0. pose proof u_small as U1. pose proof (sqrt_pos r) as S0.
  assert (S1 : sqrt r <= 1) by (rewrite <- sqrt_1; apply sqrt_le_1_alt; lra). destruct (inv_sqrt_ok x H) as (_ & [I0 I1] & _). pose proof (Rabs_pos (B2R g)) as AG.
  destruct (Rle_or_lt (bpow radix2 (-30)) ((B2R g) ^ 2)) as [L|L].
  - specialize (Hx L). assert (K0 : 0 < (1 - u) ^ 3) by (apply pow_lt; lra). assert (K : 0 < r * (1 - u) ^ 3) by (apply Rmult_lt_0_compat; lra).
    pose proof (inv_sqrt_g x g _ H Fg K Hx) as Q. rewrite sqrt_mult in Q by lra.
    assert (S3 : (1 - u) ^ 2 <= sqrt ((1 - u) ^ 3)).
    { rewrite <- (sqrt_pow2 ((1 - u) ^ 2)) by (apply pow_le; lra). apply sqrt_le_1_alt. rewrite <- pow_mult. cbn [Nat.mul Nat.add].
      replace ((1 - u) ^ 4) with ((1 - u) ^ 3 * (1 - u)) by ring. rewrite <- (Rmult_1_r ((1 - u) ^ 3)) at 2. apply Rmult_le_compat_l; lra. }
    set (Y := B2R (invert_sqrt x) * Rabs (B2R g) * sqrt r). assert (Y0 : 0 <= Y) by (unfold Y; repeat apply Rmult_le_pos; assumption).
    assert (Q2 : Y * (1 - u) ^ 3 <= 1 + u).
    { set (z := sqrt ((1 - u) ^ 3)) in *. clearbody z. apply Rle_trans with (2 := Q).
      replace (B2R (invert_sqrt x) * Rabs (B2R g) * ((1 - u) * (sqrt r * z))) with (Y * (z * (1 - u))) by (unfold Y; ring).
      apply Rmult_le_compat_l; [exact Y0|]. replace ((1 - u) ^ 3) with ((1 - u) ^ 2 * (1 - u)) by ring. apply Rmult_le_compat_r; lra. }
    apply Rmult_le_reg_r with ((1 - u) ^ 3); [exact K0|]. apply Rle_trans with (1 := Q2). clearbody Y. clear - U0 U1.
    replace ((1 + 5 * u) * (1 - u) ^ 3) with (1 + u + u * (1 - u * (12 - 14 * u + 5 * (u * u)))) by ring. nra.
  - assert (G : Rabs (B2R g) <= bpow radix2 (-15)).
    { destruct (Rle_or_lt (Rabs (B2R g)) (bpow radix2 (-15))) as [A|A]; [exact A|]. exfalso.
      assert (bpow radix2 (-30) <= B2R g ^ 2); [|lra]. rewrite <- pow2_abs. change (-30)%Z with (-15 + -15)%Z. rewrite bpow_plus. pose proof (bpow_gt_0 radix2 (-15)). nra. }
    assert (B2R (invert_sqrt x) * Rabs (B2R g) <= 1).
    { apply Rle_trans with (bpow radix2 15 * bpow radix2 (-15)); [apply Rmult_le_compat; assumption|]. rewrite <- bpow_plus. change (15 + -15)%Z with 0%Z. right; reflexivity. }
    assert (0 <= B2R (invert_sqrt x) * Rabs (B2R g)) by now apply Rmult_le_pos. nra.
Qed.
Lemma square_low g : fin g -> bpow radix2 (-30) <= (B2R g) ^ 2 -> Bmult mode_NE g g = B754_infinity false \/ (fin (Bmult mode_NE g g) /\ (1 - u) * (B2R g) ^ 2 <= B2R (Bmult mode_NE g g)).
Proof.
  intros F L. destruct (nn_cases _ (nn_square g F)) as [E|[G P]]; [now left|right]. split; [exact G|]. destruct (val_mul g g F F) as [N E]. rewrite (fin_rnd _ _ N E G).
  destruct (rnd_err_normal (prec := prec) (emax := emax) (B2R g * B2R g)) as (d & Hd & Ed).
  { rewrite Rabs_pos_eq by nra. apply Rle_trans with (bpow radix2 (-30)); [apply bpow_le; lia|]. lra. }
  rewrite Ed. apply Rabs_le_inv in Hd. pose proof (bpow_gt_0 radix2 (-30)). nra.
Qed.
Lemma ada_nn v g : nn v -> fin g -> nn (Bplus mode_NE v (Bmult mode_NE g g)).
Proof. intros H F. now apply nn_add; [|apply nn_square]. Qed.
Lemma add_inf v : nn v -> Bplus mode_NE v (B754_infinity false) = B754_infinity false.
Proof. intros H. destruct (nn_cases v H) as [->|[F _]]; [reflexivity|]. destruct v; try discriminate F; reflexivity. Qed.
Lemma ada_root v g : nn v -> fin g -> B2R (invert_sqrt (Bplus mode_NE v (Bmult mode_NE g g))) * Rabs (B2R g) * sqrt 1 <= 1 + 5 * u.
Proof.
  intros H F. apply root_bound; [now apply ada_nn|exact F|lra|]. intros L. pose proof upos as U0. pose proof u_small as U1. destruct (square_low g F L) as [E|[G Q]].
  - left. rewrite E. now apply add_inf.
  - right. destruct (nn_add v _ H (nn_square g F)) as (_ & _ & Q2). rewrite fin_val in Q2 by exact G. apply Rle_trans with (2 := Q2). apply Rle_trans with (2 := Q).
    apply Rmult_le_compat_r; [apply pow2_ge_0|]. rewrite Rmult_1_l. nra.
Qed.
Lemma below_one y : fin y -> B2R y < 1 -> bpow radix2 (- prec) <= 1 - B2R y.
Proof.
  intros F L. assert (Q : B2R y <= pred radix2 (SpecFloat.fexp prec emax) 1).
  { apply pred_ge_gt; [typeclasses eauto|apply fmt_B2R|apply fmt_1|exact L]. }
  rewrite <- (Rplus_0_l 1) in Q at 1. change 1 with (bpow radix2 0) in Q at 1. rewrite Rplus_0_l in Q. rewrite pred_bpow in Q.
  rewrite fexp_flt in Q. unfold FLT_exp in Q. rewrite Z.max_l in Q by lia. change (bpow radix2 0) with 1 in Q. replace (0 - prec)%Z with (- prec)%Z in Q by lia. lra.
Qed.
(** the complement 1 - beta kept by RMSProp and Adam *)
Lemma rbeta_ok y : fin y -> 0 <= B2R y < 1 -> let r := Bminus mode_NE Bone y in
  fin r /\ bpow radix2 (- prec) <= B2R r <= 1 /\ (1 - u) * (1 - B2R y) <= B2R r.
Proof.
  intros F H r. pose proof (fin_one (prec := prec) (emax := emax)) as F1. pose proof (val_one (prec := prec) (emax := emax)) as V1. pose proof (big_gt_1 (prec := prec) (emax := emax)) as B1.
  pose proof (below_one y F (proj2 H)) as Q. pose proof (bpow_gt_0 radix2 (- prec)) as B0.
  assert (W : within r (bpow radix2 (- prec)) 1) by (apply sub_within; auto using fmt_1; [apply fmt_bpow; lia|lra|lra|lra]).
  assert (G : fin r) by (apply (within_fin _ _ _ W); lra). split; [exact G|]. split; [now apply within_B2R|].
  destruct (val_sub Bone y F1 F) as [N E]. fold r in N, E. rewrite (fin_rnd _ _ N E G), V1. destruct (rnd_minus_err (prec := prec) (emax := emax) 1 (B2R y)) as (d & Hd & Ed); [apply fmt_1|apply fmt_B2R|].
  rewrite Ed. apply Rabs_le_inv in Hd. nra.
Qed.
Lemma rms_nn v b g : nn v -> fin g -> fin b -> 0 <= B2R b < 1 -> 0 < B2R b \/ fin v -> nn (Bplus mode_NE (Bmult mode_NE v b) (Bmult mode_NE (Bmult mode_NE g g) (Bminus mode_NE Bone b))).
Proof.
  intros H F Fb Hb Hz. destruct (rbeta_ok b Fb Hb) as (Fr & [R1 R2] & _). pose proof (bpow_gt_0 radix2 (- prec)) as B0. apply nn_add.
  - destruct Hz as [Hz|Hz]; [exact (proj1 (nn_mul v b H Fb Hz))|]. destruct H as [_ H]. rewrite fin_val in H by exact Hz. apply nn_mul_fin; auto; lra.
  - refine (proj1 (nn_mul (Bmult mode_NE g g) _ (nn_square g F) Fr _)); lra.
Qed.
Lemma rms_root v b g : nn v -> fin g -> fin b -> 0 <= B2R b < 1 -> 0 < B2R b \/ fin v ->
  B2R (invert_sqrt (Bplus mode_NE (Bmult mode_NE v b) (Bmult mode_NE (Bmult mode_NE g g) (Bminus mode_NE Bone b)))) * Rabs (B2R g) * sqrt (1 - B2R b) <= 1 + 5 * u.
Proof.
  intros H F Fb Hb Hz. apply root_bound; [now apply rms_nn|exact F|lra|]. intros L. pose proof upos as U0. pose proof u_small as U1. destruct (rbeta_ok b Fb Hb) as (Fr & [R1 R2] & R3). pose proof (bpow_gt_0 radix2 (- prec)) as B0.
  assert (NV : nn (Bmult mode_NE v b)). { destruct Hz as [Hz|Hz]; [exact (proj1 (nn_mul v b H Fb Hz))|]. destruct H as [_ H]. rewrite fin_val in H by exact Hz. apply nn_mul_fin; auto; lra. }
  set (r := Bminus mode_NE Bone b) in *. set (y := Bmult mode_NE (Bmult mode_NE g g) r).
  assert (NY : nn y) by (unfold y; refine (proj1 (nn_mul (Bmult mode_NE g g) _ (nn_square g F) Fr _)); lra).
  destruct (square_low g F L) as [E|[G Q]].
  - left. unfold y. rewrite E. destruct (pos_sign r Fr ltac:(lra)) as (m & e & B & ->). cbn [Bmult xorb]. now apply add_inf.
  - destruct (nn_cases y NY) as [E|[Fy Py]]; [left; rewrite E; now apply add_inf|]. right.
    destruct (nn_add _ y NV NY) as (_ & _ & Q2). rewrite (fin_val _ Fy) in Q2. apply Rle_trans with (2 := Q2).
    destruct (val_mul _ r G Fr) as [N E]. fold y in N, E. rewrite (fin_rnd _ _ N E Fy).
    set (gg := B2R (Bmult mode_NE g g)) in *. set (g2 := (B2R g) ^ 2) in *. assert (P30 : 0 < bpow radix2 (-30)) by apply bpow_gt_0.
    assert (L31 : bpow radix2 (-31) <= gg). { apply Rle_trans with (2 := Q). change (-31)%Z with (-30 + -1)%Z. rewrite bpow_plus. change (bpow radix2 (-1)) with (/ 2). nra. }
    assert (P31 : 0 < bpow radix2 (-31)) by apply bpow_gt_0.
    destruct (rnd_err_normal (prec := prec) (emax := emax) (gg * B2R r)) as (d & Hd & Ed).
    { rewrite Rabs_pos_eq by (apply Rmult_le_pos; lra). apply Rle_trans with (bpow radix2 (-31 + - prec)); [apply bpow_le; lia|]. rewrite bpow_plus. apply Rmult_le_compat; lra. }
    rewrite Ed. apply Rabs_le_inv in Hd.
    assert (A1 : (1 - u) * g2 * ((1 - u) * (1 - B2R b)) <= gg * B2R r). { apply Rmult_le_compat; [|nra|exact Q|exact R3]. apply Rmult_le_pos; lra. }
    assert (A2 : (1 - u) * g2 * ((1 - u) * (1 - B2R b)) * (1 - u) <= gg * B2R r * (1 + d)).
    { apply Rmult_le_compat; [|lra|exact A1|lra]. apply Rmult_le_pos; apply Rmult_le_pos; lra. }
    apply Rle_trans with (2 := A2). right. ring.
Qed.

(** from the root to the step *)
Lemma step_of i g lr rho : fin i -> 0 <= B2R i <= bpow radix2 15 -> fin g -> fin lr -> 0 < rho <= 1 -> / rho <= bpow radix2 prec -> B2R i * Rabs (B2R g) * rho <= 1 + 5 * u ->
  num (Bmult mode_NE (Bmult mode_NE i g) lr) /\
  (fin (Bmult mode_NE (Bmult mode_NE i g) lr) -> Rabs (B2R (Bmult mode_NE (Bmult mode_NE i g) lr)) * rho <= (1 + 10 * u) * Rabs (B2R lr) + eta * rho) /\
  (forall a k, (0 <= a)%Z -> (0 <= k)%Z -> (a + k + 1 < emax)%Z -> / rho <= bpow radix2 k -> small a lr -> small (a + k + 1) (Bmult mode_NE (Bmult mode_NE i g) lr)).
Proof.
  intros Fi Hi Fg Fl Hr Hr2 Hb. pose proof upos as U0. pose proof u_small as U1. pose proof (eta_pos (prec := prec) (emax := emax)) as T0. pose proof eta_u as T1.
  destruct (val_mul i g Fi Fg) as [N E]. set (b := Bmult mode_NE i g) in *. pose proof (Rabs_pos (B2R g)) as AG.
  assert (Ab : Rabs (B2R i * B2R g) = B2R i * Rabs (B2R g)) by (rewrite Rabs_mult, (Rabs_pos_eq (B2R i)); lra).
  assert (K1 : B2R i * Rabs (B2R g) <= (1 + 5 * u) / rho). { apply Rmult_le_reg_r with rho; [lra|]. replace ((1 + 5 * u) / rho * rho) with (1 + 5 * u) by (field; lra). exact Hb. }
  assert (Kb : forall k, (0 <= k)%Z -> (k + 1 < emax)%Z -> / rho <= bpow radix2 k -> small (k + 1) b).
  { intros k K0 K2 K. apply bounded; [exact N| |exact K2]. rewrite E. apply clamp_abs; [lia|]. rewrite Ab. apply Rle_trans with (1 := K1). rewrite bpow_plus. change (bpow radix2 1) with 2.
    unfold Rdiv. pose proof (Rinv_0_lt_compat rho ltac:(lra)). nra. }
  assert (Fb : fin b) by (apply (Kb prec); [lia|lia|exact Hr2]).
  destruct (val_mul b lr Fb Fl) as [N' E']. split; [exact N'|]. split.
  - intros Fc. rewrite (fin_rnd _ _ N' E' Fc), (fin_rnd _ _ N E Fb).
    destruct (rnd_err (prec := prec) (emax := emax) (B2R i * B2R g)) as (d & e & Hd & He' & ->).
    destruct (rnd_err (prec := prec) (emax := emax) ((B2R i * B2R g * (1 + d) + e) * B2R lr)) as (d' & e' & Hd' & He'' & ->).
    set (p := B2R i * B2R g) in *. set (L := B2R lr). assert (Hp' : Rabs p * rho <= 1 + 5 * u) by (rewrite Ab; exact Hb).
    assert (D : Rabs (1 + d) <= 1 + u) by (eapply Rle_trans; [apply Rabs_triang|]; rewrite Rabs_R1; lra).
    assert (D' : Rabs (1 + d') <= 1 + u) by (eapply Rle_trans; [apply Rabs_triang|]; rewrite Rabs_R1; lra).
    assert (A : Rabs (p * (1 + d) + e) * rho <= 1 + 8 * u).
    { apply Rle_trans with ((Rabs p * (1 + u) + eta) * rho).
      - apply Rmult_le_compat_r; [lra|]. eapply Rle_trans; [apply Rabs_triang|]. rewrite Rabs_mult. apply Rplus_le_compat; [|exact He']. apply Rmult_le_compat_l; [apply Rabs_pos|exact D].
      - assert (eta * rho <= u) by nra. nra. }
    apply Rle_trans with ((Rabs (p * (1 + d) + e) * Rabs L * (1 + u) + eta) * rho).
    + apply Rmult_le_compat_r; [lra|]. eapply Rle_trans; [apply Rabs_triang|]. rewrite !Rabs_mult. apply Rplus_le_compat; [|exact He'']. apply Rmult_le_compat_l; [|exact D']. apply Rmult_le_pos; apply Rabs_pos.
    + set (q := Rabs (p * (1 + d) + e)) in *. pose proof (Rabs_pos L) as L0. replace ((q * Rabs L * (1 + u) + eta) * rho) with (q * rho * (1 + u) * Rabs L + eta * rho) by ring.
      apply Rplus_le_compat_r. apply Rmult_le_compat_r; [exact L0|]. nra.
  - intros a k Ha K0 K1' K Hl. replace (a + k + 1)%Z with (k + 1 + a)%Z by lia. apply mul_s; [lia| |exact Hl]. apply Kb; [exact K0|lia|exact K].
Qed.

(** ** invariants of one element over an update *)
Definition kind_ok (kd : opt_kind fl) : Prop :=
  match kd with
  | GradDescent | AdaGrad => True
  | StoGradDescent c | Momentum c | Nestorov c => small 0 c
  | RMSProp b rb => fin b /\ 0 <= B2R b < 1 /\ rb = Bminus mode_NE Bone b
  | Adam b1 b2 rb1 rb2 => (fin b1 /\ 0 <= B2R b1 < 1 /\ rb1 = Bminus mode_NE Bone b1) /\ (fin b2 /\ 0 <= B2R b2 < 1 /\ rb2 = Bminus mode_NE Bone b2)
  end.
(** every gradient at most 2^b, every learning rate at most 2^a *)
Definition est_ok (a b J : Z) (kd : opt_kind fl) (x : @est fl) : Prop :=
  small J (e_w x) /\
  match kd with
  | GradDescent | StoGradDescent _ => True
  | Momentum _ | Nestorov _ => small (prec + 1 + (a + b)) (e_v x)
  | AdaGrad => nn (e_v x)
  | RMSProp _ _ => nn (e_v x) /\ small (prec + 1 + 2 * b) (e_v x)
  | Adam _ _ _ _ => small (prec + 1 + b) (e_v x) /\ nn (e_s x) /\ small (prec + 1 + 2 * b) (e_s x)
  end.
(** Adam's running powers, after an update *)
Definition pow_ok (kd : opt_kind fl) (t1 t2 : fl) : Prop :=
  match kd with
  | Adam _ _ _ _ => (fin t1 /\ 0 <= B2R t1 <= 1) /\ (fin t2 /\ 0 <= B2R t2 <= 1)
  | _ => True
  end.
Lemma bpow_prec : bpow radix2 prec = / bpow radix2 (- prec). Proof. rewrite <- bpow_opp. f_equal. lia. Qed.
Lemma shrink (t b : fl) : fin t -> 0 <= B2R t <= 1 -> fin b -> 0 <= B2R b < 1 -> fin (Bmult mode_NE t b) /\ 0 <= B2R (Bmult mode_NE t b) <= B2R b.
Proof.
  intros Ft Ht Fb Hb. pose proof (big_lt b Fb) as BB. pose proof (big_pos (emax := emax)) as BP.
  assert (W : within (Bmult mode_NE t b) 0 (B2R b)) by (apply mul_within; auto using fmt_0, fmt_B2R; [lra|lra|nra]).
  assert (F : fin (Bmult mode_NE t b)) by (apply (within_fin _ _ _ W); lra). split; [exact F|]. now apply within_B2R.
Qed.
Lemma rsmall (b : fl) : fin b -> 0 <= B2R b < 1 -> small 0 b /\ small 0 (Bminus mode_NE Bone b).
Proof.
  intros F H. destruct (rbeta_ok b F H) as (G & L & _). pose proof (bpow_gt_0 radix2 (- prec)). split; (split; [assumption|]); rewrite Rabs_pos_eq by lra; change (bpow radix2 0) with 1; lra.
Qed.
Lemma inv_s x : nn x -> small 15 (invert_sqrt x).
Proof. intros H. destruct (inv_sqrt_ok x H) as (F & L & _). split; [exact F|]. rewrite Rabs_pos_eq; lra. Qed.
Lemma quot_s a (lr t : fl) : (0 <= a)%Z -> (a + prec < emax)%Z -> small a lr -> fin t -> 0 <= B2R t < 1 -> small (a + prec) (Bdiv mode_NE lr (Bminus mode_NE Bone t)).
Proof.
  intros A B [Fl Hl] Ft Ht. destruct (rbeta_ok t Ft Ht) as (Fr & [L1 L2] & _). pose proof (bpow_gt_0 radix2 (- prec)) as B0.
  destruct (val_div lr _ Fl Fr ltac:(lra)) as [N E]. apply bounded; [exact N| |exact B]. rewrite E. apply clamp_abs; [lia|].
  unfold Rdiv. rewrite Rabs_mult, bpow_plus. apply Rmult_le_compat; auto using Rabs_pos. rewrite Rabs_inv, (Rabs_pos_eq (B2R _)) by lra.
  rewrite bpow_prec. apply Rinv_le; lra.
Qed.
Lemma inv_pos (t : fl) : fin t -> 0 <= B2R t < 1 -> let q := Bdiv mode_NE Bone (Bminus mode_NE Bone t) in fin q /\ 0 < B2R q.
Proof.
  intros Ft Ht q. destruct (rbeta_ok t Ft Ht) as (Fr & [L1 L2] & _). pose proof (bpow_gt_0 radix2 (- prec)) as B0. pose proof (fin_one (prec := prec) (emax := emax)) as F1. pose proof (val_one (prec := prec) (emax := emax)) as V1.
  assert (W : within q 1 (bpow radix2 prec)).
  { apply div_within; auto using fmt_1; [lra|apply fmtz; lia|pose proof (big_pos (emax := emax)); lra|pose proof (below prec ltac:(lia)); lra|]. rewrite V1. unfold Rdiv. rewrite Rmult_1_l. split.
    - rewrite <- Rinv_1. apply Rinv_le; lra.
    - rewrite bpow_prec. apply Rinv_le; lra. }
  pose proof (below prec ltac:(lia)). pose proof (big_pos (emax := emax)). assert (F : fin q) by (apply (within_fin _ _ _ W); lra). split; [exact F|]. pose proof (within_B2R _ _ _ F W). lra.
Qed.
Lemma sqrt_ge (x : R) : 0 <= x <= 1 -> x <= sqrt x.
Proof. intros H. rewrite <- (sqrt_pow2 x) at 1 by lra. apply sqrt_le_1_alt. nra. Qed.
Lemma rho_inv (b : fl) : fin b -> 0 <= B2R b < 1 -> 0 < sqrt (1 - B2R b) <= 1 /\ / sqrt (1 - B2R b) <= bpow radix2 prec.
Proof.
  intros F H. pose proof (below_one b F (proj2 H)) as Q. pose proof (bpow_gt_0 radix2 (- prec)) as B0. pose proof (sqrt_ge (1 - B2R b) ltac:(lra)) as S.
  split; [split; [lra|]|].
  - apply Rle_trans with (sqrt 1); [apply sqrt_le_1_alt; lra|rewrite sqrt_1; lra].
  - rewrite bpow_prec. apply Rinv_le; lra.
Qed.

Ltac ops := cbn [add sub mul div one zero NF Num_fl].
Lemma step_ok a b J kd (x : @est fl) (lr t1 t2 g : fl) : (0 <= a)%Z -> (0 <= b)%Z -> (3 * prec + 17 + a + b <= J)%Z -> (J < emax)%Z -> (prec + 1 + 2 * b < emax)%Z ->
  kind_ok kd -> pow_ok kd t1 t2 -> est_ok a b J kd x -> small a lr -> small b g ->
  est_ok a b J kd (elem_step kd lr (next_t1 kd t1) (next_t2 kd t2) x g) /\ pow_ok kd (next_t1 kd t1) (next_t2 kd t2).
Proof.
  intros A B HJ J1 B2 HK HP [Hw HE] Hl Hg. destruct x as [w v s]. unfold est_ok. cbn [e_w e_v e_s] in *.
  assert (LG : small (a + b) (Bmult mode_NE lr g)) by (apply mul_s; auto; lia).
  assert (GL : small (a + b) (Bmult mode_NE g lr)) by (rewrite Z.add_comm; apply mul_s; auto; lia).
  assert (GG : small (2 * b) (Bmult mode_NE g g)) by (replace (2 * b)%Z with (b + b)%Z by lia; apply mul_s; auto; lia).
  destruct kd as [|al|mu|mu| |be rb|b1 b2 rb1 rb2]; cbn [elem_step e_w e_v e_s kind_ok pow_ok next_t1 next_t2] in *; ops.
  - split; [|exact I]. split; [|exact I]. apply (acc_s' J (a + b)); auto; lia.
  - split; [|exact I]. split; [|exact I]. apply (acc_s' J (a + b)); try lia; [|exact GL]. apply mul_l; auto; lia.
  - assert (V : small (prec + 1 + (a + b)) (Bminus mode_NE (Bmult mode_NE v mu) (Bmult mode_NE lr g))).
    { apply acc_s; try lia; [|exact LG]. apply mul_l; auto; lia. }
    split; [|exact I]. split; [|exact V]. apply (acc_a' J (prec + 1 + (a + b))); auto; lia.
  - assert (V : small (prec + 1 + (a + b)) (Bminus mode_NE (Bmult mode_NE v mu) (Bmult mode_NE lr g))).
    { apply acc_s; try lia; [|exact LG]. apply mul_l; auto; lia. }
    split; [|exact I]. split; [|exact V]. apply (acc_a' J (prec + 1 + (a + b))); try lia.
    + apply (acc_s' J (a + b)); auto; lia.
    + apply mul_r; auto; lia.
  - split; [|exact I]. destruct Hg as [Fg Hg]. pose proof (ada_nn v g HE Fg) as NV. split; [|exact NV].
    destruct (inv_sqrt_ok _ NV) as (Fi & Li & _). apply (acc_s' J (a + 0 + 1)); try lia; [exact Hw|].
    refine (proj2 (proj2 (step_of _ g lr 1 Fi Li Fg (proj1 Hl) _ _ _)) a 0%Z A _ _ _ Hl); try lia; try (change (bpow radix2 0) with 1); try lra.
    + rewrite Rinv_1. change 1 with (bpow radix2 0). apply bpow_le. lia.
    + pose proof (ada_root v g HE Fg) as Q. now rewrite sqrt_1 in Q.
  - split; [|exact I]. destruct HK as (Fb & Hb & ->). destruct HE as [HE HS]. destruct Hg as [Fg Hg]. destruct (rsmall be Fb Hb) as [S1 S2].
    pose proof (rms_nn v be g HE Fg Fb Hb (or_intror (proj1 HS))) as NV. split; [|split; [exact NV|]].
    + destruct (inv_sqrt_ok _ NV) as (Fi & Li & _). destruct (rho_inv be Fb Hb) as [R1 R2]. apply (acc_s' J (a + prec + 1)); try lia; [exact Hw|].
      refine (proj2 (proj2 (step_of _ g lr _ Fi Li Fg (proj1 Hl) R1 R2 _)) a prec A _ _ R2 Hl); try lia.
      exact (rms_root v be g HE Fg Fb Hb (or_intror (proj1 HS))).
    + apply acc_a; try lia; first [apply mul_l; auto; lia|apply mul_r; auto; lia].
  - destruct HK as ((Fb1 & Hb1 & ->) & (Fb2 & Hb2 & ->)). destruct HP as [[Ft1 Ht1] [Ft2 Ht2]]. destruct HE as (HV & HS & HS').
    destruct (shrink t1 b1 Ft1 Ht1 Fb1 Hb1) as [Fu1 Hu1]. destruct (shrink t2 b2 Ft2 Ht2 Fb2 Hb2) as [Fu2 Hu2].
    split; [|split; (split; [assumption|lra])]. destruct (rsmall b1 Fb1 Hb1) as [S1 S1']. destruct (rsmall b2 Fb2 Hb2) as [S2 S2'].
    assert (V : small (prec + 1 + b) (Bplus mode_NE (Bmult mode_NE v b1) (Bmult mode_NE (Bminus mode_NE Bone b1) g))) by (apply acc_a; try lia; first [apply mul_l; auto; lia|apply mul_r; auto; lia]).
    pose proof (rms_nn s b2 g HS (proj1 Hg) Fb2 Hb2 (or_intror (proj1 HS'))) as NS.
    split; [|split; [exact V|split; [exact NS|apply acc_a; try lia; first [apply mul_l; auto; lia|apply mul_r; auto; lia]]]].
    apply (acc_s' J (15 + (prec + 1 + b) + (a + prec))); try lia; [exact Hw|]. apply mul_s; [lia| |apply quot_s; auto; try lia; lra].
    apply mul_s; [lia| |exact V]. apply inv_s. destruct (inv_pos _ Fu2 ltac:(lra)) as [Fq Pq]. exact (proj2 (nn_mul _ _ NS Fq Pq)).
Qed.
End Opt.

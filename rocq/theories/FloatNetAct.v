(** * Activations: how they magnify differences, and how accurate they are in floating-point arithmetic *)
From Coq Require Import ZArith QArith Reals Lra Lia Psatz.
From Coquelicot Require Import Coquelicot.
From Flocq Require Import Core BinarySingleNaN.
From Verif Require Import Mem Scalar Functions RealSpec ActivationProofs LossProofs LinearProofs Float FloatSpec FloatLemmas FloatError FloatAct FloatLib FloatNetSpec PropFloatAct.
Local Open Scope R_scope.

(** ** differences *)
Lemma lip_deriv (f f' : R -> R) (K : R) : (forall x, is_derive f x (f' x)) -> (forall x, Rabs (f' x) <= K) -> forall p q, Rabs (f p - f q) <= K * Rabs (p - q).
Proof.
  intros D B p q. apply (bounded_variation f f' K q p). intros t _. split; [apply D|apply B].
Qed.
Lemma lip_wlog (f : R -> R) (K : R) : (forall p q, p <= q -> Rabs (f q - f p) <= K * (q - p)) -> forall p q, Rabs (f p - f q) <= K * Rabs (p - q).
Proof.
  intros H p q. destruct (Rle_dec p q) as [L|L].
  - rewrite (Rabs_minus_sym (f p)), (Rabs_left1 (p - q)) by lra. specialize (H p q L). lra.
  - rewrite (Rabs_pos_eq (p - q)) by lra. apply H. lra.
Qed.
Lemma lip_tanh p q : Rabs (tanh p - tanh q) <= 1 * Rabs (p - q).
Proof.
  apply (lip_deriv tanh (fun x => 1 / cosh x * (1 / cosh x))); [intros; apply is_derive_tanh|]. intros x. pose proof (cosh_ge1 x) as H.
  assert (0 <= 1 / cosh x <= 1). { unfold Rdiv. rewrite Rmult_1_l. split; [left; apply Rinv_0_lt_compat; lra|]. rewrite <- Rinv_1. apply Rinv_le_contravar; lra. } rewrite Rabs_pos_eq; nra.
Qed.
Lemma tanh_small p : Rabs (tanh p) <= Rabs p.
Proof. pose proof (lip_tanh p 0) as H. rewrite tanh_0', !Rminus_0_r in H. lra. Qed.
Lemma exp_1_le x : 1 + x <= exp x.
Proof. destruct (Req_dec x 0) as [->|N]; [rewrite exp_0; lra|]. left. now apply exp_ineq1. Qed.
Lemma exp_le_1 x : x <= 0 -> exp x <= 1.
Proof. intros H. rewrite <- exp_0. destruct H as [H|H]; [left; now apply exp_increasing|right; now rewrite H]. Qed.
Lemma exp_diff p q : p <= q -> q <= 0 -> 0 <= exp q - exp p <= q - p.
Proof.
  intros L N. pose proof (exp_pos p). pose proof (exp_pos q). pose proof (exp_le_1 q N).
  assert (E : exp p = exp q * exp (p - q)) by (rewrite <- exp_plus; f_equal; ring). pose proof (exp_1_le (p - q)). pose proof (exp_le_1 (p - q) ltac:(lra)). rewrite E. nra.
Qed.
Lemma swish_slope x : Rabs (swish_derived (T := R) x) <= 3 / 2.
Proof.
  unfold swish_derived. cbn [add mul div one nexp opp Num_R]. set (a := exp (- x)). pose proof (exp_pos (- x)) as A. fold a in A.
  replace ((a * x + (a + 1)) / ((a + 1) * (a + 1))) with (/ (a + 1) + a * / ((a + 1) * (a + 1)) * x) by (field; lra).
  assert (I : 0 <= / (a + 1) <= 1). { split; [left; apply Rinv_0_lt_compat; lra|]. rewrite <- Rinv_1. apply Rinv_le_contravar; lra. }
  assert (J : Rabs (a * / ((a + 1) * (a + 1)) * x) <= / 2).
  { assert (P : 0 < (a + 1) * (a + 1)) by nra. rewrite Rabs_mult, (Rabs_pos_eq (a * _)) by (apply Rmult_le_pos; [lra|left; now apply Rinv_0_lt_compat]).
    apply Rmult_le_reg_r with ((a + 1) * (a + 1)); [exact P|]. replace (a * / ((a + 1) * (a + 1)) * Rabs x * ((a + 1) * (a + 1))) with (a * Rabs x) by (field; lra).
    assert (S : Rabs x * a <= / 2 * (a * a + 2 * a + 1)); [|lra].
    set (t := Rabs x). assert (T : 0 <= t) by apply Rabs_pos.
    assert (G : (1 + t / 2) * (1 + t / 2) <= exp t). { replace (exp t) with (exp (t / 2) * exp (t / 2)) by (rewrite <- exp_plus; f_equal; lra). pose proof (exp_1_le (t / 2)). nra. }
    destruct (Rle_dec 0 x) as [X|X].
    - assert (Ea : a * exp t = 1). { unfold a, t. rewrite Rabs_pos_eq by lra. rewrite <- exp_plus. replace (- x + x) with 0 by ring. apply exp_0. }
      assert (Q : a * (2 * t) <= a * (3 + t + t * t / 4)) by (apply Rmult_le_compat_l; [lra|nra]). nra.
    - assert (Ea : a = exp t). { unfold a, t. rewrite Rabs_left1 by lra. reflexivity. }
      assert (Q : a * (2 * t) <= a * (2 + a)). { apply Rmult_le_compat_l; [lra|]. rewrite Ea. nra. } nra. }
  eapply Rle_trans; [apply Rabs_triang|]. rewrite (Rabs_pos_eq (/ (a + 1))) by lra. lra.
Qed.
Lemma lip_act a p q : covered a -> Rabs (std_act a p - std_act a q) <= gain a * Rabs (p - q).
Proof.
  intros (G1 & G2 & G3). destruct a; try congruence; cbn [gain].
  - cbn [std_act]. lra.
  - apply lip_wlog. clear. intros p q L. cbn [std_act]. unfold Rmax. destruct (Rle_dec 0 q), (Rle_dec 0 p); rewrite Rabs_pos_eq; lra.
  - apply lip_wlog. clear. intros p q L. cbn [std_act]. destruct (Rlt_dec 0 q), (Rlt_dec 0 p); try lra.
    + rewrite Rabs_pos_eq; lra.
    + pose proof (exp_1_le p). pose proof (exp_le_1 p ltac:(lra)). rewrite Rabs_pos_eq; lra.
    + pose proof (exp_diff p q L ltac:(lra)). rewrite Rabs_pos_eq; lra.
  - apply lip_wlog. clear. intros p q L. cbn [std_act]. destruct (Rlt_dec 0 q), (Rlt_dec 0 p); try lra; rewrite Rabs_pos_eq; lra.
  - rewrite <- !act_std. cbn [scalar_f]. apply (lip_deriv _ (sigmoid_derived (T := R))); [apply ActivationProofs.d_sigmoid|]. intros x. unfold sigmoid_derived, half. cbn [add div one ncosh lit Num_R].
    replace (Q2R (1 # 2)) with (/ 2) by (unfold Q2R; cbn; lra). pose proof (cosh_ge1 x). rewrite Rabs_pos_eq.
    + unfold Rdiv. replace (/ 4) with (/ 2 * / 2) by lra. apply Rmult_le_compat_l; [lra|]. apply Rinv_le_contravar; lra.
    + unfold Rdiv. apply Rmult_le_pos; [lra|]. left. apply Rinv_0_lt_compat. lra.
  - rewrite <- !act_std. apply lip_tanh.
  - apply lip_wlog. clear. intros p q L. cbn [std_act]. unfold Rabs at 2 3. destruct (Rcase_abs q), (Rcase_abs p); try lra.
    + replace (q / (1 + - q) - p / (1 + - p)) with ((q - p) * / ((1 - q) * (1 - p))) by (field; lra). assert (1 <= (1 - q) * (1 - p)) by nra. assert (0 < / ((1 - q) * (1 - p)) <= 1). { split; [apply Rinv_0_lt_compat; lra|]. rewrite <- Rinv_1. apply Rinv_le_contravar; lra. } rewrite Rabs_pos_eq; nra.
    + assert (A : 0 <= q / (1 + q) <= q). { unfold Rdiv. assert (0 < / (1 + q) <= 1). { split; [apply Rinv_0_lt_compat; lra|]. rewrite <- Rinv_1. apply Rinv_le_contravar; lra. } nra. }
      assert (B : p <= p / (1 + - p) <= 0). { unfold Rdiv. assert (0 < / (1 + - p) <= 1). { split; [apply Rinv_0_lt_compat; lra|]. rewrite <- Rinv_1. apply Rinv_le_contravar; lra. } nra. } rewrite Rabs_pos_eq; lra.
    + replace (q / (1 + q) - p / (1 + p)) with ((q - p) * / ((1 + q) * (1 + p))) by (field; lra). assert (1 <= (1 + q) * (1 + p)) by nra. assert (0 < / ((1 + q) * (1 + p)) <= 1). { split; [apply Rinv_0_lt_compat; lra|]. rewrite <- Rinv_1. apply Rinv_le_contravar; lra. } rewrite Rabs_pos_eq; nra.
  - rewrite <- !act_std. cbn [scalar_f]. apply (lip_deriv _ (swish_derived (T := R))); [apply ActivationProofs.d_swish|]. apply swish_slope.
  - apply lip_wlog. clear. intros p q L. cbn [std_act]. destruct (Rlt_dec q 0), (Rlt_dec p 0), (Rlt_dec 1 q), (Rlt_dec 1 p); try lra; rewrite Rabs_pos_eq; lra.
  - apply lip_wlog. clear. intros p q L. cbn [std_act]. pose proof (lip_tanh q p) as H. rewrite (Rabs_pos_eq (q - p)) in H by lra. pose proof (tanh_small p) as Tp. pose proof (tanh_small q) as Tq. destruct (Rlt_dec q 0), (Rlt_dec p 0); try lra.
    + replace (0.01 * tanh q - 0.01 * tanh p) with (0.01 * (tanh q - tanh p)) by ring. rewrite Rabs_mult, (Rabs_pos_eq 0.01) by lra. pose proof (Rabs_pos (tanh q - tanh p)). lra.
    + eapply Rle_trans; [apply Rabs_triang|]. rewrite Rabs_Ropp, Rabs_mult, (Rabs_pos_eq 0.01) by lra. pose proof (Rabs_pos (tanh p)). rewrite (Rabs_left1 p) in Tp by lra. rewrite (Rabs_pos_eq q) in Tq by lra. lra.
Qed.
Lemma gain_pos a : 0 <= gain a. Proof. destruct a; cbn; lra. Qed.

(** ** accuracy *)
Section Acc.
Context {prec emax : Z} {Hp : Prec_gt_0 prec} {He : Prec_lt_emax prec emax} (P24 : (24 <= prec)%Z) (E64 : (64 <= emax)%Z) (PM : (prec + 3 <= emax)%Z).
Context (lib : libm prec emax) (LO : libm_ok lib) (c : R) (AC : libm_accurate lib c).
Notation fl := (fl prec emax).
Notation rnd := (rnd (prec := prec) (emax := emax)).
Notation fmt := (fmt (prec := prec) (emax := emax)).
Notation clamp := (clamp (emax := emax)).
Notation u := (uro prec).
Notation eta := (eta prec emax).
#[local] Instance NF : Num fl := Num_fl prec emax lib.
#[local] Existing Instance fexp_ok.

Lemma u_small : 0 < u <= / 1024.
Proof. split; [apply u_pos|]. unfold uro. change (/ 1024) with (bpow radix2 (-10)). apply bpow_le. lia. Qed.
Lemma eta_small : 0 < eta <= u / 1024.
Proof.
  split; [apply eta_pos|]. unfold uro, FloatSpec.eta. change (/ 1024) with (bpow radix2 (-10)). unfold Rdiv. change (/ 1024) with (bpow radix2 (-10)). rewrite <- bpow_plus. apply bpow_le. lia.
Qed.
Lemma c_pos : 0 <= c. Proof. exact (a_pos lib c AC). Qed.
Lemma noise_mono a p q : covered a -> 0 <= p <= q -> noise (prec := prec) (emax := emax) c a p <= noise (prec := prec) (emax := emax) c a q.
Proof.
  intros _ H. pose proof u_small as U. pose proof eta_small as T. pose proof c_pos as C. destruct a; unfold noise; cbv zeta; try lra.
  - assert (3 * u * (p / 100) <= 3 * u * (q / 100)) by (apply Rmult_le_compat_l; lra). lra.
  - assert (p * (c + 6 * u) <= q * (c + 6 * u)) by (apply Rmult_le_compat_r; lra). lra.
  - assert (5 * u * (1 + p / 100) <= 5 * u * (1 + q / 100)) by (apply Rmult_le_compat_l; lra). lra.
Qed.
Lemma noise_pos a p : 0 <= p -> 0 <= noise (prec := prec) (emax := emax) c a p.
Proof.
  intros H. pose proof u_small as U. pose proof eta_small as T. pose proof c_pos as C. destruct a; unfold noise; cbv zeta; try lra.
  - assert (0 <= 3 * u * (p / 100)) by (apply Rmult_le_pos; lra). lra.
  - assert (0 <= p * (c + 6 * u)) by (apply Rmult_le_pos; lra). lra.
  - assert (0 <= 5 * u * (1 + p / 100)) by (apply Rmult_le_pos; lra). lra.
Qed.

(** literals are correctly rounded *)
Lemma lit_rel (n : Z) (d : positive) : fin (fl_lit prec emax (n # d)) -> (Z.abs n <= 2 ^ 24)%Z -> (Zpos d <= 2 ^ 24)%Z -> / 1024 <= IZR n / IZR (Zpos d) ->
  exists e, Rabs e <= u /\ B2R (fl_lit prec emax (n # d)) = IZR n / IZR (Zpos d) * (1 + e).
Proof.
  intros F Hn Hd L. assert (M : IZR (2 ^ 24) < big emax). { unfold big. rewrite (IZR_Zpower radix2) by lia. apply bpow_lt. lia. }
  assert (Pw : (2 ^ 24 <= 2 ^ prec)%Z) by (apply Z.pow_le_mono_r; lia).
  destruct (lit_val n d) as [N V].
  - apply fmt_Z. lia.
  - apply fmt_Z. lia.
  - rewrite <- abs_IZR. apply Rle_lt_trans with (2 := M). now apply IZR_le.
  - rewrite <- abs_IZR. apply Rle_lt_trans with (2 := M). now apply IZR_le.
  - rewrite (fin_rnd _ _ N V F). apply rnd_err_normal. rewrite Rabs_pos_eq by lra. apply Rle_trans with (2 := L). change (/ 1024) with (bpow radix2 (-10)). apply bpow_le. lia.
Qed.
(** a product with a literal *)
Lemma two_rel (a b : R) : Rabs a <= u -> Rabs b <= u -> Rabs ((1 + a) * (1 + b) - 1) <= 2 * u + u * u.
Proof.
  intros A B. replace ((1 + a) * (1 + b) - 1) with (a + b + a * b) by ring. pose proof (Rabs_triang (a + b) (a * b)). pose proof (Rabs_triang a b).
  assert (Rabs (a * b) <= u * u) by (rewrite Rabs_mult; apply Rmult_le_compat; auto using Rabs_pos). lra.
Qed.
Lemma scaled (k : fl) (q e : R) (x : fl) : B2R k = q * (1 + e) -> Rabs e <= u -> 0 <= q -> fin (Bmult mode_NE k x) ->
  Rabs (B2R (Bmult mode_NE k x) - q * B2R x) <= (2 * u + u * u) * (q * Rabs (B2R x)) + eta.
Proof.
  intros Ek Ee Q F. destruct (mul_fin_inv _ _ F) as (_ & _ & ->). destruct (rnd_err (prec := prec) (emax := emax) (B2R k * B2R x)) as (d & h & D & H & ->). rewrite Ek.
  replace (q * (1 + e) * B2R x * (1 + d) + h - q * B2R x) with (((1 + e) * (1 + d) - 1) * (q * B2R x) + h) by ring.
  eapply Rle_trans; [apply Rabs_triang|]. apply Rplus_le_compat; [|exact H]. rewrite Rabs_mult, (Rabs_mult q), (Rabs_pos_eq q Q). apply Rmult_le_compat_r; [apply Rmult_le_pos; [exact Q|apply Rabs_pos]|]. now apply two_rel.
Qed.
(** adding one never overflows *)
Lemma plus_one (e : fl) : fin e -> 0 <= B2R e -> let s := Bplus mode_NE e Bone in fin s /\ exists d, Rabs d <= u /\ B2R s = (B2R e + 1) * (1 + d).
Proof.
  intros F P s. pose proof (fin_one (prec := prec) (emax := emax)) as F1. pose proof (val_one (prec := prec) (emax := emax)) as V1.
  destruct (val_add e Bone F F1) as [N V]. rewrite V1 in V. fold s in N, V.
  assert (B : Rabs (rnd (B2R e + 1)) < big emax).
  { destruct (round_N_pt radix2 (SpecFloat.fexp prec emax) (fun x => negb (Z.even x)) (B2R e + 1)) as [_ M]. specialize (M (B2R e) (fmt_B2R e)).
    fold (rnd (B2R e + 1)) in M. replace (B2R e - (B2R e + 1)) with (-1) in M by ring. rewrite (Rabs_left (-1)) in M by lra.
    assert (0 <= rnd (B2R e + 1)). { rewrite <- (rnd_0 (prec := prec) (emax := emax)) at 1. apply rnd_le. lra. } rewrite Rabs_pos_eq by assumption.
    pose proof (maxf_bound e F) as MB. unfold maxf in MB. assert (bpow radix2 2 <= bpow radix2 (emax - prec)) by (apply bpow_le; lia). change (bpow radix2 2) with 4 in *.
    apply Rabs_le_inv in M. unfold big. lra. }
  assert (Fs : fin s). { apply fin_iff. split; [exact N|]. rewrite V. apply Rabs_def2 in B. rewrite clamp_id by lra. apply Rabs_def1; lra. }
  split; [exact Fs|]. rewrite (fin_rnd _ _ N V Fs). apply rnd_plus_err; [apply fmt_B2R|apply fmt_1].
Qed.
Lemma rel_inv (a b : R) : Rabs a <= u -> Rabs b <= u -> Rabs ((1 + a) / (1 + b) - 1) <= 3 * u.
Proof.
  intros A B. pose proof u_small as U. apply Rabs_le_inv in A, B. replace ((1 + a) / (1 + b) - 1) with ((a - b) * / (1 + b)) by (field; lra).
  assert (I : 0 < / (1 + b) <= 3 / 2). { split; [apply Rinv_0_lt_compat; lra|]. replace (3 / 2) with (/ (2 / 3)) by lra. apply Rinv_le_contravar; lra. }
  rewrite Rabs_mult, (Rabs_pos_eq (/ (1 + b))) by lra. assert (Rabs (a - b) <= 2 * u) by (apply Rabs_le; lra). pose proof (Rabs_pos (a - b)). nra.
Qed.
(** w / (e + 1) with two roundings *)
Lemma quotient (w e : fl) : fin w -> fin e -> 0 <= B2R e -> fin (Bdiv mode_NE w (Bplus mode_NE e Bone)) ->
  Rabs (B2R (Bdiv mode_NE w (Bplus mode_NE e Bone)) - B2R w / (1 + B2R e)) <= 3 * u * Rabs (B2R w / (1 + B2R e)) + eta.
Proof.
  intros Fw Fe P Fq. pose proof u_small as U. destruct (plus_one e Fe P) as (Fs & d & D & Es). set (s := Bplus mode_NE e Bone) in *. pose proof (Rabs_le_inv _ _ D) as D'.
  assert (S0 : B2R s <> 0) by (rewrite Es; nra). destruct (val_div w s Fw Fs S0) as [N V]. rewrite (fin_rnd _ _ N V Fq).
  destruct (rnd_err (prec := prec) (emax := emax) (B2R w / B2R s)) as (d' & h & Dh & H & ->). rewrite Es.
  replace (B2R w / ((B2R e + 1) * (1 + d)) * (1 + d') + h - B2R w / (1 + B2R e)) with (((1 + d') / (1 + d) - 1) * (B2R w / (1 + B2R e)) + h) by (field; lra).
  eapply Rle_trans; [apply Rabs_triang|]. apply Rplus_le_compat; [|exact H]. rewrite Rabs_mult. apply Rmult_le_compat_r; [apply Rabs_pos|]. now apply rel_inv.
Qed.
Lemma inv_1p (t : R) : 0 <= t -> 0 < / (1 + t) <= 1.
Proof. intros H. split; [apply Rinv_0_lt_compat; lra|]. rewrite <- Rinv_1. apply Rinv_le_contravar; lra. Qed.
(** w / (exp(-x) + 1) *)
Lemma logistic (w x : fl) : fin w -> fin x -> fin (Bdiv mode_NE w (Bplus mode_NE (l_exp lib (Bopp x)) Bone)) ->
  Rabs (B2R (Bdiv mode_NE w (Bplus mode_NE (l_exp lib (Bopp x)) Bone)) - B2R w / (1 + exp (- B2R x))) <= Rabs (B2R w) * (c + 6 * u) + eta.
Proof.
  intros Fw Fx Fq. pose proof u_small as U. pose proof eta_small as T. pose proof c_pos as C. pose proof (fin_opp x Fx) as Fo. pose proof (fin_num _ Fo) as No.
  set (e := l_exp lib (Bopp x)) in *. assert (Ne : num e) by now apply (m_exp_num lib LO). assert (Pe : 0 <= val e) by now apply (m_exp_pos lib LO).
  set (E := exp (- B2R x)). assert (PE : 0 < E) by apply exp_pos. pose proof (Rabs_pos (B2R w)) as W. destruct (split_num e Ne) as [Fe|Ie].
  - rewrite fin_val in Pe by exact Fe. pose proof (a_exp lib c AC (Bopp x) Fo Fe) as A. fold e in A. rewrite B2R_Bopp in A. fold E in A.
    pose proof (quotient w e Fw Fe Pe Fq) as Q. set (q := B2R (Bdiv _ _ _)) in *. pose proof (inv_1p (B2R e) Pe) as I1. pose proof (inv_1p E ltac:(lra)) as I2.
    assert (D : Rabs (B2R w / (1 + B2R e) - B2R w / (1 + E)) <= Rabs (B2R w) * (c + 2 * eta)).
    { replace (B2R w / (1 + B2R e) - B2R w / (1 + E)) with (B2R w * (- (B2R e - E) * (/ (1 + B2R e) * / (1 + E)))) by (field; lra). rewrite Rabs_mult. apply Rmult_le_compat_l; [exact W|].
      rewrite Rabs_mult, Rabs_Ropp, (Rabs_pos_eq (_ * _)) by nra. apply Rle_trans with ((c * E + 2 * eta) * (/ (1 + B2R e) * / (1 + E))); [apply Rmult_le_compat_r; nra|].
      assert (X : E * / (1 + E) <= 1). { apply Rmult_le_reg_r with (1 + E); [lra|]. rewrite Rmult_assoc, Rinv_l by lra. lra. }
      replace ((c * E + 2 * eta) * (/ (1 + B2R e) * / (1 + E))) with (c * ((E * / (1 + E)) * / (1 + B2R e)) + 2 * eta * (/ (1 + B2R e) * / (1 + E))) by ring.
      assert (Y : 0 <= E * / (1 + E)) by nra. apply Rplus_le_compat; [rewrite <- (Rmult_1_r c) at 2|rewrite <- (Rmult_1_r (2 * eta)) at 2]; apply Rmult_le_compat_l; nra. }
    assert (Z1 : Rabs (B2R w / (1 + B2R e)) <= Rabs (B2R w)). { unfold Rdiv. rewrite Rabs_mult, (Rabs_pos_eq (/ _)) by lra. nra. }
    replace (q - B2R w / (1 + E)) with (q - B2R w / (1 + B2R e) + (B2R w / (1 + B2R e) - B2R w / (1 + E))) by ring. eapply Rle_trans; [apply Rabs_triang|].
    assert (Z2 : 3 * u * Rabs (B2R w / (1 + B2R e)) <= 3 * u * Rabs (B2R w)) by (apply Rmult_le_compat_l; lra).
    assert (Z3 : Rabs (B2R w) * (c + 2 * eta) + 3 * u * Rabs (B2R w) <= Rabs (B2R w) * (c + 6 * u)) by nra. lra.
  - assert (Ie' : e = B754_infinity false). { destruct Ie as [Ie|Ie]; [|exact Ie]. rewrite Ie in Pe. cbn [val] in Pe. pose proof (big_pos (emax := emax)). lra. }
    assert (Nf : ~ fin e) by (rewrite Ie'; discriminate). pose proof (a_exp_over lib c AC (Bopp x) Fo Nf) as A. rewrite B2R_Bopp in A. fold E in A.
    rewrite Ie' in *. rewrite (inf_plus_one (prec := prec) (emax := emax)).
    assert (Z0 : B2R (Bdiv mode_NE w (B754_infinity false)) = 0). { unfold fin in Fw. destruct w; try discriminate Fw; reflexivity. } rewrite Z0, Rminus_0_l, Rabs_Ropp.
    assert (B : 2 / u <= big emax). { unfold big, uro, Rdiv. rewrite <- bpow_opp. change 2 with (bpow radix2 1). rewrite <- bpow_plus. apply bpow_le. lia. }
    unfold Rdiv at 1. rewrite Rabs_mult, (Rabs_pos_eq (/ _)) by (left; apply Rinv_0_lt_compat; lra).
    assert (X : / (1 + E) <= u). { replace u with (/ (/ u)) by (field; lra). apply Rinv_le_contravar; [apply Rinv_0_lt_compat; lra|]. unfold Rdiv in B. lra. } nra.
Qed.

Lemma act_acc a (x : fl) : covered a -> fin x -> Rabs (B2R (scalar_f a x) - std_act a (B2R x)) <= noise (prec := prec) (emax := emax) c a (Rabs (B2R x)).
Proof.
  intros (G1 & G2 & G3) F. pose proof (fin_num x F) as N. pose proof (fin_val x F) as V. pose proof u_small as U. pose proof eta_small as T. pose proof c_pos as C.
  assert (Fr : fin (scalar_f a x)) by (apply (scalar_f_spec P24 E64 lib LO a x F); assumption).
  pose proof (fin_one (prec := prec) (emax := emax)) as F1. pose proof (val_one (prec := prec) (emax := emax)) as V1. pose proof (Rabs_pos (B2R x)) as Ax.
  assert (L001 : exists e, Rabs e <= u /\ B2R (fl_lit prec emax (1 # 100)) = 0.01 * (1 + e)).
  { destruct (lit_rel 1 100) as (e & E1 & E2); [apply (lit_001 P24 E64)|lia|lia|lra|]. exists e. split; [exact E1|]. rewrite E2. f_equal. }
  assert (UU : u * u <= u * / 1024) by (apply Rmult_le_compat_l; lra).
  destruct a; try congruence; cbn [scalar_f std_act noise] in *.
  - unfold identity. rewrite Rminus_eq_0, Rabs_R0. lra.
  - unfold relu, gt0 in *. cbn [ltb zero NF Num_fl] in *. destruct (Bltb (B754_zero false) x) eqn:L.
    + apply val_ltb in L; [|reflexivity|exact N]. rewrite V in L. cbn in L. rewrite Rmax_right by lra. rewrite Rminus_eq_0, Rabs_R0. lra.
    + apply val_ltb_false in L; [|reflexivity|exact N]. rewrite V in L. cbn [val B2R] in L. cbn [B2R]. rewrite Rmax_left by lra. rewrite Rminus_eq_0, Rabs_R0. lra.
  - unfold elu, gt0 in *. cbn [ltb zero mul lit nexpm1 NF Num_fl] in *. destruct (Bltb (B754_zero false) x) eqn:L.
    + apply val_ltb in L; [|reflexivity|exact N]. rewrite V in L. cbn in L. destruct (Rlt_dec 0 (B2R x)); [|lra]. rewrite Rminus_eq_0, Rabs_R0. lra.
    + apply val_ltb_false in L; [|reflexivity|exact N]. rewrite V in L. cbn [val B2R] in L. destruct (Rlt_dec 0 (B2R x)); [lra|].
      destruct (lit_rel 2 10) as (e & E1 & E2); [apply (lit_02 P24 E64)|lia|lia|lra|].
      pose proof (a_expm1 lib c AC x F L) as A. destruct (mul_fin_inv _ _ Fr) as (_ & Fm & _). pose proof (m_expm1_neg lib LO x N ltac:(lra)) as [_ W]. rewrite fin_val in W by exact Fm.
      pose proof (scaled _ (2 / 10) e (l_expm1 lib x) E2 E1 ltac:(lra) Fr) as S. set (m := B2R (l_expm1 lib x)) in *. set (r := B2R (Bmult _ _ _)) in *. set (M := exp (B2R x) - 1) in *.
      replace (r - 0.2 * M) with (r - 2 / 10 * m + 2 / 10 * (m - M)) by lra. eapply Rle_trans; [apply Rabs_triang|]. rewrite (Rabs_mult (2 / 10)), (Rabs_pos_eq (2 / 10)) by lra.
      assert (Rabs m <= 1) by (apply Rabs_le; lra). pose proof (Rabs_pos m). pose proof (Rabs_pos (m - M)). nra.
  - unfold lrelu, gt0 in *. cbn [ltb zero mul lit NF Num_fl] in *. destruct (Bltb (B754_zero false) x) eqn:L.
    + apply val_ltb in L; [|reflexivity|exact N]. rewrite V in L. cbn in L. destruct (Rlt_dec 0 (B2R x)); [|lra]. rewrite Rminus_eq_0, Rabs_R0. assert (0 <= 3 * u * (Rabs (B2R x) / 100)) by (apply Rmult_le_pos; lra). lra.
    + apply val_ltb_false in L; [|reflexivity|exact N]. rewrite V in L. cbn [val B2R] in L. destruct (Rlt_dec 0 (B2R x)); [lra|].
      destruct L001 as (e & E1 & E2). pose proof (scaled _ 0.01 e x E2 E1 ltac:(lra) Fr) as S. eapply Rle_trans; [exact S|]. nra.
  - unfold sigmoid in *. cbn [div add one nexp opp NF Num_fl] in *. pose proof (logistic Bone x F1 F Fr) as Q. rewrite V1 in Q. rewrite Rabs_R1 in Q. lra.
  - pose proof (a_tanh lib c AC x F) as A. unfold tanh_f. cbn [ntanh NF Num_fl]. pose proof (act_std Tanh (B2R x)) as E. cbn [scalar_f std_act] in E. unfold tanh_f in E. cbn [ntanh Num_R] in E. rewrite <- E. lra.
  - unfold softsign in *. cbn [div add one nabs NF Num_fl] in *. pose proof (fin_abs x F) as Fa. assert (Ea : B2R (Babs x) = Rabs (B2R x)) by apply B2R_Babs.
    pose proof (quotient x (Babs x) F Fa ltac:(rewrite Ea; exact Ax) Fr) as Q. rewrite Ea in Q.
    assert (B : Rabs (B2R x / (1 + Rabs (B2R x))) <= 1).
    { unfold Rdiv. rewrite Rabs_mult, (Rabs_pos_eq (/ _)) by (left; apply Rinv_0_lt_compat; lra). apply Rmult_le_reg_r with (1 + Rabs (B2R x)); [lra|]. rewrite Rmult_assoc, Rinv_l by lra. lra. }
    assert (3 * u * Rabs (B2R x / (1 + Rabs (B2R x))) <= 3 * u * 1) by (apply Rmult_le_compat_l; lra). lra.
  - unfold swish in *. cbn [div add one nexp opp NF Num_fl] in *. pose proof (logistic x x F F Fr) as Q. replace (B2R x * (1 / (1 + exp (- B2R x)))) with (B2R x / (1 + exp (- B2R x))); [exact Q|]. unfold Rdiv. ring.
  - unfold mod_relu in *. cbn [ltb zero one mul add lit NF Num_fl] in *. assert (0 <= 5 * u * (1 + Rabs (B2R x) / 100)) by (apply Rmult_le_pos; lra). destruct L001 as (e & E1 & E2). destruct (Bltb x (B754_zero false)) eqn:L.
    + apply val_ltb in L; [|exact N|reflexivity]. rewrite V in L. cbn [val B2R] in L. destruct (Rlt_dec (B2R x) 0); [|lra].
      pose proof (scaled _ 0.01 e x E2 E1 ltac:(lra) Fr) as S. eapply Rle_trans; [exact S|]. nra.
    + apply val_ltb_false in L; [|exact N|reflexivity]. rewrite V in L. cbn [val B2R] in L. destruct (Rlt_dec (B2R x) 0); [lra|]. destruct (Bltb Bone x) eqn:L1.
      * apply val_ltb in L1; [|now apply fin_num|exact N]. rewrite V, (fin_val _ F1), V1 in L1. destruct (Rlt_dec 1 (B2R x)); [|lra].
        destruct (add_fin_inv _ _ Fr) as (_ & Fm & Er). pose proof (scaled _ 0.01 e x E2 E1 ltac:(lra) Fm) as S. rewrite Er. set (m := B2R (Bmult _ _ x)) in *.
        destruct (lit_rel 99 100) as (d & D1 & D2); [apply (lit_099 P24 E64)|lia|lia|lra|].
        destruct (rnd_plus_err (prec := prec) (emax := emax) (B2R (fl_lit prec emax (99 # 100))) m (fmt_B2R _) (fmt_B2R _)) as (f & Ef & ->). rewrite D2.
        set (X := B2R x) in *. replace ((99 / 100 * (1 + d) + m) * (1 + f) - (0.99 + 0.01 * X)) with (99 / 100 * ((1 + d) * (1 + f) - 1) + (m - 0.01 * X) * (1 + f) + 0.01 * X * f) by lra.
        pose proof (two_rel d f D1 Ef) as R2. rewrite (Rabs_pos_eq X) in * by lra. apply Rabs_le_inv in R2, S, Ef. clear Er Fm Fr.
        set (g := (1 + d) * (1 + f) - 1) in *. clearbody g. set (h := m - 0.01 * X) in *. clearbody h.
        assert (Hh : Rabs (h * (1 + f)) <= ((2 * u + u * u) * (0.01 * X) + eta) * (1 + u)). { rewrite Rabs_mult. apply Rmult_le_compat; auto using Rabs_pos; apply Rabs_le; lra. }
        assert (Hf : Rabs (0.01 * X * f) <= 0.01 * X * u). { rewrite Rabs_mult, (Rabs_pos_eq (0.01 * X)) by lra. apply Rmult_le_compat_l; [lra|]. apply Rabs_le. lra. }
        eapply Rle_trans; [apply Rabs_triang|]. eapply Rle_trans; [apply Rplus_le_compat_r, Rabs_triang|]. rewrite (Rabs_mult (99 / 100)), (Rabs_pos_eq (99 / 100)) by lra. assert (Rabs g <= 2 * u + u * u) by (apply Rabs_le; lra).
        assert (K1 : (2 * u + u * u) * (1 + u) <= 3 * u) by nra. assert (K2 : ((2 * u + u * u) * (0.01 * X) + eta) * (1 + u) <= 3 * u * (0.01 * X) + 2 * eta) by nra. nra.
      * apply val_ltb_false in L1; [|now apply fin_num|exact N]. rewrite V, (fin_val _ F1), V1 in L1. destruct (Rlt_dec 1 (B2R x)); [lra|]. rewrite Rminus_eq_0, Rabs_R0. lra.
  - unfold mod_tanh in *. cbn [ltb zero mul ntanh lit NF Num_fl] in *. pose proof (a_tanh lib c AC x F) as A. destruct (Bltb x (B754_zero false)) eqn:L.
    + apply val_ltb in L; [|exact N|reflexivity]. rewrite V in L. cbn [val B2R] in L. destruct (Rlt_dec (B2R x) 0); [|lra].
      destruct L001 as (e & E1 & E2). destruct (mul_fin_inv _ _ Fr) as (_ & Fm & _). destruct (m_tanh_range lib LO x N) as [_ W]. rewrite fin_val in W by exact Fm.
      pose proof (scaled _ 0.01 e (l_tanh lib x) E2 E1 ltac:(lra) Fr) as S. set (m := B2R (l_tanh lib x)) in *. set (r' := B2R (Bmult _ _ _)) in *.
      replace (r' - 0.01 * tanh (B2R x)) with (r' - 0.01 * m + 0.01 * (m - tanh (B2R x))) by ring. eapply Rle_trans; [apply Rabs_triang|]. rewrite (Rabs_mult 0.01), (Rabs_pos_eq 0.01) by lra.
      assert (Rabs m <= 1) by (apply Rabs_le; lra). pose proof (Rabs_pos m). pose proof (Rabs_pos (m - tanh (B2R x))). nra.
    + apply val_ltb_false in L; [|exact N|reflexivity]. rewrite V in L. cbn [val B2R] in L. destruct (Rlt_dec (B2R x) 0); [lra|]. lra.
Qed.
End Acc.

(** * Property theorems C101-C104: losses in IEEE arithmetic

    [fl prec emax] as in PropFloatAct.v; float has prec = 24, emax = 128, double prec = 53, emax = 1024 (both meet the
    hypotheses [P24], [EM]).  [lib] is any math library that meets [libm_ok]. *)
From Coq Require Import ZArith QArith Reals Lra Lia Psatz Bool List.
From Flocq Require Import Core BinarySingleNaN.
From Verif Require Import Mem Scalar MemSpec MemLemmas LiqueProofs LiqueSpec LinearProofs Functions FunctionSpec FunctionProofs Float FloatSpec FloatLemmas FloatLib FloatError FloatAct PropFloatSoftmax FloatLoss.
Local Open Scope R_scope.

Section Props.
Context {prec emax : Z} {Hp : Prec_gt_0 prec} {He : Prec_lt_emax prec emax} (P24 : (24 <= prec)%Z) (EM : (3 * prec + 8 <= emax)%Z).
Context (lib : libm prec emax) (LO : libm_ok lib).
Notation fl := (fl prec emax).
Notation rnd := (rnd (prec := prec) (emax := emax)).
Notation fmt := (fmt (prec := prec) (emax := emax)).
Notation clamp := (clamp (emax := emax)).
Notation u := (uro prec).
Notation eta := (eta prec emax).
#[local] Instance NF : Num fl := Num_fl prec emax lib.
#[local] Existing Instance fexp_ok.
Implicit Types (t p y : Z -> fl) (x v : fl).
Notation eps := (@epsilon fl NF).

(** [n] finite numbers; [n] numbers in [0, 1] *)
Definition finite (n : Z) (x : Z -> fl) : Prop := forall i, (0 <= i < n)%Z -> fin (x i).
Definition in01 (n : Z) (x : Z -> fl) : Prop := forall i, (0 <= i < n)%Z -> fin (x i) /\ 0 <= B2R (x i) <= 1.
Lemma units n t p : in01 n t -> in01 n p -> forall i, (0 <= i < n)%Z -> unit (t i) /\ unit (p i).
Proof. intros A B i Hi. split; [now apply A|now apply B]. Qed.

(** ** C101 *)
(** The loss of any number of targets and predictions in [0, 1] is a finite number of magnitude at most 2^(prec + 6), and
    not negative except for categorical cross-entropy.  (For BCE and NLL see C103.) *)
Theorem C101_losses_of_probabilities l (n : Z) (y_true y_pred : ptr) (m : mem fl) t p :
  l <> BCE -> l <> NLL -> (0 <= n)%Z -> holds m y_true n t -> holds m y_pred n p -> in01 n t -> in01 n p ->
  exists v, loss_f l n y_true y_pred m = Ok (v, m) /\ fin v /\ Rabs (B2R v) <= bpow radix2 (prec + 6) /\ (l <> CCE -> 0 <= B2R v).
Proof.
  intros N1 N2 Hn Ht Hp' It Ip. exists (loss_val l n t p). split; [now apply loss_f_ok|].
  destruct (unit_losses P24 EM lib LO l n t p Hn N1 N2 (units n t p It Ip)) as [[F B] S]. auto.
Qed.

(** ** C102 *)
(** MSE, MAE and log-cosh of any finite targets and predictions: never NaN, never negative (plus infinity on overflow). *)
Theorem C102_distances_not_nan l (n : Z) (y_true y_pred : ptr) (m : mem fl) t p :
  l = MSE \/ l = MAE \/ l = LC -> (0 <= n)%Z -> holds m y_true n t -> holds m y_pred n p -> finite n t -> finite n p ->
  exists v, loss_f l n y_true y_pred m = Ok (v, m) /\ num v /\ 0 <= val v.
Proof.
  intros C Hn Ht Hp' It Ip. exists (loss_val l n t p). split; [now apply loss_f_ok|]. apply (distance_num P24 EM lib LO); auto.
Qed.
(** MSLE of any finite non-negative targets and predictions is a finite non-negative number. *)
Theorem C102_msle_finite (n : Z) (y_true y_pred : ptr) (m : mem fl) t p :
  (emax <= 2 ^ prec)%Z -> (0 <= n)%Z -> holds m y_true n t -> holds m y_pred n p ->
  (forall i, (0 <= i < n)%Z -> (fin (t i) /\ 0 <= B2R (t i)) /\ (fin (p i) /\ 0 <= B2R (p i))) ->
  exists v, loss_f MSLE n y_true y_pred m = Ok (v, m) /\ fin v /\ 0 <= B2R v.
Proof.
  intros EP Hn Ht Hp' H. exists (loss_val MSLE n t p). split; [now apply loss_f_ok|]. destruct (msle_small P24 EM lib LO n t p EP Hn H) as [[F _] Q]. auto.
Qed.
(** A perfect prediction has loss exactly 0. *)
Theorem C102_perfect_prediction l (n : Z) (y_true y_pred : ptr) (m : mem fl) t p :
  l = MSE \/ l = MAE \/ l = LC \/ l = MSLE -> (0 <= n)%Z -> holds m y_true n t -> holds m y_pred n p -> finite n t -> finite n p ->
  (forall i, (0 <= i < n)%Z -> B2R (t i) = B2R (p i) /\ (l = MSLE -> 0 <= B2R (t i))) ->
  exists v, loss_f l n y_true y_pred m = Ok (v, m) /\ fin v /\ B2R v = 0.
Proof.
  intros C Hn Ht Hp' It Ip H. exists (loss_val l n t p). split; [now apply loss_f_ok|]. apply (perfect P24 EM lib LO); auto.
Qed.
(** Only a perfect prediction has mean absolute error 0. *)
Theorem C102_mae_zero_iff (n : Z) (y_true y_pred : ptr) (m : mem fl) t p :
  (0 <= n)%Z -> holds m y_true n t -> holds m y_pred n p -> finite n t -> finite n p ->
  exists v, loss_f MAE n y_true y_pred m = Ok (v, m) /\ (val v = 0 <-> forall i, (0 <= i < n)%Z -> B2R (t i) = B2R (p i)).
Proof.
  intros Hn Ht Hp' It Ip. exists (loss_val MAE n t p). split; [now apply loss_f_ok|]. split.
  - intros V i Hi. destruct (distance_num P24 EM lib LO MAE n t p Hn ltac:(auto) ltac:(auto)) as [N _].
    assert (F : fin (loss_val MAE n t p)) by (apply fin_iff; split; [exact N|]; rewrite V, Rabs_R0; apply big_pos). rewrite fin_val in V by exact F.
    cbn [loss_val] in *. cbn [sub nabs NF Num_fl] in *. set (f := fun i => Babs (Bminus mode_NE (p i) (t i))) in *.
    destruct (sum_ge lib f n Hn F) as [_ M]; [intros j Hj; apply abs_num, diff_num; auto|]. specialize (M i Hi). pose proof (fin_sum_inv lib f n Hn F i Hi) as Fi.
    unfold f in M, Fi. assert (G : fin (Bminus mode_NE (p i) (t i))) by (unfold fin in *; now rewrite is_finite_Babs in Fi). destruct (sub_fin_inv _ _ G) as (_ & _ & W). rewrite B2R_Babs, W in M.
    destruct (rnd_minus_err (prec := prec) (emax := emax) (B2R (p i)) (B2R (t i)) (fmt_B2R _) (fmt_B2R _)) as (d & D1 & D2). rewrite D2 in M. pose proof (u_half (prec := prec) (emax := emax)). apply Rabs_le_inv in D1.
    assert (Z0 : (B2R (p i) - B2R (t i)) * (1 + d) = 0).
    { destruct (Req_dec ((B2R (p i) - B2R (t i)) * (1 + d)) 0) as [E0|E0]; [exact E0|]. apply Rabs_pos_lt in E0. change (zsum n (fun i : Z => Babs (Bminus mode_NE (p i) (t i)))) with (zsum n f) in V. change (B2R (zsum n f) = 0) in V. change (Rabs ((B2R (p i) - B2R (t i)) * (1 + d)) <= B2R (zsum n f)) in M. rewrite V in M. exfalso. apply (Rlt_irrefl 0). now apply Rlt_le_trans with (1 := E0). }
    apply Rmult_integral in Z0. lra.
  - intros H. destruct (perfect P24 EM lib LO MAE n t p Hn ltac:(auto)) as [F V]; [|rewrite fin_val by exact F; exact V]. intros i Hi. split; [now apply It|]. split; [now apply Ip|]. split; [now apply H|discriminate].
Qed.
(** A finite MAE has relative error at most that of n + 1 roundings, a finite MSE that of n + 4 and n + 1 underflows. *)
Theorem C102_mae_accurate (n : Z) (y_true y_pred : ptr) (m : mem fl) t p :
  (0 <= n)%Z -> holds m y_true n t -> holds m y_pred n p ->
  exists v, loss_f MAE n y_true y_pred m = Ok (v, m) /\ (fin v ->
    let D := rsum n (fun i => Rabs (B2R (p i) - B2R (t i))) in
    (1 - u) ^ Z.to_nat (n + 1) * D <= B2R v <= (1 + u) ^ Z.to_nat (n + 1) * D).
Proof. intros Hn Ht Hp'. exists (loss_val MAE n t p). split; [now apply loss_f_ok|]. now apply (mae_rel lib). Qed.
Theorem C102_mse_accurate (n : Z) (y_true y_pred : ptr) (m : mem fl) t p :
  (0 <= n)%Z -> holds m y_true n t -> holds m y_pred n p ->
  exists v, loss_f MSE n y_true y_pred m = Ok (v, m) /\ (fin v ->
    let D := rsum n (fun i => (B2R (t i) - B2R (p i)) * (B2R (t i) - B2R (p i))) / 2 in
    (1 - u) ^ Z.to_nat (n + 4) * D - IZR (n + 1) * eta <= B2R v <= (1 + u) ^ Z.to_nat (n + 4) * D + IZR (n + 1) * eta * (1 + u) ^ Z.to_nat (n + 1)).
Proof. intros Hn Ht Hp'. exists (loss_val MSE n t p). split; [now apply loss_f_ok|]. now apply (mse_rel P24 EM lib). Qed.

(** ** C103 *)
(** Binary cross-entropy of probabilities is finite when the type can represent 1 - 1e-9 (double can) ... *)
Theorem C103_bce_finite_partial (n : Z) (y_true y_pred : ptr) (m : mem fl) t p :
  (30 <= prec)%Z -> (0 <= n)%Z -> holds m y_true n t -> holds m y_pred n p -> in01 n t -> in01 n p ->
  exists v, loss_f BCE n y_true y_pred m = Ok (v, m) /\ fin v /\ Rabs (B2R v) <= bpow radix2 (prec + 7).
Proof.
  intros P30 Hn Ht Hp' It Ip. exists (loss_val BCE n t p). split; [now apply loss_f_ok|]. exact (unit_bce P24 EM lib LO n t p P30 Hn (units n t p It Ip)).
Qed.
(** ... but in float (prec = 24) one confident correct prediction, target 1 and prediction 1, makes the whole loss NaN,
    whatever the other elements are: epsilon - 1 rounds to -1, log1p(-1) is minus infinity, times 1 - 1 = 0. *)
Lemma eps_minus_one x : (prec <= 27)%Z -> fin x -> B2R x = 1 -> fin (Bminus mode_NE eps x) /\ B2R (Bminus mode_NE eps x) = -1.
Proof.
  intros P27 F V. destruct (eps_ok P24 EM lib) as [Fe He']. change (fin eps) in Fe. change (bpow radix2 (-30) <= B2R eps <= bpow radix2 (-29)) in He'. pose proof (big_gt_1 (prec := prec) (emax := emax)) as B1. destruct (val_sub eps x Fe F) as [N E]. rewrite V in E.
  assert (R : rnd (B2R eps - 1) = -1).
  { replace (B2R eps - 1) with (- (1 - B2R eps)) by lra. rewrite rnd_opp. enough (rnd (1 - B2R eps) = 1) by lra. apply Rle_antisym.
    - rewrite <- (rnd_id 1 (fmt_1 (prec := prec) (emax := emax))) at 2. apply rnd_le. pose proof (bpow_gt_0 radix2 (-30)). lra.
    - change 1 with (bpow radix2 0) at 1. apply round_N_ge_midp; [typeclasses eauto|apply fmt_1|]. rewrite pred_eq_pos by apply bpow_ge_0. 
      unfold pred_pos. rewrite mag_bpow. change (0 + 1 - 1)%Z with 0%Z. rewrite Req_bool_true by reflexivity. rewrite fexp_flt. unfold FLT_exp. rewrite Z.max_l by lia.
      change (bpow radix2 0) with 1. assert (Q1 : bpow radix2 (-27) <= bpow radix2 (0 - prec)) by (apply bpow_le; lia). assert (Q2 : bpow radix2 (-27) = 4 * bpow radix2 (-29)) by (change (-27)%Z with (2 + -29)%Z; rewrite bpow_plus; reflexivity). pose proof (bpow_gt_0 radix2 (-29)). lra. }
  rewrite R, clamp_id in E by lra. assert (G : fin (Bminus mode_NE eps x)) by (apply fin_iff; split; [exact N|]; rewrite E, Rabs_left; lra). split; [exact G|]. now rewrite fin_val in E.
Qed.
Lemma nan_sub_l x : Bminus mode_NE B754_nan x = B754_nan. Proof. reflexivity. Qed.
Lemma nan_sub_r x : Bminus mode_NE x B754_nan = B754_nan. Proof. destruct x; reflexivity. Qed.
Lemma fold_nan n (f : Z -> fl) (j : Z) : (0 <= j < n)%Z -> f j = B754_nan -> zfold n (fun i acc => sub acc (f i)) zero = B754_nan.
Proof.
  intros Hj E. assert (Hn : (0 <= n)%Z) by lia. revert Hj. pattern n. match goal with |- ?Q n => refine (natlike_ind Q _ _ n Hn); clear n Hn end; [lia|].
  intros n Hn IH Hj. unfold Z.succ in *. rewrite zfold_S by exact Hn. cbn [sub NF Num_fl] in *. destruct (Z.eq_dec j n) as [->|]; [rewrite E; apply nan_sub_r|]. rewrite IH by lia. reflexivity.
Qed.
Lemma zero_form x : fin x -> B2R x = 0 -> exists s, x = B754_zero s.
Proof.
  intros F V. destruct x as [s|s| |s q e B]; try discriminate F; [now exists s|]. exfalso. cbn [B2R] in V.
  destruct s; [pose proof (F2R_lt_0 radix2 (Float radix2 (cond_Zopp true (Z.pos q)) e) ltac:(reflexivity))|pose proof (F2R_gt_0 radix2 (Float radix2 (cond_Zopp false (Z.pos q)) e) ltac:(reflexivity))]; lra.
Qed.
Theorem C103_bce_float_nan_refuted (n j : Z) (y_true y_pred : ptr) (m : mem fl) t p :
  (prec <= 27)%Z -> (0 <= j < n)%Z -> holds m y_true n t -> holds m y_pred n p ->
  fin (t j) -> B2R (t j) = 1 -> fin (p j) -> B2R (p j) = 1 ->
  loss_f BCE n y_true y_pred m = Ok (B754_nan, m).
Proof.
  intros P27 Hj Ht Hp' Ft Vt Fp Vp. rewrite (loss_f_ok BCE n y_true y_pred m t p) by (auto; lia). cbn [loss_val].
  rewrite (fold_nan n (fun i => add (mul (t i) (nlog (add (p i) epsilon))) (mul (sub one (t i)) (nlog1p (sub epsilon (p i))))) j Hj); [reflexivity|].
  cbn [add mul sub one nlog nlog1p NF Num_fl]. destruct (eps_minus_one (p j) P27 Fp Vp) as [G V]. rewrite (m_log1p_m1 lib LO _ G V).
  destruct (sub_is0 (prec := prec) (emax := emax) Bone (t j) (fin_one (prec := prec) (emax := emax)) Ft) as [Gz Vz]; [rewrite Vt; apply val_one|].
  pose proof (zero_form _ Gz Vz) as Z0.
  destruct Z0 as [s ->]. change (Bmult mode_NE (B754_zero s) (B754_infinity true)) with (B754_nan : fl). destruct (Bmult mode_NE (t j) _); reflexivity.
Qed.
(** Negative log-likelihood of probabilities is never NaN, and finite as soon as one element has target 1 and a positive
    prediction (e.g. one-hot targets whose class got some probability) ... *)
Theorem C103_nll_finite_partial (n : Z) (y_true y_pred : ptr) (m : mem fl) t p :
  (0 <= n)%Z -> holds m y_true n t -> holds m y_pred n p -> in01 n t -> in01 n p ->
  exists v, loss_f NLL n y_true y_pred m = Ok (v, m) /\ num v /\
    ((exists i, (0 <= i < n)%Z /\ B2R (t i) = 1 /\ 0 < B2R (p i)) -> fin v).
Proof.
  intros Hn Ht Hp' It Ip. exists (loss_val NLL n t p). split; [now apply loss_f_ok|]. cbn [loss_val]. cbn [opp nlog mul NF Num_fl]. set (f := fun i => Bmult mode_NE (t i) (p i)).
  assert (U : forall i, (0 <= i < n)%Z -> small 0 (f i)) by (intros i Hi; apply (mul_small P24 EM 0 0); [lia|lia|lia|apply unit_small, It, Hi|apply unit_small, Ip, Hi]).
  assert (U0 : forall i, (0 <= i < n)%Z -> 0 <= B2R (f i)).
  { intros i Hi. destruct (mul_fin_inv _ _ (proj1 (U i Hi))) as (_ & _ & E). unfold f. rewrite E, <- (rnd_0 (prec := prec) (emax := emax)). apply rnd_le. destruct (It i Hi), (Ip i Hi). nra. }
  pose proof (sum_small P24 EM lib 0 n f ltac:(lia) Hn U) as [Fs _]. destruct (sum_ge lib f n Hn Fs) as [S0 M]; [intros i Hi; rewrite fin_val by apply U, Hi; now apply U0|].
  match type of Fs with fin ?z => set (s := z) in * end. change (zsum n (fun i => Bmult mode_NE (t i) (p i))) with s.
  destruct (Rle_lt_or_eq_dec _ _ S0) as [S1|S1].
  - assert (G : fin (l_log lib s)) by (now apply (m_log_fin lib LO)). split; [|intros _; now apply fin_opp]. apply fin_num. now apply fin_opp.
  - pose proof (zero_form s Fs (eq_sym S1)) as Z0.
    split. { destruct Z0 as [b Eb]. change (num (Bopp (l_log lib s))). rewrite Eb. rewrite (m_log_zero lib LO). reflexivity. }
    intros (i & Hi & T1 & P1). exfalso. specialize (M i Hi). destruct (mul_fin_inv _ _ (proj1 (U i Hi))) as (_ & _ & E). assert (M' : B2R (f i) <= 0) by (change (B2R (f i) <= B2R s) in M; change (0 = B2R s) in S1; lra). unfold f in M'. rewrite E, T1, Rmult_1_l, rnd_id in M' by apply fmt_B2R. lra.
Qed.
(** ... but plus infinity when no target class got any probability. *)
Theorem C103_nll_infinite_refuted (n : Z) (y_true y_pred : ptr) (m : mem fl) t p :
  (0 <= n)%Z -> holds m y_true n t -> holds m y_pred n p -> finite n t -> finite n p -> (forall i, (0 <= i < n)%Z -> B2R (t i) = 0 \/ B2R (p i) = 0) ->
  loss_f NLL n y_true y_pred m = Ok (B754_infinity false, m).
Proof.
  intros Hn Ht Hp' It Ip H. rewrite (loss_f_ok NLL n y_true y_pred m t p) by auto. cbn [loss_val]. cbn [opp nlog mul NF Num_fl].
  destruct (sum_is0 lib n (fun i => Bmult mode_NE (t i) (p i)) Hn) as [F V].
  { intros i Hi. destruct (H i Hi) as [E|E]; [apply (mul_is0 (t i) (p i))|apply (mul_is0 (p i) (t i))]; try split; auto. }
  destruct (zero_form _ F V) as [b Eb]. match goal with |- context [l_log lib ?s] => change (s = B754_zero b) in Eb; rewrite Eb end. now rewrite (m_log_zero lib LO).
Qed.
(** Log-cosh overflows as soon as one difference exceeds emax + 1 (129 in float), although its exact value is about that difference. *)
Theorem C103_logcosh_overflow_refuted (n j : Z) (y_true y_pred : ptr) (m : mem fl) t p :
  (emax + 1 <= 2 ^ prec)%Z -> (0 <= j < n)%Z -> holds m y_true n t -> holds m y_pred n p -> finite n t -> finite n p -> IZR emax + 1 <= Rabs (B2R (p j) - B2R (t j)) ->
  loss_f LC n y_true y_pred m = Ok (B754_infinity false, m).
Proof.
  intros EP Hj Ht Hp' It Ip H. rewrite (loss_f_ok LC n y_true y_pred m t p) by (auto; lia). cbn [loss_val]. cbn [nlog ncosh sub NF Num_fl].
  destruct (sum_inf lib (fun i => l_log lib (l_cosh lib (Bminus mode_NE (p i) (t i)))) n ltac:(lia)) as (_ & _ & Q); [intros i Hi; apply (logcosh_num lib LO), diff_num; auto|].
  f_equal. f_equal. apply (Q j Hj). destruct (val_sub (p j) (t j) (Ip j Hj) (It j Hj)) as [N E].
  rewrite (m_cosh_overflow lib LO); [apply (m_log_inf lib LO)|exact N|]. rewrite E.
  assert (FK : fmt (IZR (emax + 1))) by (apply fmt_Z; lia). rewrite plus_IZR in FK. set (c := IZR emax + 1) in *.
  assert (CB : c <= big emax). { unfold c. rewrite <- plus_IZR. unfold big. rewrite <- (IZR_Zpower radix2) by lia. apply IZR_le. change (radix_val radix2) with 2%Z. pose proof (Z.pow_gt_lin_r 2 emax ltac:(lia) ltac:(lia)). lia. }
  assert (C0 : 0 <= c) by (unfold c; assert (0 <= IZR emax) by (apply IZR_le; lia); lra). pose proof (big_pos (emax := emax)).
  revert H. unfold Rabs at 1. destruct (Rcase_abs (B2R (p j) - B2R (t j))) as [C|C]; intros H1.
  - assert (X : clamp (rnd (B2R (p j) - B2R (t j))) <= - c). { rewrite <- (clamp_id (emax := emax) (- c)) by lra. apply clamp_le. rewrite <- (rnd_id (prec := prec) (emax := emax) (- c)) by (apply fmt_opp; exact FK). apply rnd_le. lra. } rewrite Rabs_left1; lra.
  - assert (X : c <= clamp (rnd (B2R (p j) - B2R (t j)))). { rewrite <- (clamp_id (emax := emax) c) by lra. apply clamp_le. rewrite <- (rnd_id c) by exact FK. apply rnd_le. lra. } rewrite Rabs_pos_eq; lra.
Qed.

(** ** C104 *)
(** The derivative of every loss, at targets and predictions in [0, 1], is a finite number in [-1, 1] in every element. *)
Theorem C104_derivatives_bounded l (n : Z) (result y_true y_pred : ptr) (m : mem fl) t p :
  (0 <= n)%Z -> room m result n -> holds m y_true n t -> holds m y_pred n p -> disjoint result n y_true n -> operand_ok result n y_pred -> in01 n t -> in01 n p ->
  exists y m', loss_df l result n y_true y_pred m = Ok (tt, m') /\ sets result n y m m' /\
    forall i, (0 <= i < n)%Z -> fin (y i) /\ -1 <= B2R (y i) <= 1.
Proof.
  intros Hn Hr Ht Hp' D O It Ip. destruct (wp_elim _ _ _ _ (wp_loss_df l result n y_true y_pred m t p Hr Ht Hp' D O)) as ([] & m1 & E1 & M1).
  exists (loss_dval l t p), m1. split; [exact E1|]. split; [exact M1|]. intros i Hi. pose proof (It i Hi) as Ut. pose proof (Ip i Hi) as Up.
  assert (C : forall x, small 0 x -> fin x /\ -1 <= B2R x <= 1) by (intros x [F B]; split; [exact F|]; cbn [bpow] in B; now apply Rabs_le_inv in B).
  pose proof (fin_one (prec := prec) (emax := emax)) as F1. pose proof (val_one (prec := prec) (emax := emax)) as V1. pose proof (big_gt_1 (prec := prec) (emax := emax)) as B1.
  destruct l; cbn [loss_dval]; cbn [sub add mul div one opp zero ltb nlog ntanh NF Num_fl].
  1,3,6: apply C, (diff_unit P24 EM); assumption.
  - destruct (Bltb _ _); [|destruct (Bltb _ _)].
    + split; [now apply fin_opp|]. rewrite B2R_Bopp, V1. lra.
    + split; [exact F1|]. rewrite V1. lra.
    + split; [reflexivity|]. cbn. lra.
  - destruct Ut as [Ft Bt]. destruct Up as [Fp Bp]. pose proof (one_minus (prec := prec) (emax := emax) (t i) (conj Ft Bt)) as [G1 H1].
    assert (W1 : within (Bminus mode_NE (p i) Bone) (-1) 0) by (apply sub_within; auto using fmt_0, fm1; rewrite ?V1; try lra; apply fm1).
    assert (G2 : fin (Bminus mode_NE (p i) Bone)) by (apply (within_fin _ _ _ W1); lra). pose proof (within_B2R _ _ _ G2 W1) as H2.
    assert (W3 : within (Bmult mode_NE (t i) (Bminus mode_NE (p i) Bone)) (-1) 0) by (apply mul_within; auto using fmt_0, fm1; try lra; nra).
    assert (G3 : fin (Bmult mode_NE (t i) (Bminus mode_NE (p i) Bone))) by (apply (within_fin _ _ _ W3); lra). pose proof (within_B2R _ _ _ G3 W3) as H3.
    assert (W4 : within (Bmult mode_NE (p i) (Bminus mode_NE Bone (t i))) 0 1) by (apply mul_within; auto using fmt_0, fmt_1; try lra; nra).
    assert (G4 : fin (Bmult mode_NE (p i) (Bminus mode_NE Bone (t i)))) by (apply (within_fin _ _ _ W4); lra). pose proof (within_B2R _ _ _ G4 W4) as H4.
    assert (W5 : within (Bplus mode_NE (Bmult mode_NE (t i) (Bminus mode_NE (p i) Bone)) (Bmult mode_NE (p i) (Bminus mode_NE Bone (t i)))) (-1) 1) by (apply add_within; auto using fmt_1, fm1; lra).
    assert (G5 : fin (Bplus mode_NE (Bmult mode_NE (t i) (Bminus mode_NE (p i) Bone)) (Bmult mode_NE (p i) (Bminus mode_NE Bone (t i))))) by (apply (within_fin _ _ _ W5); lra). split; [exact G5|]. now apply within_B2R.
  - pose proof (log_ratio P24 EM lib LO (p i) (t i) Up Ut) as [Fl Hl]. cbn [bpow] in Hl. apply Rabs_le_inv in Hl. destruct Up as [Fp Bp]. destruct (plus_one P24 EM (p i) Fp ltac:(lra)) as [G1 H1].
    pose proof (div_ge1 _ _ Fl (fin_num _ G1) ltac:(now rewrite fin_val)) as W. pose proof (minmax_fin _ _ Fl W) as G. split; [exact G|]. pose proof (within_B2R _ _ _ G W) as Q. revert Q. unfold Rmin, Rmax. destruct (Rle_dec _ _); lra.
  - destruct (diff_unit P24 EM (p i) (t i) Up Ut) as [Fd _]. pose proof (m_tanh_range lib LO _ (fin_num _ Fd)) as W. assert (G : fin (l_tanh lib (Bminus mode_NE (p i) (t i)))) by (apply (within_fin _ _ _ W); lra). split; [exact G|]. now apply within_B2R.
Qed.
(** The derivative of MAE at any finite numbers is exactly the sign of target minus prediction (the
    opposite of the true derivative, C39, but without rounding error); that of log-cosh is in [-1, 1];
    that of MSE (and of CCE and NLL, which use the same function), when finite, is the difference with one rounding. *)
Theorem C104_derivatives_any (n : Z) (result y_true y_pred : ptr) (m : mem fl) t p (l : loss) :
  l <> BCE -> l <> MSLE -> (0 <= n)%Z -> room m result n -> holds m y_true n t -> holds m y_pred n p -> disjoint result n y_true n -> operand_ok result n y_pred -> finite n t -> finite n p ->
  exists y m', loss_df l result n y_true y_pred m = Ok (tt, m') /\ sets result n y m m' /\
    forall i, (0 <= i < n)%Z -> num (y i) /\
      match l with
      | MAE => fin (y i) /\ B2R (y i) = (if Rlt_dec (B2R (t i)) (B2R (p i)) then -1 else if Rlt_dec (B2R (p i)) (B2R (t i)) then 1 else 0)
      | LC => fin (y i) /\ -1 <= B2R (y i) <= 1
      | _ => fin (y i) -> Rabs (B2R (y i) - (B2R (p i) - B2R (t i))) <= u * Rabs (B2R (p i) - B2R (t i))
      end.
Proof.
  intros N1 N2 Hn Hr Ht Hp' D O It Ip. destruct (wp_elim _ _ _ _ (wp_loss_df l result n y_true y_pred m t p Hr Ht Hp' D O)) as ([] & m1 & E1 & M1).
  exists (loss_dval l t p), m1. split; [exact E1|]. split; [exact M1|]. intros i Hi. pose proof (It i Hi) as Ft. pose proof (Ip i Hi) as Fp.
  pose proof (fin_one (prec := prec) (emax := emax)) as F1. pose proof (val_one (prec := prec) (emax := emax)) as V1. pose proof (big_gt_1 (prec := prec) (emax := emax)) as B1.
  assert (Sub : num (Bminus mode_NE (p i) (t i)) /\ (fin (Bminus mode_NE (p i) (t i)) -> Rabs (B2R (Bminus mode_NE (p i) (t i)) - (B2R (p i) - B2R (t i))) <= u * Rabs (B2R (p i) - B2R (t i)))).
  { split; [now apply diff_num|]. intros F. destruct (sub_fin_inv _ _ F) as (_ & _ & E). rewrite E. destruct (rnd_minus_err (prec := prec) (emax := emax) (B2R (p i)) (B2R (t i)) (fmt_B2R _) (fmt_B2R _)) as (d & D1 & D2). rewrite D2.
    match goal with |- Rabs (?a * (1 + d) - ?a) <= _ => replace (a * (1 + d) - a) with (d * a) by ring end. rewrite Rabs_mult. apply Rmult_le_compat_r; [apply Rabs_pos|exact D1]. }
  destruct l; try congruence; cbn [loss_dval]; cbn [sub add mul div one opp zero ltb nlog ntanh NF Num_fl]; try exact Sub.
  - destruct (val_sub (t i) (p i) Ft Fp) as [N V]. pose proof (u_half (prec := prec) (emax := emax)) as UH. pose proof (u_pos (prec := prec)) as UP.
    destruct (rnd_minus_err (prec := prec) (emax := emax) (B2R (t i)) (B2R (p i)) (fmt_B2R _) (fmt_B2R _)) as (d & D1 & D2). rewrite D2 in V. apply Rabs_le_inv in D1.
    assert (SL : val (Bminus mode_NE (t i) (p i)) < 0 <-> B2R (t i) < B2R (p i)).
    { rewrite V. unfold FloatLemmas.clamp, Rmax, Rmin. pose proof (big_pos (emax := emax)). repeat destruct (Rle_dec _ _); split; intros; nra. }
    assert (SG : 0 < val (Bminus mode_NE (t i) (p i)) <-> B2R (p i) < B2R (t i)).
    { rewrite V. unfold FloatLemmas.clamp, Rmax, Rmin. pose proof (big_pos (emax := emax)). repeat destruct (Rle_dec _ _); split; intros; nra. }
    pose proof (val_ltb (Bminus mode_NE (t i) (p i)) (B754_zero false) N eq_refl) as L1. pose proof (val_ltb (B754_zero false) (Bminus mode_NE (t i) (p i)) eq_refl N) as L2. change (val (B754_zero false : fl)) with 0 in L1, L2.
    destruct (Bltb (Bminus mode_NE (t i) (p i)) (B754_zero false)); [|destruct (Bltb (B754_zero false) (Bminus mode_NE (t i) (p i)))].
    + assert (X : B2R (t i) < B2R (p i)) by (apply SL, L1; reflexivity). destruct (Rlt_dec (B2R (t i)) (B2R (p i))); [|lra]. split; [now apply fin_num, fin_opp|]. split; [now apply fin_opp|]. rewrite B2R_Bopp, V1. lra.
    + assert (X : B2R (p i) < B2R (t i)) by (apply SG, L2; reflexivity). destruct (Rlt_dec (B2R (t i)) (B2R (p i))); [lra|]. destruct (Rlt_dec (B2R (p i)) (B2R (t i))); [|lra]. split; [now apply fin_num|]. split; [exact F1|exact V1].
    + destruct (Rlt_dec (B2R (t i)) (B2R (p i))) as [X|X]; [apply SL, L1 in X; discriminate X|]. destruct (Rlt_dec (B2R (p i)) (B2R (t i))) as [Y|Y]; [apply SG, L2 in Y; discriminate Y|]. repeat split; reflexivity.
  - pose proof (m_tanh_range lib LO _ (diff_num (p i) (t i) Fp Ft)) as W. assert (G : fin (l_tanh lib (Bminus mode_NE (p i) (t i)))) by (apply (within_fin _ _ _ W); lra). split; [now apply fin_num|]. split; [exact G|]. now apply within_B2R.
Qed.
End Props.

(** ** The hypotheses can be met: three targets and predictions, in double and in float *)
Module Examples.
Import ListNotations.
#[local] Instance Hp53 : Prec_gt_0 53 := eq_refl.
#[local] Instance He53 : Prec_lt_emax 53 1024 := eq_refl.
#[local] Instance Hp24 : Prec_gt_0 24 := eq_refl.
#[local] Instance He24 : Prec_lt_emax 24 128 := eq_refl.
Section Any.
Context {prec emax : Z} {Hp : Prec_gt_0 prec} {He : Prec_lt_emax prec emax} (P24 : (24 <= prec)%Z) (EM : (3 * prec + 8 <= emax)%Z).
Definition pw (k : Z) : fl prec emax := fl_of (bpow radix2 k).
Lemma pw_ok k : (-60 <= k <= 60)%Z -> fin (pw k) /\ B2R (pw k) = bpow radix2 k.
Proof. intros Hk. apply fl_of_exact; [apply fmt_bpow; lia|]. rewrite Rabs_pos_eq by apply bpow_ge_0. apply bpow_lt. lia. Qed.
Definition ts (i : Z) : fl prec emax := match i with 0%Z => pw 0 | 1%Z => B754_zero false | _ => pw (-1) end.
Definition qs (i : Z) : fl prec emax := match i with 0%Z => pw 0 | 1%Z => pw (-2) | _ => B754_zero false end.
Definition m0 : mem (fl prec emax) := [Some [Some (ts 0); Some (ts 1); Some (ts 2)]; Some [Some (qs 0); Some (qs 1); Some (qs 2)]; Some [None; None; None]].
Lemma cases3 (P : Z -> Prop) : P 0%Z -> P 1%Z -> P 2%Z -> forall i, (0 <= i < 3)%Z -> P i.
Proof. intros A B C i Hi. assert (H : i = 0%Z \/ i = 1%Z \/ i = 2%Z) by lia. destruct H as [->|[->| ->]]; assumption. Qed.
Lemma m0_t : holds m0 (Ptr 0 0) 3 ts. Proof. refine (cases3 (fun i => elem m0 (Ptr 0 0) i = Some (Some (ts i))) _ _ _); reflexivity. Qed.
Lemma m0_q : holds m0 (Ptr 1 0) 3 qs. Proof. refine (cases3 (fun i => elem m0 (Ptr 1 0) i = Some (Some (qs i))) _ _ _); reflexivity. Qed.
Lemma m0_r : room m0 (Ptr 2 0) 3. Proof. refine (cases3 (fun i => elem m0 (Ptr 2 0) i <> None) _ _ _); discriminate. Qed.
Lemma unit_pw k : (-60 <= k <= 0)%Z -> fin (pw k) /\ 0 <= B2R (pw k) <= 1.
Proof. intros Hk. destruct (pw_ok k ltac:(lia)) as [F V]. split; [exact F|]. rewrite V. split; [apply bpow_ge_0|]. change 1 with (bpow radix2 0). apply bpow_le. lia. Qed.
Lemma ts_unit : in01 3 ts.
Proof. refine (cases3 (fun i => fin (ts i) /\ 0 <= B2R (ts i) <= 1) _ _ _); cbn [ts]; [apply unit_pw; lia|split; [reflexivity|cbn; lra]|apply unit_pw; lia]. Qed.
Lemma qs_unit : in01 3 qs.
Proof. refine (cases3 (fun i => fin (qs i) /\ 0 <= B2R (qs i) <= 1) _ _ _); cbn [qs]; [apply unit_pw; lia|apply unit_pw; lia|split; [reflexivity|cbn; lra]]. Qed.
Lemma apart a b : a <> b -> disjoint (Ptr a 0) 3 (Ptr b 0) 3.
Proof. intros N b' i [-> _] [H _]. congruence. Qed.
End Any.
Definition lib53 := cr_lib (prec := 53) (emax := 1024).
Definition lib24 := cr_lib (prec := 24) (emax := 128).
Lemma lib53_ok : libm_ok lib53. Proof. now apply cr_lib_ok. Qed.
Lemma lib24_ok : libm_ok lib24. Proof. now apply cr_lib_ok. Qed.
Example C101_cross_entropy : exists v, loss_f (NT := Num_fl 24 128 lib24) CCE 3 (Ptr 0 0) (Ptr 1 0) m0 = Ok (v, m0) /\ fin v.
Proof.
  destruct (C101_losses_of_probabilities (prec := 24) (emax := 128) ltac:(lia) ltac:(lia) lib24 lib24_ok CCE 3 (Ptr 0 0) (Ptr 1 0) m0 ts qs) as (v & E & F & _); try discriminate; try lia.
  - apply m0_t.
  - apply m0_q.
  - apply ts_unit; lia.
  - apply qs_unit; lia.
  - exists v. auto.
Qed.
(** |1 - 1| + |1/4 - 0| + |0 - 1/2| = 3/4 *)
Example C102_mae : exists v, loss_f (NT := Num_fl 53 1024 lib53) MAE 3 (Ptr 0 0) (Ptr 1 0) m0 = Ok (v, m0) /\ fin v /\ (1 - uro 53) ^ 4 * (3 / 4) <= B2R v <= (1 + uro 53) ^ 4 * (3 / 4).
Proof.
  destruct (C102_mae_accurate (prec := 53) (emax := 1024) lib53 3 (Ptr 0 0) (Ptr 1 0) m0 ts qs ltac:(lia) m0_t m0_q) as (v & E & A).
  destruct (C101_losses_of_probabilities (prec := 53) (emax := 1024) ltac:(lia) ltac:(lia) lib53 lib53_ok MAE 3 (Ptr 0 0) (Ptr 1 0) m0 ts qs) as (v' & E' & F & _); try discriminate; try lia; [apply m0_t|apply m0_q|apply ts_unit; lia|apply qs_unit; lia|].
  assert (X : v' = v) by congruence. subst v'. exists v. split; [exact E|]. split; [exact F|]. specialize (A F). cbv zeta in A.
  match type of A with context [rsum 3 ?f] => assert (D : rsum 3 f = 3 / 4) end.
  { match goal with |- rsum 3 ?f = _ => change (rsum (0 + 1 + 1 + 1) f = 3 / 4) end. rewrite !zsum_S, zsum_0 by lia. change (0 + 1 + 1)%Z with 2%Z. change (0 + 1)%Z with 1%Z. cbn [add zero Num_R qs ts].
    rewrite (proj2 (pw_ok (prec := 53) (emax := 1024) ltac:(lia) ltac:(lia) 0 ltac:(lia))), (proj2 (pw_ok (prec := 53) (emax := 1024) ltac:(lia) ltac:(lia) (-2) ltac:(lia))), (proj2 (pw_ok (prec := 53) (emax := 1024) ltac:(lia) ltac:(lia) (-1) ltac:(lia))).
    change (B2R (B754_zero false)) with 0. change (bpow radix2 0) with 1. change (bpow radix2 (-2)) with (/ 4). change (bpow radix2 (-1)) with (/ 2).
    rewrite (Rabs_pos_eq (1 - 1)), (Rabs_pos_eq (/ 4 - 0)), (Rabs_left (0 - / 2)) by lra. lra. }
  rewrite D in A. exact A.
Qed.
Example C103_double : exists v, loss_f (NT := Num_fl 53 1024 lib53) BCE 3 (Ptr 0 0) (Ptr 1 0) m0 = Ok (v, m0) /\ fin v.
Proof.
  destruct (C103_bce_finite_partial (prec := 53) (emax := 1024) ltac:(lia) ltac:(lia) lib53 lib53_ok 3 (Ptr 0 0) (Ptr 1 0) m0 ts qs) as (v & E & F & _); try lia; [apply m0_t|apply m0_q|apply ts_unit; lia|apply qs_unit; lia|]. exists v. auto.
Qed.
Example C103_float : loss_f (NT := Num_fl 24 128 lib24) BCE 3 (Ptr 0 0) (Ptr 1 0) m0 = Ok (B754_nan, m0).
Proof.
  destruct (pw_ok (prec := 24) (emax := 128) ltac:(lia) ltac:(lia) 0 ltac:(lia)) as [F V].
  apply (C103_bce_float_nan_refuted (prec := 24) (emax := 128) ltac:(lia) ltac:(lia) lib24 lib24_ok 3 0 (Ptr 0 0) (Ptr 1 0) m0 ts qs); try lia; [apply m0_t|apply m0_q|exact F|exact V|exact F|exact V].
Qed.
Example C104_all l : exists y m', loss_df (NT := Num_fl 24 128 lib24) l (Ptr 2 0) 3 (Ptr 0 0) (Ptr 1 0) m0 = Ok (tt, m') /\
  forall i, (0 <= i < 3)%Z -> elem m' (Ptr 2 0) i = Some (Some (y i)) /\ fin (y i) /\ -1 <= B2R (y i) <= 1.
Proof.
  destruct (C104_derivatives_bounded (prec := 24) (emax := 128) ltac:(lia) ltac:(lia) lib24 lib24_ok l 3 (Ptr 2 0) (Ptr 0 0) (Ptr 1 0) m0 ts qs) as (y & m' & E & S & B); try lia;
    [apply m0_r|apply m0_t|apply m0_q|now apply apart|right; now apply apart|apply ts_unit; lia|apply qs_unit; lia|].
  exists y, m'. split; [exact E|]. intros i Hi. split; [now apply S|now apply B].
Qed.
End Examples.
Print Assumptions C101_losses_of_probabilities.
Print Assumptions C102_distances_not_nan.
Print Assumptions C102_msle_finite.
Print Assumptions C102_perfect_prediction.
Print Assumptions C102_mae_zero_iff.
Print Assumptions C102_mae_accurate.
Print Assumptions C102_mse_accurate.
Print Assumptions C103_bce_finite_partial.
Print Assumptions C103_bce_float_nan_refuted.
Print Assumptions C103_nll_finite_partial.
Print Assumptions C103_nll_infinite_refuted.
Print Assumptions C103_logcosh_overflow_refuted.
Print Assumptions C104_derivatives_bounded.
Print Assumptions C104_derivatives_any.

(** * Losses in IEEE arithmetic *)
From Coq Require Import ZArith QArith Reals Lra Lia Psatz Bool.
From Flocq Require Import Core BinarySingleNaN.
From Verif Require Import Mem Scalar LinearProofs Functions FunctionSpec FunctionProofs Float FloatSpec FloatLemmas RSum FloatError FloatLib FloatAct FloatAcc PropFloatSoftmax.
Local Open Scope R_scope.

Section Loss.
Context {prec emax : Z} {Hp : Prec_gt_0 prec} {He : Prec_lt_emax prec emax} (P24 : (24 <= prec)%Z) (EM : (3 * prec + 8 <= emax)%Z).
Context (lib : libm prec emax) (LO : libm_ok lib).
Notation fl := (fl prec emax).
Notation rnd := (rnd (prec := prec) (emax := emax)).
Notation fmt := (fmt (prec := prec) (emax := emax)).
Notation clamp := (clamp (emax := emax)).
Notation u := (uro prec).
Notation eta := (eta prec emax).
#[local] Instance NF : Num fl := Num_fl prec emax lib.
#[local] Existing Instance fexp_ok.
#[local] Existing Instance fexp_mono.
Implicit Types x y : fl.
Notation eps := (@epsilon fl NF).
Notation hlf := (@half fl NF).
Lemma E64 : (64 <= emax)%Z. Proof. lia. Qed.
Lemma fmtz e : (-60 <= e)%Z -> fmt (bpow radix2 e). Proof. intros. apply fmt_bpow. lia. Qed.
Lemma below e : (e <= 3 * prec + 6)%Z -> bpow radix2 e < big emax. Proof. intros. apply bpow_lt. lia. Qed.
Lemma le_fin x c : num x -> Rabs (val x) <= c -> c < big emax -> fin x. Proof. intros N H L. apply fin_iff. split; [exact N|lra]. Qed.

(** ** accumulated sums of bounded terms stay bounded, whatever the number of terms *)
Lemma saturate_k k r : (0 <= k <= 2 * prec)%Z -> Rabs r <= bpow radix2 (prec + 1 + k) + bpow radix2 k -> Rabs (rnd r) <= bpow radix2 (prec + 1 + k).
Proof.
  intros Hk Hr. assert (Fb : fmt (bpow radix2 (prec + 1 + k))) by (apply fmtz; lia).
  assert (Q : rnd (bpow radix2 (prec + 1 + k) + bpow radix2 k) <= bpow radix2 (prec + 1 + k)).
  { apply round_N_le_midp; [typeclasses eauto|exact Fb|]. rewrite succ_eq_pos by apply bpow_ge_0. rewrite ulp_bpow. rewrite fexp_flt. unfold FLT_exp. rewrite Z.max_l by lia.
    replace (prec + 1 + k + 1 - prec)%Z with (2 + k)%Z by lia. rewrite (bpow_plus radix2 2 k). change (bpow radix2 2) with 4. pose proof (bpow_gt_0 radix2 k). lra. }
  apply Rabs_le_inv in Hr. apply Rabs_le. split.
  - replace (rnd r) with (- rnd (- r)) by (rewrite rnd_opp; lra). apply Ropp_le_contravar. apply Rle_trans with (2 := Q). apply rnd_le. lra.
  - apply Rle_trans with (2 := Q). apply rnd_le. lra.
Qed.
Definition small k x : Prop := fin x /\ Rabs (B2R x) <= bpow radix2 k.
Lemma acc_add k s y : (0 <= k <= 2 * prec)%Z -> small (prec + 1 + k) s -> small k y -> small (prec + 1 + k) (Bplus mode_NE s y).
Proof.
  intros Hk [Fs Hs] [Fy Hy]. destruct (val_add s y Fs Fy) as [N E].
  assert (Q : Rabs (rnd (B2R s + B2R y)) <= bpow radix2 (prec + 1 + k)) by (apply saturate_k; [exact Hk|]; eapply Rle_trans; [apply Rabs_triang|]; lra).
  pose proof (below (prec + 1 + k) ltac:(lia)). pose proof (Rabs_le_inv _ _ Q). rewrite clamp_id in E by lra.
  assert (F : fin (Bplus mode_NE s y)) by (apply (le_fin _ (bpow radix2 (prec + 1 + k))); [exact N|now rewrite E|assumption]). split; [exact F|]. rewrite fin_val in E by exact F. now rewrite E.
Qed.
Lemma acc_sub k s y : (0 <= k <= 2 * prec)%Z -> small (prec + 1 + k) s -> small k y -> small (prec + 1 + k) (Bminus mode_NE s y).
Proof.
  intros Hk [Fs Hs] [Fy Hy]. destruct (val_sub s y Fs Fy) as [N E].
  assert (Q : Rabs (rnd (B2R s - B2R y)) <= bpow radix2 (prec + 1 + k)) by (apply saturate_k; [exact Hk|]; unfold Rminus; eapply Rle_trans; [apply Rabs_triang|]; rewrite Rabs_Ropp; lra).
  pose proof (below (prec + 1 + k) ltac:(lia)). pose proof (Rabs_le_inv _ _ Q). rewrite clamp_id in E by lra.
  assert (F : fin (Bminus mode_NE s y)) by (apply (le_fin _ (bpow radix2 (prec + 1 + k))); [exact N|now rewrite E|assumption]). split; [exact F|]. rewrite fin_val in E by exact F. now rewrite E.
Qed.
Lemma small_0 k : small k (B754_zero false). Proof. split; [reflexivity|]. cbn. rewrite Rabs_R0. apply bpow_ge_0. Qed.
Lemma sum_small k n (f : Z -> fl) : (0 <= k <= 2 * prec)%Z -> (0 <= n)%Z -> (forall i, (0 <= i < n)%Z -> small k (f i)) -> small (prec + 1 + k) (zsum n f).
Proof.
  intros Hk Hn. pattern n. match goal with |- ?Q n => refine (natlike_ind Q _ _ n Hn); clear n Hn end.
  - intros _. rewrite zsum_0. apply small_0.
  - intros n Hn IH H. unfold Z.succ in *. rewrite zsum_S by exact Hn. cbn [add NF Num_fl]. apply acc_add; [exact Hk|apply IH; intros; apply H; lia|apply H; lia].
Qed.
Lemma fold_sub_small k n (f : Z -> fl) : (0 <= k <= 2 * prec)%Z -> (0 <= n)%Z -> (forall i, (0 <= i < n)%Z -> small k (f i)) -> small (prec + 1 + k) (zfold n (fun i acc => sub acc (f i)) zero).
Proof.
  intros Hk Hn. pattern n. match goal with |- ?Q n => refine (natlike_ind Q _ _ n Hn); clear n Hn end.
  - intros _. apply small_0.
  - intros n Hn IH H. unfold Z.succ in *. rewrite zfold_S by exact Hn. cbn [sub NF Num_fl]. apply acc_sub; [exact Hk|apply IH; intros; apply H; lia|apply H; lia].
Qed.

(** ** single terms *)
Definition unit x : Prop := fin x /\ 0 <= B2R x <= 1.
Lemma small_within k x : (-60 <= k <= 3 * prec + 6)%Z -> within x (- bpow radix2 k) (bpow radix2 k) -> small k x.
Proof. intros Hk W. pose proof (below k ltac:(lia)). assert (F : fin x) by (apply (within_fin _ _ _ W); lra). split; [exact F|]. apply Rabs_le. now apply within_B2R. Qed.
Lemma within_small k x : small k x -> within x (- bpow radix2 k) (bpow radix2 k).
Proof. intros [F H]. split; [now apply fin_num|]. rewrite fin_val by exact F. now apply Rabs_le_inv. Qed.
Lemma mul_small j k x y : (0 <= j)%Z -> (0 <= k)%Z -> (j + k <= 3 * prec + 6)%Z -> small j x -> small k y -> small (j + k) (Bmult mode_NE x y).
Proof.
  intros Hj Hk HS [Fx Hx] [Fy Hy]. apply small_within; [lia|]. pose proof (below (j + k) ltac:(lia)) as B. pose proof (fmtz (j + k) ltac:(lia)) as F. apply mul_within; auto using fmt_opp; try lra.
  apply Rabs_le_inv. rewrite Rabs_mult, bpow_plus. apply Rmult_le_compat; auto using Rabs_pos.
Qed.
Lemma unit_small x : unit x -> small 0 x. Proof. intros [F H]. split; [exact F|]. apply Rabs_le. cbn. lra. Qed.
Lemma small_mono j k x : (j <= k)%Z -> small j x -> small k x. Proof. intros L [F H]. split; [exact F|]. apply Rle_trans with (1 := H). now apply bpow_le. Qed.
Lemma add_small k x y : (0 <= k)%Z -> (k <= 3 * prec + 5)%Z -> small k x -> small k y -> small (k + 1) (Bplus mode_NE x y).
Proof.
  intros Hk HK [Fx Hx] [Fy Hy]. apply small_within; [lia|]. pose proof (below (k + 1) ltac:(lia)) as B. pose proof (fmtz (k + 1) ltac:(lia)) as F. rewrite bpow_plus in *. change (bpow radix2 1) with 2 in *. apply add_within; auto using fmt_opp; try lra.
  apply Rabs_le_inv in Hx, Hy. lra.
Qed.
Lemma diff_unit x y : unit x -> unit y -> small 0 (Bminus mode_NE x y).
Proof.
  intros [Fx Hx] [Fy Hy]. apply small_within; [lia|]. cbn [bpow]. pose proof (below 0 ltac:(lia)) as B. cbn [bpow] in B. apply sub_within; auto using fmt_opp, fmt_1; lra.
Qed.
Lemma square_small x : small 0 x -> unit (Bmult mode_NE x x).
Proof.
  intros [F H]. cbn [bpow] in H. apply Rabs_le_inv in H. pose proof (big_gt_1 (prec := prec) (emax := emax)) as B1.
  assert (W : within (Bmult mode_NE x x) 0 1) by (apply mul_within; auto using fmt_0, fmt_1; try lra; nra).
  pose proof (FloatAct.unit_fin _ W) as G. split; [exact G|]. now apply within_B2R.
Qed.
Lemma abs_small x : small 0 x -> unit (Babs x).
Proof.
  intros [F H]. cbn [bpow] in H. split; [now apply fin_abs|]. destruct (val_abs x (fin_num x F)) as [_ E]. rewrite !fin_val in E by auto using fin_abs. rewrite E. split; [apply Rabs_pos|exact H].
Qed.
Lemma two_e30 : (30 <= 2 ^ prec)%Z.
Proof. assert (2 ^ 24 <= 2 ^ prec)%Z by (apply Z.pow_le_mono_r; lia). lia. Qed.
(** log(p + eps) *)
Lemma eps_ok : fin eps /\ bpow radix2 (-30) <= B2R eps <= bpow radix2 (-29).
Proof. exact (lit_eps P24 E64). Qed.
Lemma log_eps x : unit x -> small 5 (l_log lib (Bplus mode_NE x eps)).
Proof.
  intros [F H]. destruct eps_ok as [Fe He']. pose proof (below 1 ltac:(lia)) as B. pose proof (bpow_gt_0 radix2 (-30)) as B0. assert (B2 : bpow radix2 (-29) <= bpow radix2 0) by (apply bpow_le; lia). change (bpow radix2 0) with 1 in B2.
  assert (W : within (Bplus mode_NE x eps) (bpow radix2 (-30)) (bpow radix2 1)).
  { change (bpow radix2 1) with 2 in *. apply add_within; auto; try lra; [apply fmtz; lia|change 2 with (bpow radix2 1); apply fmtz; lia]. }
  pose proof (big_pos (emax := emax)) as BP. assert (Fs : fin (Bplus mode_NE x eps)) by (apply (within_fin _ _ _ W); lra). pose proof (within_B2R _ _ _ Fs W) as Q.
  split; [apply (m_log_fin lib LO); [exact Fs|lra]|]. apply Rle_trans with (IZR 30); [|cbn; lra]. apply (m_log_bound lib LO); [exact Fs|pose proof two_e30; lia|].
  split; [apply Q|]. apply Rle_trans with (1 := proj2 Q). apply bpow_le. lia.
Qed.
Lemma one_minus x : unit x -> unit (Bminus mode_NE Bone x).
Proof.
  intros [F H]. pose proof (fin_one (prec := prec) (emax := emax)) as F1. pose proof (val_one (prec := prec) (emax := emax)) as V1. pose proof (big_gt_1 (prec := prec) (emax := emax)) as B1.
  assert (W : within (Bminus mode_NE Bone x) 0 1) by (apply sub_within; auto using fmt_0, fmt_1; lra). pose proof (FloatAct.unit_fin _ W) as G. split; [exact G|]. now apply within_B2R.
Qed.
(** log1p(eps - p), precise enough to see 1 - 1e-9 *)
Lemma log1p_eps x : (30 <= prec)%Z -> unit x -> small 5 (l_log1p lib (Bminus mode_NE eps x)).
Proof.
  intros P30 [F H]. destruct eps_ok as [Fe He']. pose proof (big_gt_1 (prec := prec) (emax := emax)) as B1. pose proof (bpow_gt_0 radix2 (-30)) as B0. assert (B2 : bpow radix2 (-29) <= bpow radix2 0) by (apply bpow_le; lia). change (bpow radix2 0) with 1 in B2.
  assert (Fm : fmt (bpow radix2 (-30) - 1)).
  { replace (bpow radix2 (-30) - 1) with (IZR (1 - 2 ^ 30) * bpow radix2 (-30)); [apply fmt_scaled; [assert (2 ^ 30 <= 2 ^ prec)%Z by (apply Z.pow_le_mono_r; lia); lia|lia]|].
    rewrite minus_IZR. change (2 ^ 30)%Z with (radix_val radix2 ^ 30)%Z. rewrite IZR_Zpower by lia. rewrite Rmult_minus_distr_r, <- bpow_plus. change (30 + -30)%Z with 0%Z. change (bpow radix2 0) with 1. lra. }
  assert (W : within (Bminus mode_NE eps x) (bpow radix2 (-30) - 1) 1).
  { apply sub_within; auto using fmt_1; lra. }
  assert (Fs : fin (Bminus mode_NE eps x)) by (apply (within_fin _ _ _ W); lra). pose proof (within_B2R _ _ _ Fs W) as Q.
  split; [apply (m_log1p_fin lib LO); [exact Fs|lra]|]. apply Rle_trans with (IZR 30); [|cbn; lra]. apply (m_log1p_bound lib LO); [exact Fs|pose proof two_e30; lia|].
  split; [change (- (30))%Z with (-30)%Z; lra|]. apply Rle_trans with (bpow radix2 1); [change (bpow radix2 1) with 2; lra|]. apply bpow_le. lia.
Qed.
(** log((p + 1) / (t + 1)) *)
Lemma log_ratio x y : unit x -> unit y -> small 0 (l_log lib (Bdiv mode_NE (Bplus mode_NE x Bone) (Bplus mode_NE y Bone))).
Proof.
  pose proof (fin_one (prec := prec) (emax := emax)) as F1. pose proof (val_one (prec := prec) (emax := emax)) as V1. pose proof (below 1 ltac:(lia)) as B. change (bpow radix2 1) with 2 in B.
  assert (F2 : fmt 2) by (change 2 with (bpow radix2 1); apply fmtz; lia). assert (Fh : fmt (/ 2)) by (change (/ 2) with (bpow radix2 (-1)); apply fmtz; lia).
  assert (S1 : forall z, unit z -> fin (Bplus mode_NE z Bone) /\ 1 <= B2R (Bplus mode_NE z Bone) <= 2).
  { intros z [F H]. assert (W : within (Bplus mode_NE z Bone) 1 2) by (apply add_within; auto using fmt_1; lra). assert (G : fin (Bplus mode_NE z Bone)) by (apply (within_fin _ _ _ W); lra). split; [exact G|]. now apply within_B2R. }
  intros Ux Uy. destruct (S1 x Ux) as [Gx Hx]. destruct (S1 y Uy) as [Gy Hy]. set (a := Bplus mode_NE x Bone) in *. set (b := Bplus mode_NE y Bone) in *.
  assert (W : within (Bdiv mode_NE a b) (/ 2) 2).
  { apply div_within; auto; try lra. assert (I : / 2 <= / B2R b <= 1) by (split; [apply Rinv_le_contravar; lra|]; rewrite <- Rinv_1; apply Rinv_le_contravar; lra). unfold Rdiv. nra. }
  assert (Fd : fin (Bdiv mode_NE a b)) by (apply (within_fin _ _ _ W); lra). pose proof (within_B2R _ _ _ Fd W) as Q. split; [apply (m_log_fin lib LO); [exact Fd|lra]|].
  change (bpow radix2 0) with (IZR 1). apply (m_log_bound lib LO); [exact Fd|pose proof two_e30; lia|]. change (bpow radix2 (- (1))) with (/ 2). change (bpow radix2 1) with 2. exact Q.
Qed.
(** log(cosh d) *)
Lemma log_cosh x : small 0 x -> fin (l_log lib (l_cosh lib x)) /\ 0 <= B2R (l_log lib (l_cosh lib x)) <= 2.
Proof.
  intros [F H]. destruct (m_cosh_ge_1 lib LO x (fin_num x F)) as [N C1]. pose proof (m_cosh_growth lib LO x 1 F ltac:(lia) H) as C2. change (2 * 1)%Z with 2%Z in C2. pose proof (below 2 ltac:(lia)) as B.
  assert (Fc : fin (l_cosh lib x)) by (apply (within_fin _ 1 (bpow radix2 2)); [split; [exact N|lra]|pose proof (big_pos (emax := emax)); lra|exact B]). rewrite fin_val in C1, C2 by exact Fc.
  split; [apply (m_log_fin lib LO); [exact Fc|lra]|]. split; [now apply (m_log_ge_1 lib LO)|].
  assert (Q : Rabs (B2R (l_log lib (l_cosh lib x))) <= IZR 2). { apply (m_log_bound lib LO); [exact Fc|pose proof two_e30; lia|]. split; [|exact C2]. apply Rle_trans with (2 := C1). change 1 with (bpow radix2 0). apply bpow_le. lia. }
  apply Rabs_le_inv in Q. cbn in Q. lra.
Qed.
Lemma nonneg_sum n (f : Z -> fl) : (0 <= n)%Z -> fin (zsum n f) -> (forall i, (0 <= i < n)%Z -> fin (f i) /\ 0 <= B2R (f i)) -> 0 <= B2R (zsum n f).
Proof. intros Hn F H. apply (sum_ge lib f n Hn F). intros i Hi. destruct (H i Hi) as [G Q]. now rewrite fin_val. Qed.
Lemma half_small k x : (0 <= k <= 3 * prec + 6)%Z -> small k x -> small k (Bmult mode_NE x hlf) /\ (0 <= B2R x -> 0 <= B2R (Bmult mode_NE x hlf)).
Proof.
  intros Hk S. destruct (lit_half P24 E64) as [Fh Vh]. assert (Sh : small 0 hlf). { split; [exact Fh|]. unfold half. cbn [lit NF Num_fl]. rewrite Vh. rewrite Rabs_pos_eq by lra. cbn. lra. }
  pose proof (mul_small k 0 x hlf ltac:(lia) ltac:(lia) ltac:(lia) S Sh) as Q. rewrite Z.add_0_r in Q. split; [exact Q|]. intros H. destruct (mul_fin_inv _ _ (proj1 Q)) as (_ & _ & E). rewrite E. rewrite <- (rnd_0 (prec := prec) (emax := emax)). apply rnd_le.
  unfold half. cbn [lit NF Num_fl]. rewrite Vh. lra.
Qed.

(** ** values of the losses of numbers in [0, 1] *)
Lemma unit_losses l n (t p : Z -> fl) : (0 <= n)%Z -> l <> BCE -> l <> NLL -> (forall i, (0 <= i < n)%Z -> unit (t i) /\ unit (p i)) ->
  small (prec + 6) (loss_val l n t p) /\ (l <> CCE -> 0 <= B2R (loss_val l n t p)).
Proof.
  intros Hn N1 N2 H. destruct l; try congruence; cbn [loss_val]; cbn [mul add sub nabs nlog ncosh div one opp nlog1p NF Num_fl].
  - assert (U : forall i, (0 <= i < n)%Z -> unit (Bmult mode_NE (Bminus mode_NE (t i) (p i)) (Bminus mode_NE (t i) (p i)))) by (intros i Hi; apply square_small, diff_unit; now apply H).
    pose proof (sum_small 0 n _ ltac:(lia) Hn (fun i Hi => unit_small _ (U i Hi))) as S. destruct (half_small (prec + 1 + 0) _ ltac:(lia) S) as [A B]. split; [apply small_mono with (2 := A); lia|]. intros _. apply B, nonneg_sum; [exact Hn|apply S|]. intros i Hi. destruct (U i Hi). tauto.
  - assert (U : forall i, (0 <= i < n)%Z -> unit (Babs (Bminus mode_NE (p i) (t i)))) by (intros i Hi; apply abs_small, diff_unit; now apply H).
    pose proof (sum_small 0 n _ ltac:(lia) Hn (fun i Hi => unit_small _ (U i Hi))) as S. split; [apply small_mono with (2 := S); lia|]. intros _. apply nonneg_sum; [exact Hn|apply S|]. intros i Hi. destruct (U i Hi). tauto.
  - split; [|congruence]. replace (prec + 6)%Z with (prec + 1 + 5)%Z by lia. refine (fold_sub_small 5 n (fun i => Bmult mode_NE (t i) (l_log lib (Bplus mode_NE (p i) eps))) _ Hn _); [lia|]. intros i Hi. destruct (H i Hi) as [Ut Up].
    apply (mul_small 0 5); [lia|lia|lia|now apply unit_small|now apply log_eps].
  - assert (U : forall i, (0 <= i < n)%Z -> unit (Bmult mode_NE (l_log lib (Bdiv mode_NE (Bplus mode_NE (p i) Bone) (Bplus mode_NE (t i) Bone))) (l_log lib (Bdiv mode_NE (Bplus mode_NE (p i) Bone) (Bplus mode_NE (t i) Bone))))) by (intros i Hi; apply square_small, log_ratio; now apply H).
    pose proof (sum_small 0 n _ ltac:(lia) Hn (fun i Hi => unit_small _ (U i Hi))) as S. destruct (half_small (prec + 1 + 0) _ ltac:(lia) S) as [A B]. split; [apply small_mono with (2 := A); lia|]. intros _. apply B, nonneg_sum; [exact Hn|apply S|]. intros i Hi. destruct (U i Hi). tauto.
  - assert (U : forall i, (0 <= i < n)%Z -> fin (l_log lib (l_cosh lib (Bminus mode_NE (p i) (t i)))) /\ 0 <= B2R (l_log lib (l_cosh lib (Bminus mode_NE (p i) (t i)))) <= 2) by (intros i Hi; apply log_cosh, diff_unit; now apply H).
    assert (S : small (prec + 1 + 1) (zsum n (fun i => l_log lib (l_cosh lib (Bminus mode_NE (p i) (t i)))))).
    { apply sum_small; [lia|exact Hn|]. intros i Hi. destruct (U i Hi) as [F Q]. split; [exact F|]. rewrite Rabs_pos_eq by lra. change (bpow radix2 1) with 2. lra. }
    split; [apply small_mono with (2 := S); lia|]. intros _. apply nonneg_sum; [exact Hn|apply S|]. intros i Hi. destruct (U i Hi). tauto.
Qed.
Lemma unit_bce n (t p : Z -> fl) : (30 <= prec)%Z -> (0 <= n)%Z -> (forall i, (0 <= i < n)%Z -> unit (t i) /\ unit (p i)) -> small (prec + 7) (loss_val BCE n t p).
Proof.
  intros P30 Hn H. cbn [loss_val]. replace (prec + 7)%Z with (prec + 1 + 6)%Z by lia.
  refine (fold_sub_small 6 n (fun i => Bplus mode_NE (Bmult mode_NE (t i) (l_log lib (Bplus mode_NE (p i) eps))) (Bmult mode_NE (Bminus mode_NE Bone (t i)) (l_log1p lib (Bminus mode_NE eps (p i))))) _ Hn _); [lia|]. intros i Hi. destruct (H i Hi) as [Ut Up].
  apply (add_small 5); [lia|lia| |]; [apply (mul_small 0 5); [lia|lia|lia|now apply unit_small|now apply log_eps]|apply (mul_small 0 5); [lia|lia|lia|now apply unit_small, one_minus|now apply log1p_eps]].
Qed.
(** ** any finite numbers *)
Lemma diff_num x y : fin x -> fin y -> num (Bminus mode_NE x y). Proof. intros. now apply val_sub. Qed.
Lemma clamp_0 : clamp (rnd 0) = 0. Proof. rewrite rnd_0. apply clamp_id. pose proof (big_pos (emax := emax)). lra. Qed.
Lemma square_num x : num x -> num (Bmult mode_NE x x) /\ 0 <= val (Bmult mode_NE x x).
Proof.
  intros N. pose proof (big_pos (emax := emax)). destruct (FloatLib.split_num x N) as [F|[->| ->]]; try (split; [reflexivity|cbn; lra]).
  destruct (val_mul x x F F) as [M E]. split; [exact M|]. rewrite E, <- clamp_0. apply clamp_le, rnd_le. nra.
Qed.
Lemma abs_num x : num x -> num (Babs x) /\ 0 <= val (Babs x).
Proof. intros N. destruct (val_abs x N) as [M E]. split; [exact M|]. rewrite E. apply Rabs_pos. Qed.
Lemma logcosh_num x : num x -> num (l_log lib (l_cosh lib x)) /\ 0 <= val (l_log lib (l_cosh lib x)).
Proof.
  intros N. pose proof (big_pos (emax := emax)). destruct (m_cosh_ge_1 lib LO x N) as [M C]. destruct (FloatLib.split_num _ M) as [F|[E|E]].
  - rewrite fin_val in C by exact F. assert (G : fin (l_log lib (l_cosh lib x))) by (apply (m_log_fin lib LO); [exact F|lra]). split; [now apply fin_num|]. rewrite fin_val by exact G. now apply (m_log_ge_1 lib LO).
  - rewrite E in C. cbn [val] in C. lra.
  - rewrite E, (m_log_inf lib LO). cbn [val]. split; [reflexivity|lra].
Qed.
Lemma half_num x : num x -> 0 <= val x -> num (Bmult mode_NE x hlf) /\ 0 <= val (Bmult mode_NE x hlf).
Proof.
  intros N H. destruct (lit_half P24 E64) as [Fh Vh]. pose proof (big_pos (emax := emax)). destruct (FloatLib.split_num x N) as [F|[->| ->]].
  - destruct (val_mul x hlf F Fh) as [M E]. split; [exact M|]. rewrite E, <- clamp_0. apply clamp_le, rnd_le. rewrite fin_val in H by exact F. unfold half. cbn [lit NF Num_fl]. rewrite Vh. lra.
  - cbn [val] in H. lra.
  - unfold half. cbn [lit NF Num_fl]. destruct (fl_lit prec emax (1 # 2)) as [s|s| |s m e B]; try discriminate Fh; [cbn in Vh; lra|]. destruct s; [|cbn; split; [reflexivity|lra]].
    exfalso. cbn [B2R] in Vh. assert (F2R (Float radix2 (cond_Zopp true (Z.pos m)) e) < 0) by now apply F2R_lt_0. lra.
Qed.
Lemma sum_num n (f : Z -> fl) : (0 <= n)%Z -> (forall i, (0 <= i < n)%Z -> num (f i) /\ 0 <= val (f i)) -> num (zsum n f) /\ 0 <= val (zsum n f).
Proof. intros Hn H. destruct (sum_inf lib f n Hn H) as (A & B & _). auto. Qed.
Lemma distance_num l n (t p : Z -> fl) : (0 <= n)%Z -> l = MSE \/ l = MAE \/ l = LC -> (forall i, (0 <= i < n)%Z -> fin (t i) /\ fin (p i)) ->
  num (loss_val l n t p) /\ 0 <= val (loss_val l n t p).
Proof.
  intros Hn [->|[->| ->]] H; cbn [loss_val]; cbn [mul add sub nabs nlog ncosh NF Num_fl].
  - assert (Q := sum_num n (fun i => Bmult mode_NE (Bminus mode_NE (t i) (p i)) (Bminus mode_NE (t i) (p i))) Hn (fun i Hi => square_num _ (diff_num _ _ (proj1 (H i Hi)) (proj2 (H i Hi))))). apply half_num; apply Q.
  - apply sum_num; [exact Hn|]. intros i Hi. apply abs_num, diff_num; now apply H.
  - apply sum_num; [exact Hn|]. intros i Hi. apply logcosh_num, diff_num; now apply H.
Qed.
(** x + 1 never overflows *)
Lemma plus_one x : fin x -> 0 <= B2R x -> fin (Bplus mode_NE x Bone) /\ 1 <= B2R (Bplus mode_NE x Bone).
Proof.
  intros F H. pose proof (fin_one (prec := prec) (emax := emax)) as F1. pose proof (val_one (prec := prec) (emax := emax)) as V1. pose proof (big_lt x F) as B.
  destruct (val_add x Bone F F1) as [N E]. rewrite V1 in E.
  assert (L : 1 <= rnd (B2R x + 1)) by (rewrite <- (rnd_id 1 (fmt_1 (prec := prec) (emax := emax))) at 1; apply rnd_le; lra).
  assert (U : rnd (B2R x + 1) < big emax).
  { destruct (Rle_dec (bpow radix2 (prec + 1)) (B2R x)) as [C|C].
    - apply Rle_lt_trans with (B2R x); [|lra]. apply round_N_le_midp; [typeclasses eauto|apply fmt_B2R|]. rewrite succ_eq_pos by exact H.
      assert (Q : ulp radix2 (SpecFloat.fexp prec emax) (bpow radix2 (prec + 1)) <= ulp radix2 (SpecFloat.fexp prec emax) (B2R x)) by (apply ulp_le_pos; [typeclasses eauto|typeclasses eauto|apply bpow_ge_0|exact C]).
      rewrite ulp_bpow in Q. rewrite fexp_flt in Q. unfold FLT_exp in Q at 1. rewrite Z.max_l in Q by lia. replace (prec + 1 + 1 - prec)%Z with 2%Z in Q by lia. change (bpow radix2 2) with 4 in Q. rewrite <- fexp_flt in Q. lra.
    - apply Rle_lt_trans with (bpow radix2 (prec + 2)); [|apply below; lia]. rewrite <- (rnd_id (bpow radix2 (prec + 2)) (fmtz (prec + 2) ltac:(lia))). apply rnd_le.
      assert (1 <= bpow radix2 (prec + 1)) by (change 1 with (bpow radix2 0); apply bpow_le; lia). replace (prec + 2)%Z with (1 + (prec + 1))%Z by lia. rewrite bpow_plus. change (bpow radix2 1) with 2. lra. }
  rewrite clamp_id in E by lra. assert (G : fin (Bplus mode_NE x Bone)) by (apply fin_iff; split; [exact N|]; rewrite E, Rabs_pos_eq; lra). split; [exact G|]. rewrite fin_val in E by exact G. now rewrite E.
Qed.
Lemma ratio_ok x y : fin x -> 0 <= B2R x -> fin y -> 0 <= B2R y -> let r := Bdiv mode_NE (Bplus mode_NE x Bone) (Bplus mode_NE y Bone) in
  fin r /\ bpow radix2 (- emax) <= B2R r <= bpow radix2 emax.
Proof.
  intros Fx Hx Fy Hy r. destruct (plus_one x Fx Hx) as [Ga Ha]. destruct (plus_one y Fy Hy) as [Gb Hb]. subst r. set (a := Bplus mode_NE x Bone) in *. set (b := Bplus mode_NE y Bone) in *.
  pose proof (big_lt a Ga) as La. pose proof (big_lt b Gb) as Lb. pose proof (bpow_gt_0 radix2 (- emax)) as B0. pose proof (big_pos (emax := emax)) as BP.
  assert (W : within (Bdiv mode_NE a b) (bpow radix2 (- emax)) (B2R a)).
  { apply div_within; auto using fmt_B2R; try lra; [apply fmt_bpow; lia|]. unfold Rdiv. assert (I : bpow radix2 (- emax) <= / B2R b <= 1).
    { rewrite bpow_opp. split; [apply Rinv_le_contravar; [lra|]; unfold big in Lb; lra|]. rewrite <- Rinv_1. apply Rinv_le_contravar; lra. } nra. }
  assert (Fd : fin (Bdiv mode_NE a b)) by (apply (within_fin _ _ _ W); lra). split; [exact Fd|]. pose proof (within_B2R _ _ _ Fd W). unfold big in La. lra.
Qed.
Lemma msle_small n (t p : Z -> fl) : (emax <= 2 ^ prec)%Z -> (0 <= n)%Z -> (forall i, (0 <= i < n)%Z -> (fin (t i) /\ 0 <= B2R (t i)) /\ (fin (p i) /\ 0 <= B2R (p i))) ->
  small (3 * prec + 1) (loss_val MSLE n t p) /\ 0 <= B2R (loss_val MSLE n t p).
Proof.
  intros EP Hn H. cbn [loss_val]. cbn [mul add nlog div one NF Num_fl].
  assert (L : forall i, (0 <= i < n)%Z -> small prec (l_log lib (Bdiv mode_NE (Bplus mode_NE (p i) Bone) (Bplus mode_NE (t i) Bone)))).
  { intros i Hi. destruct (H i Hi) as [[Ft Ht] [Fp Hp']]. destruct (ratio_ok _ _ Fp Hp' Ft Ht) as [Fr Hr]. pose proof (bpow_gt_0 radix2 (- emax)). split; [apply (m_log_fin lib LO); [exact Fr|lra]|].
    apply Rle_trans with (IZR emax); [apply (m_log_bound lib LO); [exact Fr|lia|exact Hr]|]. rewrite <- (IZR_Zpower radix2) by lia. now apply IZR_le. }
  assert (S : forall i, (0 <= i < n)%Z -> small (2 * prec) (Bmult mode_NE (l_log lib (Bdiv mode_NE (Bplus mode_NE (p i) Bone) (Bplus mode_NE (t i) Bone))) (l_log lib (Bdiv mode_NE (Bplus mode_NE (p i) Bone) (Bplus mode_NE (t i) Bone))))).
  { intros i Hi. replace (2 * prec)%Z with (prec + prec)%Z by lia. apply mul_small; auto; lia. }
  pose proof (sum_small (2 * prec) n _ ltac:(lia) Hn S) as Q. destruct (half_small (prec + 1 + 2 * prec) _ ltac:(lia) Q) as [A B]. replace (prec + 1 + 2 * prec)%Z with (3 * prec + 1)%Z in A by lia. split; [exact A|].
  apply B, nonneg_sum; [exact Hn|apply Q|]. intros i Hi. split; [apply S, Hi|]. destruct (square_num _ (fin_num _ (proj1 (L i Hi)))) as [_ R]. rewrite fin_val in R by apply S, Hi. exact R.
Qed.

(** ** perfect predictions *)
Definition is0 x : Prop := fin x /\ B2R x = 0.
Lemma sum_is0 n (f : Z -> fl) : (0 <= n)%Z -> (forall i, (0 <= i < n)%Z -> is0 (f i)) -> is0 (zsum n f).
Proof.
  intros Hn. pattern n. match goal with |- ?Q n => refine (natlike_ind Q _ _ n Hn); clear n Hn end.
  - intros _. rewrite zsum_0. split; reflexivity.
  - intros n Hn IH H. unfold Z.succ in *. rewrite zsum_S by exact Hn. cbn [add NF Num_fl]. destruct IH as [F0 V0]; [intros; apply H; lia|]. destruct (H n ltac:(lia)) as [F1 V1].
    destruct (val_add _ _ F0 F1) as [N E]. rewrite V0, V1, Rplus_0_r, clamp_0 in E. pose proof (big_pos (emax := emax)). assert (G : fin (Bplus mode_NE (zsum n f) (f n))) by (apply fin_iff; split; [exact N|]; rewrite E, Rabs_R0; lra). split; [exact G|]. now rewrite fin_val in E.
Qed.
Lemma sub_is0 x y : fin x -> fin y -> B2R x = B2R y -> is0 (Bminus mode_NE x y).
Proof.
  intros Fx Fy E. destruct (val_sub x y Fx Fy) as [N V]. rewrite E, Rminus_eq_0, clamp_0 in V. pose proof (big_pos (emax := emax)). assert (G : fin (Bminus mode_NE x y)) by (apply fin_iff; split; [exact N|]; rewrite V, Rabs_R0; lra). split; [exact G|]. now rewrite fin_val in V.
Qed.
Lemma mul_is0 x y : is0 x -> fin y -> is0 (Bmult mode_NE x y) /\ is0 (Bmult mode_NE y x).
Proof.
  assert (M : forall a b, fin a -> fin b -> B2R a * B2R b = 0 -> is0 (Bmult mode_NE a b)).
  { intros a b Fa Fb E. destruct (val_mul a b Fa Fb) as [N V]. rewrite E, clamp_0 in V. pose proof (big_pos (emax := emax)). assert (G : fin (Bmult mode_NE a b)) by (apply fin_iff; split; [exact N|]; rewrite V, Rabs_R0; lra). split; [exact G|]. now rewrite fin_val in V. }
  intros [Fx Vx] Fy. split; apply M; auto; rewrite Vx; lra.
Qed.
Lemma log_1 x : fin x -> B2R x = 1 -> is0 (l_log lib x).
Proof.
  intros F V. assert (G : fin (l_log lib x)) by (apply (m_log_fin lib LO); [exact F|lra]). split; [exact G|]. apply Rle_antisym; [apply (m_log_le_1 lib LO)|apply (m_log_ge_1 lib LO)]; auto; lra.
Qed.
Lemma cosh_0 x : is0 x -> fin (l_cosh lib x) /\ B2R (l_cosh lib x) = 1.
Proof.
  intros [F V]. destruct (m_cosh_ge_1 lib LO x (fin_num x F)) as [N C1]. pose proof (m_cosh_growth lib LO x 0 F ltac:(lia) ltac:(rewrite V, Rabs_R0; lra)) as C2. cbn [Z.mul bpow] in C2. pose proof (big_gt_1 (prec := prec) (emax := emax)) as B1.
  assert (Fc : fin (l_cosh lib x)) by (apply fin_iff; split; [exact N|]; rewrite Rabs_pos_eq; lra). split; [exact Fc|]. rewrite fin_val in C1, C2 by exact Fc. lra.
Qed.
Lemma div_self x y : fin x -> fin y -> B2R x = B2R y -> B2R y <> 0 -> fin (Bdiv mode_NE x y) /\ B2R (Bdiv mode_NE x y) = 1.
Proof.
  intros Fx Fy E Ny. destruct (val_div x y Fx Fy Ny) as [N V]. rewrite E in V. unfold Rdiv in V. pose proof (big_gt_1 (prec := prec) (emax := emax)) as B1. rewrite Rinv_r, rnd_id, clamp_id in V by (auto using fmt_1; lra).
  assert (G : fin (Bdiv mode_NE x y)) by (apply fin_iff; split; [exact N|]; rewrite V, Rabs_R1; lra). split; [exact G|]. now rewrite fin_val in V.
Qed.
Lemma perfect l n (t p : Z -> fl) : (0 <= n)%Z -> l = MSE \/ l = MAE \/ l = LC \/ l = MSLE -> (forall i, (0 <= i < n)%Z -> fin (t i) /\ fin (p i) /\ B2R (t i) = B2R (p i) /\ (l = MSLE -> 0 <= B2R (t i))) ->
  is0 (loss_val l n t p).
Proof.
  intros Hn C H. destruct (lit_half P24 E64) as [Fh Vh]. destruct C as [->|[->|[->| ->]]]; cbn [loss_val]; cbn [mul add sub nabs nlog ncosh div one NF Num_fl].
  - refine (proj1 (mul_is0 _ _ _ Fh)). apply sum_is0; [exact Hn|]. intros i Hi. destruct (H i Hi) as (Ft & Fp & E & _). pose proof (sub_is0 _ _ Ft Fp E) as Q. exact (proj1 (mul_is0 _ _ Q (proj1 Q))).
  - apply sum_is0; [exact Hn|]. intros i Hi. destruct (H i Hi) as (Ft & Fp & E & _). destruct (sub_is0 _ _ Fp Ft (eq_sym E)) as [G V]. split; [now apply fin_abs|]. rewrite B2R_Babs, V. apply Rabs_R0.
  - apply sum_is0; [exact Hn|]. intros i Hi. destruct (H i Hi) as (Ft & Fp & E & _). pose proof (sub_is0 _ _ Fp Ft (eq_sym E)) as Q. destruct (cosh_0 _ Q). now apply log_1.
  - refine (proj1 (mul_is0 _ _ _ Fh)). apply sum_is0; [exact Hn|]. intros i Hi. destruct (H i Hi) as (Ft & Fp & E & P0). specialize (P0 eq_refl). destruct (plus_one _ Ft P0) as [G1 V1]. destruct (plus_one (p i) Fp ltac:(lra)) as [G2 V2].
    destruct (add_fin_inv _ _ G1) as (_ & _ & E1). destruct (add_fin_inv _ _ G2) as (_ & _ & E2).
    assert (Q : is0 (l_log lib (Bdiv mode_NE (Bplus mode_NE (p i) Bone) (Bplus mode_NE (t i) Bone)))).
    { destruct (div_self (Bplus mode_NE (p i) Bone) (Bplus mode_NE (t i) Bone) G2 G1) as [Fd Vd]; [rewrite E1, E2, E; reflexivity|lra|]. now apply log_1. }
    exact (proj1 (mul_is0 _ _ Q (proj1 Q))).
Qed.

(** ** relative accuracy *)
Lemma sum_rel n (f : Z -> fl) : (0 <= n)%Z -> fin (zsum n f) -> (forall i, (0 <= i < n)%Z -> 0 <= B2R (f i)) ->
  (1 - u) ^ Z.to_nat n * rsum n (fun i => B2R (f i)) <= B2R (zsum n f) <= (1 + u) ^ Z.to_nat n * rsum n (fun i => B2R (f i)).
Proof.
  intros Hn. pattern n. match goal with |- ?Q n => refine (natlike_ind Q _ _ n Hn); clear n Hn end.
  - intros _ _. rewrite !zsum_0. cbn [zero NF Num_R Num_fl B2R]. lra.
  - intros n Hn IH F H. unfold Z.succ in *. rewrite (zsum_S (NT := NF)) in F by exact Hn. rewrite !zsum_S by exact Hn. cbn [add NF Num_R Num_fl] in *. destruct (add_fin_inv _ _ F) as (F1 & F2 & E). specialize (IH F1 ltac:(intros; apply H; lia)). rewrite E.
    set (s := zsum n f) in *. set (S := zsum n (fun i => B2R (f i))) in *. pose proof (H n ltac:(lia)) as W.
    destruct (rnd_plus_err (prec := prec) (emax := emax) (B2R s) (B2R (f n)) (fmt_B2R _) (fmt_B2R _)) as (d & D1 & D2). rewrite D2. apply Rabs_le_inv in D1. replace (Z.to_nat (n + 1)) with (Datatypes.S (Z.to_nat n)) by lia. cbn [pow].
    pose proof (u_pos (prec := prec)). pose proof (u_half (prec := prec) (emax := emax)). pose proof (one_le_pow (prec := prec) (Z.to_nat n)) as P1. assert (P2 : 0 <= (1 - u) ^ Z.to_nat n <= 1). { split; [apply pow_le; lra|]. pose proof (pow_incr (1 - u) 1 (Z.to_nat n) ltac:(lra)) as Q. rewrite pow1 in Q. exact Q. }
    assert (S0 : 0 <= S) by (apply rsum_nonneg; [exact Hn|]; intros; apply H; lia).
    assert (Q1 : (1 - u) ^ Z.to_nat n * (S + B2R (f n)) <= B2R s + B2R (f n)) by nra.
    assert (Q2 : B2R s + B2R (f n) <= (1 + u) ^ Z.to_nat n * (S + B2R (f n))) by nra.
    assert (Q0 : 0 <= (1 - u) ^ Z.to_nat n * (S + B2R (f n))) by (apply Rmult_le_pos; lra).
    split.
    + apply Rle_trans with ((1 - u) * (B2R s + B2R (f n))); [rewrite Rmult_assoc; apply Rmult_le_compat_l; lra|]. nra.
    + apply Rle_trans with ((1 + u) * (B2R s + B2R (f n))); [nra|]. rewrite Rmult_assoc. apply Rmult_le_compat_l; lra.
Qed.
Lemma rnd_minus_err r s : fmt r -> fmt s -> exists d, Rabs d <= u /\ rnd (r - s) = (r - s) * (1 + d).
Proof. intros F1 F2. apply (rnd_plus_err (prec := prec) (emax := emax) r (- s)); [exact F1|now apply fmt_opp]. Qed.
Lemma mae_rel n (t p : Z -> fl) : (0 <= n)%Z -> fin (loss_val MAE n t p) ->
  let D := rsum n (fun i => Rabs (B2R (p i) - B2R (t i))) in
  (1 - u) ^ Z.to_nat (n + 1) * D <= B2R (loss_val MAE n t p) <= (1 + u) ^ Z.to_nat (n + 1) * D.
Proof.
  intros Hn F D. cbn [loss_val] in *. cbn [sub nabs NF Num_fl] in *. set (f := fun i => Babs (Bminus mode_NE (p i) (t i))) in *. pose proof (fin_sum_inv lib f n Hn F) as Fi.
  pose proof (u_pos (prec := prec)) as U0. pose proof (u_half (prec := prec) (emax := emax)) as U1.
  assert (E : forall i, (0 <= i < n)%Z -> exists d, Rabs d <= u /\ B2R (f i) = Rabs (B2R (p i) - B2R (t i)) * (1 + d)).
  { intros i Hi. specialize (Fi i Hi). unfold f in *. assert (G : fin (Bminus mode_NE (p i) (t i))) by (unfold fin in *; now rewrite is_finite_Babs in Fi). destruct (sub_fin_inv _ _ G) as (_ & _ & V). destruct (rnd_minus_err (B2R (p i)) (B2R (t i)) (fmt_B2R _) (fmt_B2R _)) as (d & D1 & D2).
    exists d. split; [exact D1|]. rewrite B2R_Babs, V, D2, Rabs_mult. apply Rabs_le_inv in D1. rewrite (Rabs_pos_eq (1 + d)) by lra. reflexivity. }
  destruct (sum_rel n f Hn F) as [L U]. { intros i Hi. unfold f. rewrite B2R_Babs. apply Rabs_pos. }
  replace (Z.to_nat (n + 1)) with (Datatypes.S (Z.to_nat n)) by lia. cbn [pow].
  assert (P1 : 0 <= (1 - u) ^ Z.to_nat n) by (apply pow_le; lra). pose proof (one_le_pow (prec := prec) (Z.to_nat n)) as P2. set (S := rsum n (fun i => B2R (f i))) in *.
  assert (A : (1 - u) * D <= S).
  { unfold S, D. pose proof (rsum_affine n (fun i => Rabs (B2R (p i) - B2R (t i))) (1 - u) 0 Hn) as Q. rewrite Rmult_0_r, Rplus_0_r in Q. rewrite <- Q. apply rsum_le; [exact Hn|]. intros i Hi. destruct (E i Hi) as (d & D1 & D2). rewrite D2. apply Rabs_le_inv in D1. pose proof (Rabs_pos (B2R (p i) - B2R (t i))). nra. }
  assert (B : S <= (1 + u) * D).
  { unfold S, D. pose proof (rsum_affine n (fun i => Rabs (B2R (p i) - B2R (t i))) (1 + u) 0 Hn) as Q. rewrite Rmult_0_r, Rplus_0_r in Q. rewrite <- Q. apply rsum_le; [exact Hn|]. intros i Hi. destruct (E i Hi) as (d & D1 & D2). rewrite D2. apply Rabs_le_inv in D1. pose proof (Rabs_pos (B2R (p i) - B2R (t i))). nra. }
  split.
  - apply Rle_trans with (2 := L). replace ((1 - u) * (1 - u) ^ Z.to_nat n * D) with ((1 - u) ^ Z.to_nat n * ((1 - u) * D)) by ring. now apply Rmult_le_compat_l.
  - apply Rle_trans with (1 := U). replace ((1 + u) * (1 + u) ^ Z.to_nat n * D) with ((1 + u) ^ Z.to_nat n * ((1 + u) * D)) by ring. apply Rmult_le_compat_l; [lra|exact B].
Qed.
Lemma mse_rel n (t p : Z -> fl) : (0 <= n)%Z -> fin (loss_val MSE n t p) ->
  let D := rsum n (fun i => (B2R (t i) - B2R (p i)) * (B2R (t i) - B2R (p i))) / 2 in
  (1 - u) ^ Z.to_nat (n + 4) * D - IZR (n + 1) * eta <= B2R (loss_val MSE n t p) <= (1 + u) ^ Z.to_nat (n + 4) * D + IZR (n + 1) * eta * (1 + u) ^ Z.to_nat (n + 1).
Proof.
  intros Hn F D. cbn [loss_val] in *. cbn [sub mul NF Num_fl] in *. destruct (lit_half P24 E64) as [Fh Vh]. set (f := fun i => Bmult mode_NE (Bminus mode_NE (t i) (p i)) (Bminus mode_NE (t i) (p i))) in *.
  destruct (mul_fin_inv _ _ F) as (Fs & _ & EF). rewrite EF. pose proof (fin_sum_inv lib f n Hn Fs) as Fi. pose proof (u_pos (prec := prec)) as U0. pose proof (u_half (prec := prec) (emax := emax)) as U1. pose proof (eta_pos (prec := prec) (emax := emax)) as ET.
  set (q := fun i => (B2R (t i) - B2R (p i)) * (B2R (t i) - B2R (p i))) in *.
  assert (E : forall i, (0 <= i < n)%Z -> 0 <= B2R (f i) /\ (1 - u) ^ 3 * q i + - eta <= B2R (f i) <= (1 + u) ^ 3 * q i + eta).
  { intros i Hi. specialize (Fi i Hi). unfold f in *. destruct (mul_fin_inv _ _ Fi) as (G & _ & V). destruct (sub_fin_inv _ _ G) as (_ & _ & W). rewrite V, W. destruct (rnd_minus_err (B2R (t i)) (B2R (p i)) (fmt_B2R _) (fmt_B2R _)) as (d & D1 & D2). rewrite D2.
    split. { rewrite <- (rnd_0 (prec := prec) (emax := emax)). apply rnd_le. apply Rle_0_sqr. }
    match goal with |- context [rnd ?r] => destruct (rnd_err (prec := prec) (emax := emax) r) as (d1 & e & D3 & D4 & D5) end. rewrite D5. apply Rabs_le_inv in D1, D3, D4. unfold q. set (a := B2R (t i) - B2R (p i)).
    replace (a * (1 + d) * (a * (1 + d)) * (1 + d1)) with ((a * a) * ((1 + d) * (1 + d) * (1 + d1))) by ring. assert (A0 : 0 <= a * a) by nra.
    assert (X1 : (1 - u) * (1 - u) <= (1 + d) * (1 + d) <= (1 + u) * (1 + u)) by (split; apply Rmult_le_compat; lra).
    assert (X2 : (1 - u) * (1 - u) * (1 - u) <= (1 + d) * (1 + d) * (1 + d1) <= (1 + u) * (1 + u) * (1 + u)) by (split; apply Rmult_le_compat; nra).
    cbn [pow]. split; nra. }
  destruct (sum_rel n f Hn Fs) as [L U]. { intros i Hi. now apply E. }
  set (S := rsum n (fun i => B2R (f i))) in *. set (Q := rsum n q) in *.
  assert (A : (1 - u) ^ 3 * Q - IZR n * eta <= S). { unfold Q, S. pose proof (rsum_affine n q ((1 - u) ^ 3) (- eta) Hn) as X. replace (_ - _) with ((1 - u) ^ 3 * zsum n q + IZR n * - eta) by ring. rewrite <- X. apply rsum_le; [exact Hn|]. intros i Hi. now apply E. }
  assert (B : S <= (1 + u) ^ 3 * Q + IZR n * eta). { unfold Q, S. pose proof (rsum_affine n q ((1 + u) ^ 3) eta Hn) as X. rewrite <- X. apply rsum_le; [exact Hn|]. intros i Hi. now apply E. }
  match type of Fs with fin ?z => set (s := z) in * end. assert (Q0 : 0 <= Q) by (apply rsum_nonneg; [exact Hn|]; intros; unfold q; apply Rle_0_sqr).
  assert (S0 : 0 <= S) by (apply rsum_nonneg; [exact Hn|]; intros; now apply E). assert (N0 : 0 <= IZR n) by (now apply IZR_le).
  assert (P1 : 0 <= (1 - u) ^ Z.to_nat n <= 1). { split; [apply pow_le; lra|]. pose proof (pow_incr (1 - u) 1 (Z.to_nat n) ltac:(lra)) as Y. rewrite pow1 in Y. exact Y. }
  pose proof (one_le_pow (prec := prec) (Z.to_nat n)) as P2. assert (s0 : 0 <= B2R s) by (apply Rle_trans with (2 := L); apply Rmult_le_pos; lra).
  assert (EH : B2R hlf = / 2) by exact Vh. match goal with |- context [rnd ?r] => replace r with (B2R s / 2) by (change (B2R s / 2 = B2R s * B2R hlf); rewrite EH; lra) end.
  destruct (rnd_err (prec := prec) (emax := emax) (B2R s / 2)) as (d & e & D1 & D2 & D3). rewrite D3. apply Rabs_le_inv in D1, D2. unfold D. clear D.
  replace (Z.to_nat (n + 4)) with (Z.to_nat n + 4)%nat by lia. replace (Z.to_nat (n + 1)) with (Datatypes.S (Z.to_nat n)) by lia. rewrite !pow_add, plus_IZR. cbn [pow] in *. set (pl := (1 - u) ^ Z.to_nat n) in *. set (pu := (1 + u) ^ Z.to_nat n) in *. clearbody pl pu s S Q. set (N := IZR n) in *. clearbody N. set (h := eta) in *. clearbody h. set (v := u) in *. clearbody v.
  clear -L U A B Q0 S0 N0 P1 P2 s0 D1 D2 U0 U1 ET. set (c := (1 - v) * ((1 - v) * ((1 - v) * 1))) in *. set (C := (1 + v) * ((1 + v) * ((1 + v) * 1))) in *.
  split.
  - replace (pl * ((1 - v) * c) * (Q / 2)) with ((1 - v) * (pl * (c * Q)) / 2) by field.
    clearbody c C. assert (Y : 0 <= N * h) by (apply Rmult_le_pos; lra). assert (X : pl * (c * Q) - N * h <= pl * S).
    { assert (X0 : pl * (c * Q - N * h) <= pl * S) by (apply Rmult_le_compat_l; lra). assert (pl * (N * h) <= 1 * (N * h)) by (apply Rmult_le_compat_r; lra). lra. }
    set (a := pl * (c * Q)) in *. assert (Z : (1 - v) * (a - N * h) <= (1 - v) * B2R s) by (apply Rmult_le_compat_l; lra).
    assert (Z2 : (1 - v) * B2R s <= (1 + d) * B2R s) by (apply Rmult_le_compat_r; lra). assert (0 <= v * (N * h)) by (apply Rmult_le_pos; lra). lra.
  - replace (pu * ((1 + v) * C) * (Q / 2)) with ((1 + v) * (pu * (C * Q)) / 2) by field.
    clearbody c C. assert (Y : 0 <= N * h) by (apply Rmult_le_pos; lra). assert (X : B2R s <= pu * (C * Q) + pu * (N * h)).
    { assert (pu * S <= pu * (C * Q + N * h)) by (apply Rmult_le_compat_l; lra). lra. }
    set (a := pu * (C * Q)) in *. set (b := pu * (N * h)) in *. assert (B0 : 0 <= b) by (apply Rmult_le_pos; lra). assert (Z : (1 + v) * B2R s <= (1 + v) * (a + b)) by (apply Rmult_le_compat_l; lra).
    assert (Z2 : (1 + d) * B2R s <= (1 + v) * B2R s) by (apply Rmult_le_compat_r; lra).
    assert (W : h <= h * ((1 + v) * pu)). { assert (1 <= (1 + v) * pu) by nra. assert (h * 1 <= h * ((1 + v) * pu)) by (apply Rmult_le_compat_l; lra). lra. }
    replace ((N + 1) * h * ((1 + v) * pu)) with ((1 + v) * b + h * ((1 + v) * pu)) by (unfold b; ring). assert (0 <= v * b) by (apply Rmult_le_pos; lra). lra.
Qed.
End Loss.

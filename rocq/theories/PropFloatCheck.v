(** * Property C133: the checker's losses and accuracies in floating-point arithmetic *)
From Coq Require Import ZArith QArith Reals Lra Lia List FunctionalExtensionality.
From Flocq Require Import Core BinarySingleNaN.
From Verif Require Import Mem Scalar MemSpec MemLemmas Lique LiqueSpec LiqueProofs Linear LinearProofs RSum Functions FunctionSpec FunctionProofs
  Layer LayerSpec RealSpec NetSpec ConvSpec ConvProofs PoolSpec PoolProofs PropPool LossProofs Net NetPlan NetProofs PropNet NetReal NetGrad Tool Checker PropChecker
  Float FloatSpec FloatLemmas FloatLib FloatError FloatAcc FloatStat FloatAct PropFloatAct PropFloatSoftmax PropFloatLayers FloatNetSpec FloatNetAct FloatNetSoft PropFloatNet FloatLoss PropFloatLoss
  FloatGradSpec FloatDer PropFloatGrad FloatCheckSpec Cells.
Import ListNotations.
Local Open Scope R_scope.

Section Check.
Context {prec emax : Z} {Hp : Prec_gt_0 prec} {He : Prec_lt_emax prec emax} (P24 : (24 <= prec)%Z) (E64 : (64 <= emax)%Z).
Notation fl := (fl prec emax).
Notation rnd := (FloatLemmas.rnd (prec := prec) (emax := emax)).
Notation fmt := (FloatLemmas.fmt (prec := prec) (emax := emax)).
Notation u := (uro prec).
Notation eta := (eta prec emax).
Notation big := (big emax).
Notation rsum := RealSpec.rsum.
Context (lib : libm prec emax) (LO : libm_ok lib) (c : R) (AC : log_accurate lib c) (Cc : 0 <= c).
#[local] Instance NF : Num fl := Num_fl prec emax lib.

(** ** one term *)
Lemma gap_step (p t : fl) (y e : R) : fin p -> fin t -> Rabs (B2R p - y) <= e -> (Rabs (B2R t - y) + e) * (1 + u) < big ->
  (fin (sub p t) /\ Rabs (B2R (sub p t) - (y - B2R t)) <= gap (prec := prec) (B2R t) y e) /\
  (fin (sub t p) /\ Rabs (B2R (sub t p) - (B2R t - y)) <= gap (prec := prec) (B2R t) y e).
Proof.
  intros Fp Ft H B. pose proof (u_pos (prec := prec)) as U0. pose proof (Rabs_pos (B2R p - y)) as E0. set (ty := B2R t) in *.
  assert (N : Rabs (B2R p - ty) <= Rabs (ty - y) + e). { replace (B2R p - ty) with ((B2R p - y) - (ty - y)) by ring. eapply Rle_trans; [apply Rabs_triang|]. rewrite Rabs_Ropp. lra. }
  assert (G : forall a b : fl, fin a -> fin b -> Rabs (B2R a - B2R b) <= Rabs (ty - y) + e -> fin (Bminus mode_NE a b) /\ Rabs (B2R (Bminus mode_NE a b) - (B2R a - B2R b)) <= u * (Rabs (ty - y) + e)).
  { intros a b Fa Fb L. destruct (rnd_minus_err (prec := prec) (emax := emax) (B2R a) (B2R b)) as (dd & D1 & D2); [apply fmt_B2R|apply fmt_B2R|].
    assert (F : fin (Bminus mode_NE a b)).
    { destruct (val_sub a b Fa Fb) as [Nm V]. apply fin_iff. split; [exact Nm|]. rewrite V, D2. assert (Q : Rabs ((B2R a - B2R b) * (1 + dd)) < big).
      { apply Rle_lt_trans with (2 := B). rewrite Rabs_mult. apply Rmult_le_compat; [apply Rabs_pos|apply Rabs_pos|exact L|]. eapply Rle_trans; [apply Rabs_triang|]. rewrite Rabs_R1. lra. }
      apply Rabs_def2 in Q. rewrite clamp_id by lra. apply Rabs_def1; lra. }
    split; [exact F|]. destruct (sub_fin_inv _ _ F) as (_ & _ & ->). rewrite D2. replace ((B2R a - B2R b) * (1 + dd) - (B2R a - B2R b)) with (dd * (B2R a - B2R b)) by ring.
    rewrite Rabs_mult. apply Rmult_le_compat; auto using Rabs_pos. }
  unfold gap. cbn [sub NF Num_fl]. split.
  - destruct (G p t Fp Ft N) as [F Q]. split; [exact F|]. fold ty in Q. replace (B2R (Bminus mode_NE p t) - (y - ty)) with (B2R (Bminus mode_NE p t) - (B2R p - ty) + (B2R p - y)) by ring. eapply Rle_trans; [apply Rabs_triang|]. lra.
  - destruct (G t p Ft Fp) as [F Q]; [fold ty; rewrite Rabs_minus_sym; exact N|]. split; [exact F|]. fold ty in Q. replace (B2R (Bminus mode_NE t p) - (ty - y)) with (B2R (Bminus mode_NE t p) - (ty - B2R p) - (B2R p - y)) by ring.
    eapply Rle_trans; [apply Rabs_triang|]. rewrite Rabs_Ropp. lra.
Qed.
Lemma eps_val : exists d, Rabs d <= u /\ B2R (@epsilon fl NF) = eps9 * (1 + d).
Proof.
  destruct (lit_eps P24 E64) as [F _]. assert (M : IZR 1000000000 < big). { apply Rlt_trans with (IZR (2 ^ 30)); [apply IZR_lt; lia|]. unfold FloatSpec.big. rewrite (IZR_Zpower radix2) by lia. apply bpow_lt. lia. }
  destruct (lit_val 1 1000000000) as [N V]; [apply (fmt_1 (prec := prec) (emax := emax))|exact (fmt_e9 P24 E64)|rewrite Rabs_R1; apply (big_gt_1 (prec := prec) (emax := emax))|rewrite Rabs_pos_eq by (apply IZR_le; lia); exact M|].
  change (exists d, Rabs d <= u /\ B2R (fl_lit prec emax (1 # 1000000000)) = eps9 * (1 + d)). rewrite (fin_rnd _ _ N V F). replace (IZR 1 / IZR 1000000000) with eps9 by (unfold eps9; lra).
  apply rnd_err_normal. assert (Q : bpow radix2 (2 - emax) <= bpow radix2 (-30)) by (apply bpow_le; lia). apply Rle_trans with (1 := Q). rewrite Rabs_pos_eq; unfold eps9; cbn; lra.
Qed.
Lemma ln_close q z d : 0 < q - d -> Rabs (z - q) <= d -> Rabs (ln z - ln q) <= d / (q - d).
Proof.
  intros L H. apply Rabs_le_inv in H. assert (K : forall a b, 0 < q - d <= a -> a <= b -> b - a <= d -> 0 <= ln b - ln a <= d / (q - d)).
  { intros a b Ha Hb Hd. assert (A0 : 0 < a) by lra. split; [assert (ln a <= ln b) by (destruct (Rle_lt_or_eq_dec a b Hb) as [Hl|Hl]; [left; now apply ln_increasing|rewrite Hl; apply Rle_refl]); lra|].
    replace (ln b - ln a) with (ln (b / a)) by (unfold Rdiv; rewrite ln_mult, ln_Rinv by (auto using Rinv_0_lt_compat; lra); ring). assert (B1 : 0 < b / a) by (apply Rdiv_lt_0_compat; lra). assert (X : ln (b / a) <= b / a - 1). { pose proof (exp_1_le (ln (b / a))) as Q. rewrite exp_ln in Q by exact B1. lra. }
    eapply Rle_trans; [exact X|]. replace (b / a - 1) with ((b - a) / a) by (field; lra). unfold Rdiv. apply Rmult_le_compat; [lra|left; apply Rinv_0_lt_compat; lra|exact Hd|apply Rinv_le_contravar; lra]. }
  destruct (Rle_dec q z) as [Hz|Hz].
  - destruct (K q z) as [K1 K2]; [lra|exact Hz|lra|]. rewrite Rabs_pos_eq; lra.
  - destruct (K z q) as [K1 K2]; [lra|lra|lra|]. rewrite Rabs_left1; lra.
Qed.
Lemma log_step (p : fl) (y e : R) : fin p -> Rabs (B2R p - y) <= e -> arg_err (prec := prec) y e < y + eps9 -> y + eps9 + arg_err (prec := prec) y e < big ->
  fin (nlog (add p epsilon)) /\ Rabs (B2R (nlog (add p epsilon)) - ln (y + eps9)) <= log_err (prec := prec) (emax := emax) c y e.
Proof.
  intros Fp H L B. destruct eps_val as (d & D1 & D2). destruct (lit_eps P24 E64) as [Fe _]. change (fin (@epsilon fl NF)) in Fe. pose proof (u_pos (prec := prec)) as U0. pose proof (FloatNetAct.u_small P24) as U1.
  assert (E9 : 0 < eps9) by (unfold eps9; cbn; lra). pose proof (Rabs_pos (B2R p - y)) as E0. set (q := y + eps9) in *. set (a := arg_err y e) in *.
  destruct (rnd_plus_err (prec := prec) (emax := emax) (B2R p) (B2R (@epsilon fl NF))) as (d' & D3 & D4); [apply fmt_B2R|apply fmt_B2R|].
  assert (De : Rabs (d * eps9) <= u * eps9) by (rewrite Rabs_mult, (Rabs_pos_eq eps9) by lra; apply Rmult_le_compat_r; lra).
  assert (S : Rabs (B2R p + B2R (@epsilon fl NF)) <= Rabs y + e + 2 * eps9).
  { rewrite D2. replace (B2R p + eps9 * (1 + d)) with (y + (B2R p - y) + (eps9 + d * eps9)) by ring. eapply Rle_trans; [apply Rabs_triang|]. eapply Rplus_le_compat; [eapply Rle_trans; [apply Rabs_triang|apply Rplus_le_compat; [apply Rle_refl|exact H]]|].
    eapply Rle_trans; [apply Rabs_triang|]. rewrite (Rabs_pos_eq eps9) by lra. assert (u * eps9 <= 1 * eps9) by (apply Rmult_le_compat_r; lra). lra. }
  assert (Q : Rabs (rnd (B2R p + B2R (@epsilon fl NF)) - q) <= a).
  { rewrite D4. set (s := B2R p + B2R (@epsilon fl NF)) in *. replace (s * (1 + d') - q) with (d' * s + ((B2R p - y) + d * eps9)) by (unfold s, q; rewrite D2; ring). eapply Rle_trans; [apply Rabs_triang|].
    assert (Rabs (d' * s) <= u * (Rabs y + e + 2 * eps9)) by (rewrite Rabs_mult; apply Rmult_le_compat; auto using Rabs_pos). pose proof (Rabs_triang (B2R p - y) (d * eps9)). unfold a, arg_err. lra. }
  assert (Fs : fin (add p (@epsilon fl NF)) /\ B2R (add p (@epsilon fl NF)) = rnd (B2R p + B2R (@epsilon fl NF))).
  { destruct (val_add p (@epsilon fl NF) Fp Fe) as [N V]. apply (fin_of_val _ _ N V). apply Rle_lt_trans with (q + a); [|exact B]. apply Rabs_le_inv in Q. apply Rabs_le. lra. }
  destruct Fs as [Fs Vs]. set (z := add p (@epsilon fl NF)) in *. rewrite <- Vs in Q. assert (Z0 : 0 < B2R z) by (apply Rabs_le_inv in Q; lra).
  split; [exact (m_log_fin lib LO z Fs Z0)|]. pose proof (AC z Fs Z0) as A. pose proof (ln_close q (B2R z) a ltac:(lra) Q) as Lc. unfold log_err. fold q. fold a. cbv zeta. cbn [nlog NF Num_fl].
  set (dd := a / (q - a)) in *. assert (Lz : Rabs (ln (B2R z)) <= Rabs (ln q) + dd). { replace (ln (B2R z)) with (ln q + (ln (B2R z) - ln q)) by ring. eapply Rle_trans; [apply Rabs_triang|]. lra. }
  assert (c * Rabs (ln (B2R z)) <= c * (Rabs (ln q) + dd)) by (apply Rmult_le_compat_l; assumption).
  replace (B2R (l_log lib z) - ln q) with ((B2R (l_log lib z) - ln (B2R z)) + (ln (B2R z) - ln q)) by ring. eapply Rle_trans; [apply Rabs_triang|]. lra.
Qed.
(** what the code adds up for one output *)
Definition code_term (lo : loss) (t p : fl) : fl :=
  match lo with MAE => nabs (sub p t) | CCE => mul t (nlog (add p epsilon)) | _ => mul (sub t p) (sub t p) end.
Lemma term_step lo (t p : fl) (y e : R) : fin t -> fin p -> Rabs (B2R p - y) <= e -> term_room (prec := prec) (emax := emax) c lo (B2R t) y e ->
  fin (code_term lo t p) /\ Rabs (B2R (code_term lo t p) - loss_term lo (B2R t) y) <= term_err (prec := prec) (emax := emax) c lo (B2R t) y e.
Proof.
  intros Ft Fp H R. assert (Sq : (Rabs (B2R t - y) + e) * (1 + u) < big /\ product_room (prec := prec) (emax := emax) (B2R t - y) (gap (prec := prec) (B2R t) y e) (B2R t - y) (gap (prec := prec) (B2R t) y e) ->
    fin (mul (sub t p) (sub t p)) /\ Rabs (B2R (mul (sub t p) (sub t p)) - (B2R t - y) ^ 2) <= prod_err (prec := prec) (emax := emax) (B2R t - y) (gap (prec := prec) (B2R t) y e) (B2R t - y) (gap (prec := prec) (B2R t) y e)).
  { intros [B P]. destruct (gap_step p t y e Fp Ft H B) as [_ [F Q]]. replace ((B2R t - y) ^ 2) with ((B2R t - y) * (B2R t - y)) by ring. exact (prod_step lib _ _ _ _ _ _ F F Q Q P). }
  destruct lo; try exact (Sq R); clear Sq; cbn [code_term loss_term term_err term_room] in *.
  - destruct (gap_step p t y e Fp Ft H R) as [[F Q] _]. cbn [nabs NF Num_fl]. split; [now apply fin_abs|]. rewrite B2R_Babs. rewrite (Rabs_minus_sym (B2R t) y). eapply Rle_trans; [apply Rabs_triang_inv2|]. exact Q.
  - destruct R as (R1 & R2 & R3). destruct (log_step p y e Fp H R1 R2) as [F Q]. apply (prod_step lib); [exact Ft|exact F| |exact Q|exact R3]. rewrite Rminus_eq_0, Rabs_R0. lra.
Qed.

(** ** sums *)
Lemma total_step (f : Z -> fl) (g d : Z -> R) n : (0 <= n)%Z -> (forall i, (0 <= i < n)%Z -> fin (f i) /\ Rabs (B2R (f i) - g i) <= d i) -> total_room (prec := prec) (emax := emax) n g d ->
  (fin (zsum n f) /\ Rabs (B2R (zsum n f) - rsum n g) <= total_err (prec := prec) (emax := emax) n g d) /\
  (let A := rsum n (fun i => Rabs (B2R (f i))) in A + roundings prec emax n 0 A < big).
Proof.
  intros Hn H R. unfold total_room, total_err in *. set (B := total_size n g d) in *. assert (AB : 0 <= rsum n (fun i => Rabs (B2R (f i))) <= B).
  { split; [apply RSum.zsum_nonneg; intros; apply Rabs_pos|]. apply RSum.zsum_le. intros i Hi. destruct (H i Hi) as [_ Q]. replace (B2R (f i)) with (g i + (B2R (f i) - g i)) by ring. eapply Rle_trans; [apply Rabs_triang|]. lra. }
  destruct (sum_accurate lib f zero n Hn) as [S1 S2]. rewrite zsum_from_zero in S1, S2.
  change (fin (zsum n f) -> (fin zero /\ forall i, (0 <= i < n)%Z -> fin (f i)) /\ Rabs (B2R (zsum n f) - (0 + rsum n (fun i => B2R (f i)))) <= roundings prec emax n 0 (Rabs 0 + rsum n (fun i => Rabs (B2R (f i))))) in S1.
  change (fin (@zero fl NF) /\ (forall i, (0 <= i < n)%Z -> fin (f i)) -> Rabs 0 + rsum n (fun i => Rabs (B2R (f i))) + roundings prec emax n 0 (Rabs 0 + rsum n (fun i => Rabs (B2R (f i)))) < big -> fin (zsum n f)) in S2.
  rewrite Rabs_R0, !Rplus_0_l in S1, S2. set (A := rsum n (fun i => Rabs (B2R (f i)))) in *. pose proof (roundings_mono (prec := prec) (emax := emax) n 0 A n 0 B ltac:(lia) ltac:(lia) AB) as M. assert (RA : A + roundings prec emax n 0 A < big) by lra.
  split; [|exact RA]. assert (F : fin (zsum n f)) by (apply S2; [split; [reflexivity|intros; now apply H]|exact RA]). split; [exact F|]. destruct (S1 F) as [_ Q]. replace (0 + A) with A in Q by ring.
  pose proof (sum_close n (fun i => B2R (f i)) g d Hn (fun i Hi => proj2 (H i Hi))) as Q2.
  replace (B2R (zsum n f) - rsum n g) with ((B2R (zsum n f) - rsum n (fun i => B2R (f i))) + (rsum n (fun i => B2R (f i)) - rsum n g)) by ring. eapply Rle_trans; [apply Rabs_triang|]. lra.
Qed.
Lemma minus_plus (x y : fl) : Bminus mode_NE x y = Bplus mode_NE x (Bopp y).
Proof. destruct x, y; reflexivity. Qed.
Lemma sub_fold n (f : Z -> fl) : (0 <= n)%Z -> zfold n (fun i acc => sub acc (f i)) zero = zsum n (fun i => opp (f i)).
Proof.
  intros Hn. pattern n. match goal with |- ?Q n => refine (natlike_ind Q _ _ n Hn); clear n Hn end; [reflexivity|].
  intros n Hn IH. unfold Z.succ. rewrite zfold_S, zsum_S by exact Hn. rewrite IH. apply minus_plus.
Qed.
Lemma total_opp n (g d : Z -> R) : rsum n (fun i => - g i) = - rsum n g /\ total_size n (fun i => - g i) d = total_size n g d.
Proof. split; [unfold RealSpec.rsum; rewrite <- RSum.zsum_opp; reflexivity|]. unfold total_size, RealSpec.rsum. apply zsum_ext. intros. now rewrite Rabs_Ropp. Qed.

(** ** the loss of one sample *)
Lemma loss_close lo n (t p : Z -> fl) (y e : Z -> R) : lo = MSE \/ lo = MAE \/ lo = CCE -> (0 <= n)%Z -> (forall i, (0 <= i < n)%Z -> fin (t i)) ->
  (forall i, (0 <= i < n)%Z -> fin (p i) /\ Rabs (B2R (p i) - y i) <= e i) -> loss_room (prec := prec) (emax := emax) c lo n (fun i => B2R (t i)) y e ->
  fin (loss_val lo n t p) /\ Rabs (B2R (loss_val lo n t p) - std_loss lo n (fun i => B2R (t i)) y) <= loss_error (prec := prec) (emax := emax) c lo n (fun i => B2R (t i)) y e.
Proof.
  intros L Hn Ft Hp' (R1 & R2 & R3). set (g := fun i => loss_term lo (B2R (t i)) (y i)) in *. set (d := fun i => term_err (prec := prec) (emax := emax) c lo (B2R (t i)) (y i) (e i)) in *.
  assert (T : forall i, (0 <= i < n)%Z -> fin (code_term lo (t i) (p i)) /\ Rabs (B2R (code_term lo (t i) (p i)) - g i) <= d i) by (intros i Hi; apply term_step; [now apply Ft|now apply Hp'|now apply Hp'|now apply R1]).
  unfold loss_error. fold g. fold d. cbv zeta. destruct L as [->|[->| ->]]; cbn [loss_val std_loss].
  - destruct (total_step _ g d n Hn T R2) as [[F Q] _]. destruct (lit_half P24 E64) as [Fh Vh]. rewrite (Rmult_comm (/ 2)).
    apply (prod_step lib (zsum n (fun i => code_term MSE (t i) (p i))) half (rsum n g) (total_err n g d) (/ 2) 0); [exact F|exact Fh|exact Q| |exact R3]. change (B2R half) with (B2R (fl_lit prec emax (1 # 2))). rewrite Vh, Rminus_eq_0, Rabs_R0. lra.
  - exact (proj1 (total_step _ g d n Hn T R2)).
  - rewrite sub_fold by exact Hn. destruct (total_opp n g d) as [O1 O2]. change (rsum n (fun i => B2R (t i) * ln (y i + eps9))) with (rsum n g). rewrite <- O1.
    destruct (total_step (fun i => opp (code_term CCE (t i) (p i))) (fun i => - g i) d n Hn) as [[F Q] _].
    + intros i Hi. destruct (T i Hi) as [F Q]. cbn [opp NF Num_fl]. split; [unfold fin; rewrite is_finite_Bopp; exact F|]. rewrite B2R_Bopp. replace (- B2R (code_term CCE (t i) (p i)) - - g i) with (- (B2R (code_term CCE (t i) (p i)) - g i)) by ring. rewrite Rabs_Ropp. exact Q.
    + unfold total_room. rewrite O2. exact R2.
    + split; [exact F|]. unfold total_err in Q. rewrite O2 in Q. exact Q.
Qed.
(** ** the mean *)
Lemma mean_close (f : Z -> fl) (g d : Z -> R) n : (0 < n <= 2 ^ prec)%Z -> (forall i, (0 <= i < n)%Z -> fin (f i) /\ Rabs (B2R (f i) - g i) <= d i) -> total_room (prec := prec) (emax := emax) n g d ->
  fin (div (zsum n f) (ofZ n)) /\ Rabs (B2R (div (zsum n f) (ofZ n)) - rsum n g / IZR n) <= mean_err (prec := prec) (emax := emax) n g d.
Proof.
  intros Hn H R. destruct (total_step f g d n ltac:(lia) H R) as [[F Q] A]. destruct (mean_accurate lib f n Hn) as [_ M]. specialize (M (fun i Hi => proj1 (H i Hi)) A). change (fin (div (zsum n f) (ofZ n))) in M. split; [exact M|].
  destruct (ofZ_small (prec := prec) (emax := emax) n ltac:(lia)) as [FN EN]. assert (N1 : 1 <= IZR n) by (apply IZR_le; lia). destruct (div_fin_inv _ _ FN ltac:(lra) M) as [_ E]. change (B2R (div (zsum n f) (ofZ n)) = rnd (B2R (zsum n f) / B2R (fl_ofZ prec emax n))) in E.
  rewrite E, EN. set (s := B2R (zsum n f)) in *. set (S := rsum n g) in *. unfold mean_err. fold S. set (T := total_err n g d) in *. destruct (rnd_err (prec := prec) (emax := emax) (s / IZR n)) as (dd & h & D1 & D2 & ->). pose proof (u_pos (prec := prec)) as U0.
  assert (Is : 0 < / IZR n) by (apply Rinv_0_lt_compat; lra). assert (Sb : Rabs s <= Rabs S + T) by (replace s with (S + (s - S)) by ring; eapply Rle_trans; [apply Rabs_triang|]; lra).
  replace (s / IZR n * (1 + dd) + h - S / IZR n) with (((s - S) + dd * s) * / IZR n + h) by (unfold Rdiv; ring). eapply Rle_trans; [apply Rabs_triang|]. apply Rplus_le_compat; [|exact D2].
  unfold Rdiv. rewrite Rabs_mult, (Rabs_pos_eq (/ IZR n)) by lra. apply Rmult_le_compat_r; [lra|]. eapply Rle_trans; [apply Rabs_triang|]. apply Rplus_le_compat; [exact Q|]. rewrite Rabs_mult. apply Rmult_le_compat; auto using Rabs_pos.
Qed.

(** ** C133 *)
Context (PM : (prec + 3 <= emax)%Z) (AL : libm_accurate lib c).
Notation fits_all l := (Forall (fun d => fits (n_layer d) (n_plan d)) l).
(** what is known of the inputs of a network: [e] of the exact ones *)
Definition inputs_near (k : Z) (xv : Z -> fl) (xr e : Z -> R) : Prop := forall i, (0 <= i < k)%Z -> fin (xv i) /\ Rabs (B2R (xv i) - xr i) <= e i.
Lemma out_close m (l : list (node fl)) k x xv xr e : l <> [] -> net_at m l -> has_outputs l k -> sample_at m l x xv -> Forall sound_layer l -> inputs_near (t_size x) xv xr e -> safe (prec := prec) (emax := emax) c (exact l) xr e ->
  forall j, (0 <= j < k)%Z -> fin (net_out l xv j) /\ Rabs (B2R (net_out l xv j) - real_net (exact l) xr j) <= drift (prec := prec) (emax := emax) c (exact l) xr e j.
Proof.
  intros Ne A (p & Ep & Eo) Sa S X Sf j Hj.
  assert (Ft : fits_all l) by (eapply Forall_impl; [|exact (proj1 A)]; intros ? []; assumption).
  apply (net_step P24 E64 PM lib LO c AL l (t_shape x)); auto; [apply Sa|]. rewrite (out_last _ _ p) by (unfold plans in *; now rewrite map_length).
  unfold plans in Ep. rewrite nth_error_map in Ep. destruct (nth_error l (length l - 1)) as [d|] eqn:Ed; [|discriminate]. cbn in Ep. injection Ep as <-.
  rewrite Forall_forall in Ft. destruct (fits_counts _ _ (Ft d (nth_error_In _ _ Ed))) as (_ & -> & _). now rewrite Eo.
Qed.
(** The loss of one sample: the exact loss of the exact network on the exact inputs, up to [loss_error]. *)
Theorem C133_sample_loss (m : mem fl) (l : list (node fl)) k lo (x y : tensor) (xv yv : Z -> fl) (xr e : Z -> R) :
  l <> [] -> (Z.of_nat (length l) < 2 ^ 64)%Z -> net_at m l -> has_outputs l k -> (0 <= k)%Z -> lo = MSE \/ lo = MAE \/ lo = CCE ->
  sample_at m l x xv -> t_size y = k -> holds m (t_data y) k yv -> net_outside l (t_data y) ->
  Forall sound_layer l -> inputs_near (t_size x) xv xr e -> safe (prec := prec) (emax := emax) c (exact l) xr e ->
  (forall j, (0 <= j < k)%Z -> fin (yv j)) ->
  loss_room (prec := prec) (emax := emax) c lo k (reals yv) (real_net (exact l) xr) (drift (prec := prec) (emax := emax) c (exact l) xr e) ->
  exists v m', chk_loss1 (layers l) lo x y m = Ok (v, m') /\ fin v /\
    Rabs (B2R v - std_loss lo k (reals yv) (real_net (exact l) xr)) <=
      loss_error (prec := prec) (emax := emax) c lo k (reals yv) (real_net (exact l) xr) (drift (prec := prec) (emax := emax) c (exact l) xr e).
Proof.
  intros Ne Hn A Ho K0 L Sa Ty Hy Oy S X Sf Fy R. pose proof (out_close m l k x xv xr e Ne A Ho Sa S X Sf) as Q.
  destruct Ho as (p & Ep & Eo). destruct (feedforward_run m l x xv Ne Hn A Sa) as (y' & m' & E & A' & O & p' & Ep' & Yp & Yh & _).
  assert (p' = p) by congruence. subst p'. exists (loss_val lo k yv (net_out l xv)), m'. split.
  - unfold chk_loss1, bind. rewrite E, Ty. apply loss_f_ok; [exact K0|eapply outside_only; eauto|]. rewrite <- Eo. exact Yh.
  - apply loss_close; assumption.
Qed.
(** The mean loss of a data set. *)
Theorem C133_mean_loss (m : mem fl) (l : list (node fl)) n k lo idata odata (xs ys : Z -> Z -> fl) (xr e : Z -> Z -> R) :
  l <> [] -> (Z.of_nat (length l) < 2 ^ 64)%Z -> net_at m l -> has_outputs l k -> (0 <= k)%Z -> lo = MSE \/ lo = MAE \/ lo = CCE ->
  data_at m l n k idata odata xs ys -> (0 < n <= 2 ^ prec)%Z -> Forall sound_layer l ->
  (forall i, (0 <= i < n)%Z -> forall x, znth idata i = Some x -> inputs_near (t_size x) (xs i) (xr i) (e i)) ->
  (forall i, (0 <= i < n)%Z -> safe (prec := prec) (emax := emax) c (exact l) (xr i) (e i)) ->
  (forall i, (0 <= i < n)%Z -> forall j, (0 <= j < k)%Z -> fin (ys i j)) ->
  let losses i := std_loss lo k (reals (ys i)) (real_net (exact l) (xr i)) in
  let errors i := loss_error (prec := prec) (emax := emax) c lo k (reals (ys i)) (real_net (exact l) (xr i)) (drift (prec := prec) (emax := emax) c (exact l) (xr i) (e i)) in
  (forall i, (0 <= i < n)%Z -> loss_room (prec := prec) (emax := emax) c lo k (reals (ys i)) (real_net (exact l) (xr i)) (drift (prec := prec) (emax := emax) c (exact l) (xr i) (e i))) ->
  total_room (prec := prec) (emax := emax) n losses errors ->
  exists v m', chk_loss (layers l) lo idata odata m = Ok (v, m') /\ fin v /\
    Rabs (B2R v - rsum n losses / IZR n) <= mean_err (prec := prec) (emax := emax) n losses errors.
Proof.
  intros Ne Hn A Ho K0 L Hd N0 S X Sf Fy losses errors R1 R2. destruct (mean_loss_run m l n k idata odata xs ys lo Ne Hn A Ho Hd K0) as (m' & l' & E & _).
  eexists _, m'. split; [exact E|]. apply (mean_close (fun i => loss_val lo k (ys i) (net_out l (xs i)))); [exact N0| |exact R2].
  intros i Hi. destruct Hd as [_ Hd]. destruct (Hd i Hi) as (x & y & Ex & Ey & Sa & _). apply (loss_close lo k (ys i) (net_out l (xs i))); [exact L|exact K0|exact (Fy i Hi)| |].
  - exact (out_close m l k x (xs i) (xr i) (e i) Ne A Ho Sa S (X i Hi x Ex) (Sf i Hi)).
  - exact (R1 i Hi).
Qed.

(** ** accuracies with a range *)
(** No answer is so close to the range that rounding could move it to the other side. *)
Definition clear_range (r : R) (k : Z) (t p e : Z -> R) : Prop :=
  forall j, (0 <= j < k)%Z -> (Rabs (t j - p j) + e j) * (1 + u) < big /\ gap (prec := prec) (t j) (p j) (e j) < Rabs (Rabs (t j - p j) - r).
Lemma range_test (r t p : fl) (y e : R) : fin r -> fin t -> fin p -> Rabs (B2R p - y) <= e -> (Rabs (B2R t - y) + e) * (1 + u) < big -> gap (prec := prec) (B2R t) y e < Rabs (Rabs (B2R t - y) - B2R r) ->
  (ltb r (nabs (sub t p)) = negb (Rltb (Rabs (B2R t - y)) (B2R r))) /\ (ltb (nabs (sub t p)) r = Rltb (Rabs (B2R t - y)) (B2R r)) /\ Rabs (B2R t - y) <> B2R r.
Proof.
  intros Fr Ft Fp H B G. destruct (gap_step p t y e Fp Ft H B) as [_ [F Q]]. set (a := sub t p) in *. set (b := nabs a). assert (Fb : fin b) by (now apply fin_abs).
  assert (Qb : Rabs (B2R b - Rabs (B2R t - y)) <= gap (prec := prec) (B2R t) y e). { change (B2R b) with (B2R (Babs a)). rewrite B2R_Babs. eapply Rle_trans; [apply Rabs_triang_inv2|]. exact Q. }
  clearbody b. set (d := Rabs (B2R t - y)) in *. set (gg := gap (prec := prec) (B2R t) y e) in *. apply Rabs_le_inv in Qb. cbn [ltb NF Num_fl]. unfold Rltb.
  assert (C1 : Bltb r b = true <-> B2R r < B2R b) by (pose proof (val_ltb r b (fin_num _ Fr) (fin_num _ Fb)) as V; rewrite !fin_val in V by assumption; exact V).
  assert (C2 : Bltb b r = true <-> B2R b < B2R r) by (pose proof (val_ltb b r (fin_num _ Fb) (fin_num _ Fr)) as V; rewrite !fin_val in V by assumption; exact V).
  assert (D : (gg < d - B2R r) \/ (gg < B2R r - d)). { unfold Rabs in G. destruct (Rcase_abs (d - B2R r)); [right|left]; lra. }
  assert (G0 : 0 <= gg) by lra. destruct D as [D|D].
  - assert (K1 : B2R r < B2R b) by lra. apply C1 in K1. rewrite K1. destruct (Bltb b r); [exfalso; assert (B2R b < B2R r) by (now apply C2); lra|]. destruct Rlt_dec; [lra|]. repeat split; lra.
  - assert (K2 : B2R b < B2R r) by lra. apply C2 in K2. rewrite K2. destruct (Bltb r b); [exfalso; assert (B2R r < B2R b) by (now apply C1); lra|]. destruct Rlt_dec; [|lra]. repeat split; lra.
Qed.
Definition within_all (k : Z) (r : fl) (a b : Z -> fl) : bool := zfold k (fun j ok => if ok : bool then negb (ltb r (nabs (sub (a j) (b j)))) else false) true.
Lemma within_all_spec k r a b : (0 <= k)%Z -> within_all k r a b = true <-> forall j, (0 <= j < k)%Z -> ltb r (nabs (sub (a j) (b j))) = false.
Proof.
  intros Hk. unfold within_all. pattern k. match goal with |- ?Q k => refine (natlike_ind Q _ _ k Hk); clear k Hk end.
  - rewrite zfold_0. split; [lia|reflexivity].
  - intros k Hk IH. unfold Z.succ. rewrite zfold_S by lia. destruct (zfold k _ true).
    + destruct (ltb r (nabs (sub (a k) (b k)))) eqn:L; cbn [negb].
      * split; [discriminate|]. intros H. rewrite (H k ltac:(lia)) in L. discriminate.
      * split; [|reflexivity]. intros _ j Hj. destruct (Z.eq_dec j k) as [->|]; [exact L|]. apply IH; [reflexivity|lia].
    + split; [discriminate|]. intros H. apply IH. intros. apply H. lia.
Qed.
Lemma guide_full_run k r z y (m : mem fl) zv yv : t_size z = k -> holds m (t_data z) k zv -> holds m (t_data y) k yv ->
  guide_full z y r m = Ok (within_all k r zv yv, m).
Proof.
  intros Tz Hz Hy. unfold guide_full, within_all. rewrite Tz. apply (mfold_pure bool k _ (fun j ok => if ok : bool then negb (ltb r (nabs (sub (zv j) (yv j)))) else false)).
  intros i [|] Hi; [|reflexivity]. unfold bind. rewrite (load_ok _ _ _ _ (Hz i Hi)). rewrite (load_ok _ _ _ _ (Hy i Hi)). reflexivity.
Qed.
(** full(r): exactly the samples whose exact outputs are within the range *)
Theorem C133_full_accuracy (m : mem fl) (l : list (node fl)) n k idata odata (xs ys : Z -> Z -> fl) (xr e : Z -> Z -> R) (r : fl) :
  l <> [] -> (Z.of_nat (length l) < 2 ^ 64)%Z -> net_at m l -> has_outputs l k -> (0 <= k)%Z -> data_at m l n k idata odata xs ys -> Forall sound_layer l -> fin r ->
  (forall i, (0 <= i < n)%Z -> forall x, znth idata i = Some x -> inputs_near (t_size x) (xs i) (xr i) (e i)) ->
  (forall i, (0 <= i < n)%Z -> forall j, (0 <= j < k)%Z -> fin (ys i j)) ->
  (forall i, (0 <= i < n)%Z -> safe (prec := prec) (emax := emax) c (exact l) (xr i) (e i) /\
     clear_range (B2R r) k (reals (ys i)) (real_net (exact l) (xr i)) (drift (prec := prec) (emax := emax) c (exact l) (xr i) (e i))) ->
  exists (hits : list Z) m', NoDup hits /\
    (forall i, In i hits <-> (0 <= i < n)%Z /\ forall j, (0 <= j < k)%Z -> Rabs (reals (ys i) j - real_net (exact l) (xr i) j) <= B2R r) /\
    acc_full (layers l) idata odata r m = Ok (div (ofZ (Z.of_nat (length hits))) (ofZ n), m').
Proof.
  intros Ne Hn A Ho K0 Hd S Fr X Fy W. pose proof Hd as [Hl Hd'].
  destruct (predict_loop Z m l n k idata odata xs ys (fun z y count => let* b := guide_full z y r in ret (if b : bool then (count + 1)%Z else count))
    (fun t p c => if within_all k r t p then (c + 1)%Z else c) 0%Z Ne Hn A Ho Hd) as (m' & l' & E & _).
  { intros z y a mm zv yv Tz Hz Hy. unfold bind. rewrite (guide_full_run k r z y mm zv yv) by auto. reflexivity. }
  destruct (count_list (fun i => within_all k r (ys i) (net_out l (xs i)))%Z n 0 ltac:(lia)) as (hits & Nd & Hin & Ec). exists hits, m'. split; [exact Nd|]. split.
  - intros i. rewrite Hin. assert (Q : (0 <= i < n)%Z -> within_all k r (ys i) (net_out l (xs i)) = true <-> forall j, (0 <= j < k)%Z -> Rabs (reals (ys i) j - real_net (exact l) (xr i) j) <= B2R r); [|tauto].
    intros Hi. rewrite within_all_spec by exact K0. destruct (W i Hi) as [Sf Cr]. destruct (Hd' i Hi) as (x & y & Ex & Ey & Sa & _). pose proof (out_close m l k x (xs i) (xr i) (e i) Ne A Ho Sa S (X i Hi x Ex) Sf) as Nx.
    assert (T : forall j, (0 <= j < k)%Z -> ltb r (nabs (sub (ys i j) (net_out l (xs i) j))) = false <-> Rabs (reals (ys i) j - real_net (exact l) (xr i) j) <= B2R r).
    { intros j Hj. destruct (Nx j Hj) as [Fp Q]. destruct (Cr j Hj) as [B G]. destruct (range_test r (ys i j) _ _ _ Fr (Fy i Hi j Hj) Fp Q B G) as (-> & _ & N). unfold reals, Rltb. destruct Rlt_dec; cbn [negb]; split; intros; try discriminate; try lra; try reflexivity. }
    split; intros H j Hj; apply T; auto.
  - unfold acc_full. rewrite Hl. unfold bind at 1. rewrite E, Ec, Z.add_0_l. reflexivity.
Qed.
Definition near_count (k : Z) (r : fl) (a b : Z -> fl) : Z := zfold k (fun j c => if ltb (nabs (sub (a j) (b j))) r then (c + 1)%Z else c) 0%Z.
Lemma guide_global_run k r z y (m : mem fl) zv yv : t_size z = k -> holds m (t_data z) k zv -> holds m (t_data y) k yv ->
  guide_global z y r m = Ok (near_count k r zv yv, m).
Proof.
  intros Tz Hz Hy. unfold guide_global, near_count. rewrite Tz. apply (mfold_pure Z k _ (fun j c => if ltb (nabs (sub (zv j) (yv j))) r then (c + 1)%Z else c)).
  intros i cc Hi. unfold bind. rewrite (load_ok _ _ _ _ (Hz i Hi)). rewrite (load_ok _ _ _ _ (Hy i Hi)). reflexivity.
Qed.
(** global(r): exactly the outputs that are, computed exactly, less than [r] away *)
Theorem C133_global_accuracy (m : mem fl) (l : list (node fl)) n k idata odata (xs ys : Z -> Z -> fl) (xr e : Z -> Z -> R) (r : fl) :
  l <> [] -> (Z.of_nat (length l) < 2 ^ 64)%Z -> net_at m l -> has_outputs l k -> (0 <= k)%Z -> data_at m l n k idata odata xs ys -> (0 < n)%Z -> (n * k < 2 ^ 64)%Z -> Forall sound_layer l -> fin r ->
  (forall i, (0 <= i < n)%Z -> forall x, znth idata i = Some x -> inputs_near (t_size x) (xs i) (xr i) (e i)) ->
  (forall i, (0 <= i < n)%Z -> forall j, (0 <= j < k)%Z -> fin (ys i j)) ->
  (forall i, (0 <= i < n)%Z -> safe (prec := prec) (emax := emax) c (exact l) (xr i) (e i) /\
     clear_range (B2R r) k (reals (ys i)) (real_net (exact l) (xr i)) (drift (prec := prec) (emax := emax) c (exact l) (xr i) (e i))) ->
  exists (hits : list (Z * Z)) m', NoDup hits /\
    (forall i j, In (i, j) hits <-> ((0 <= i < n)%Z /\ (0 <= j < k)%Z) /\ Rabs (reals (ys i) j - real_net (exact l) (xr i) j) < B2R r) /\
    acc_global (layers l) idata odata r m = Ok (div (ofZ (Z.of_nat (length hits))) (ofZ (n * k)), m').
Proof.
  intros Ne Hn A Ho K0 Hd N0 Hnk S Fr X Fy W. pose proof Hd as [Hl Hd'].
  destruct (predict_loop Z m l n k idata odata xs ys (fun z y count => let* c := guide_global z y r in ret (count + c)%Z)
    (fun t p c => (c + near_count k r t p)%Z) 0%Z Ne Hn A Ho Hd) as (m' & l' & E & _).
  { intros z y a mm zv yv Tz Hz Hy. unfold bind. rewrite (guide_global_run k r z y mm zv yv) by auto. reflexivity. }
  destruct (share_of_count2 n k (fun i j => ltb (nabs (sub (ys i j) (net_out l (xs i) j))) r) (fun ij => Rabs (reals (ys (fst ij)) (snd ij) - real_net (exact l) (xr (fst ij)) (snd ij)) < B2R r) 1 ltac:(lia) K0) as (hits & Nd & Hin & Ec).
  { intros i j Hi Hj. cbn [fst snd]. destruct (W i Hi) as [Sf Cr]. destruct (Hd' i Hi) as (x & y & Ex & Ey & Sa & _). destruct (out_close m l k x (xs i) (xr i) (e i) Ne A Ho Sa S (X i Hi x Ex) Sf j Hj) as [Fp Q].
    destruct (Cr j Hj) as [B G]. destruct (range_test r (ys i j) _ _ _ Fr (Fy i Hi j Hj) Fp Q B G) as (_ & -> & _). unfold reals, Rltb. destruct Rlt_dec; split; intros; try discriminate; try lra; try reflexivity. }
  exists hits, m'. split; [exact Nd|]. split; [intros i j; rewrite Hin; reflexivity|].
  assert (Eh : zfold n (fun i c => (c + near_count k r (ys i) (net_out l (xs i)))%Z) 0%Z = Z.of_nat (length hits)).
  { apply eq_IZR. rewrite <- INR_IZR_INZ. unfold Rdiv in Ec. rewrite Rinv_1, !Rmult_1_r in Ec. exact Ec. }
  destruct (Hd' 0%Z ltac:(lia)) as (x0 & y0 & _ & Ey0 & _ & Ty0 & _).
  unfold acc_global. rewrite Hl. unfold bind at 1. rewrite E, Eh. unfold bind, nth_of. rewrite Ey0. cbn [ret]. rewrite Ty0, LiqueProofs2.u64_small by (split; [apply Z.mul_nonneg_nonneg; lia|exact Hnk]). reflexivity.
Qed.
End Check.

(** ** a correctly rounded logarithm *)
Theorem cr_log_accurate {prec emax : Z} {Hp : Prec_gt_0 prec} {He : Prec_lt_emax prec emax} (P24 : (24 <= prec)%Z) (EM : (5 * prec + 8 <= emax)%Z) :
  log_accurate (cr_lib (prec := prec) (emax := emax)) (2 * uro prec).
Proof.
  intros x F L. assert (LO : libm_ok (cr_lib (prec := prec) (emax := emax))) by (apply cr_lib_ok; lia). pose proof (m_log_fin _ LO x F L) as Fl.
  cbn [l_log cr_lib] in *. assert (E : rounded_log x = fl_of (ln (B2R x))).
  { destruct x as [s|s| |[] mm ee H]; try discriminate; try reflexivity; cbn in L; exfalso; try lra. }
  rewrite E in *. pose proof (fl_of_err _ Fl) as Q. pose proof (u_pos (prec := prec)). pose proof (Rabs_pos (ln (B2R x))). nra.
Qed.

Module Examples.
Import PropFloatNet.Examples.
#[local] Existing Instance PropFloatLayers.Examples.Hp53.
#[local] Existing Instance PropFloatLayers.Examples.He53.
#[local] Existing Instance PropFloatLayers.Examples.ND.
Notation c := (2 * uro 53).
Notation E := (@exact 53 1024 [d0]).
Notation dr := (drift (prec := 53) (emax := 1024) c E xr e0).
Notation yr := (real_net E xr).
Notation rsum := RealSpec.rsum.
Definition nd0 : node (fl 53 1024) := d0.
Lemma u53 : 0 < uro 53 <= / 1024.
Proof. split; [apply (u_pos (prec := 53))|]. unfold uro. change (/ 1024) with (bpow radix2 (-10)). apply bpow_le. lia. Qed.
Lemma eta1 : 0 < eta 53 1024 <= 1.
Proof. split; [apply eta_pos|]. unfold eta. change 1 with (bpow radix2 0). apply bpow_le. lia. Qed.
Lemma rn n j A : (0 <= n <= 3)%Z -> (0 <= j <= 2)%Z -> 0 <= A -> 0 <= roundings 53 1024 n j A <= A + 8.
Proof.
  intros Hn Hj HA. split.
  - apply Rle_trans with (roundings 53 1024 0 0 0); [unfold roundings; cbn; lra|]. apply roundings_mono; try lia; lra.
  - eapply Rle_trans; [apply (roundings_mono (prec := 53) (emax := 1024) n j A 3 2 A); try lia; lra|]. unfold roundings. change (Z.to_nat 3) with 3%nat. pose proof u53. pose proof eta1.
    assert (P3 : (1 + uro 53) ^ 3 <= 1 + / 256). { apply Rle_trans with ((1 + / 1024) ^ 3); [apply pow_incr; lra|]. cbn [pow]. lra. }
    assert (P1 : 1 <= (1 + uro 53) ^ 3) by (apply one_le_pow). set (p3 := (1 + uro 53) ^ 3) in *. clearbody p3. generalize dependent (eta 53 1024). intros t Et.
    assert ((p3 - 1) * A <= 1 * A) by (apply Rmult_le_compat_r; lra). assert (2 * t * p3 <= 2 * 1 * (1 + / 256)) by (apply Rmult_le_compat; lra). lra.
Qed.
Lemma big60 x : x <= 1000000000000000 -> x < big 1024.
Proof. intros H. apply Rle_lt_trans with (1 := H). apply Rlt_trans with (bpow radix2 60); [cbn; lra|]. apply bpow_lt. lia. Qed.
Lemma yv_val j : (0 <= j < 2)%Z -> fin (yv j) /\ reals yv j = if (j =? 0)%Z then 2 else 1.
Proof.
  intros Hj. unfold reals, yv. assert (j = 0 \/ j = 1)%Z as [-> | ->] by lia; cbn [Z.eqb];
    [change (fin (pw 1) /\ B2R (pw 1) = 2); destruct (PropFloatLayers.Examples.pw_ok 1 ltac:(lia)) as [F ->]|change (fin (pw 0) /\ B2R (pw 0) = 1); destruct (PropFloatLayers.Examples.pw_ok 0 ltac:(lia)) as [F ->]]; split; auto.
Qed.
Lemma values j : (0 <= j < 2)%Z -> 257 <= Rabs (reals yv j - yr j) <= 8192 /\ 0 <= reals yv j <= 2 /\ 258 <= yr j <= 8194 /\ 0 <= dr j <= 100.
Proof.
  intros Hj. pose proof (drift0 c j Hj) as D. rewrite (proj2 (yv_val j Hj)). rewrite (real0 j Hj). destruct (j =? 0)%Z; (rewrite Rabs_left by lra); repeat split; try lra; apply D.
Qed.
Lemma gap_bound t y e : Rabs (t - y) <= 8192 -> 0 <= e <= 100 -> 0 <= gap (prec := 53) t y e <= 109.
Proof.
  intros H He. unfold gap. pose proof u53. pose proof (Rabs_pos (t - y)). assert (0 <= uro 53 * (Rabs (t - y) + e) <= / 1024 * 8292) by (split; [apply Rmult_le_pos; lra|apply Rmult_le_compat; lra]). lra.
Qed.
Lemma prod_bound a ea b eb : 0 <= ea -> 0 <= eb -> prod_size a ea b eb <= 100000000000 -> product_room (prec := 53) (emax := 1024) a ea b eb /\ 0 <= prod_err (prec := 53) (emax := 1024) a ea b eb <= 3 * prod_size a ea b eb + 8.
Proof.
  intros Ha Hb. unfold product_room, prod_err. cbv zeta. set (A := prod_size a ea b eb). intros HA. pose proof (Rabs_pos a). pose proof (Rabs_pos b). assert (A0 : 0 <= A) by (unfold A, prod_size; apply Rmult_le_pos; lra).
  destruct (rn 1 1 A ltac:(lia) ltac:(lia) A0) as [R1 R2]. split; [apply big60; lra|]. assert (P1 : 0 <= ea * (Rabs b + eb) <= A) by (split; [apply Rmult_le_pos; lra|unfold A, prod_size; apply Rmult_le_compat_r; lra]).
  assert (P2 : 0 <= Rabs a * eb <= A) by (split; [apply Rmult_le_pos; lra|unfold A, prod_size; apply Rmult_le_compat; lra]). lra.
Qed.
Lemma term0 lo j : (0 <= j < 2)%Z -> lo = MSE \/ lo = MAE \/ lo = CCE ->
  term_room (prec := 53) (emax := 1024) c lo (reals yv j) (yr j) (dr j) /\ 0 <= term_err (prec := 53) (emax := 1024) c lo (reals yv j) (yr j) (dr j) <= 250000000 /\ Rabs (loss_term lo (reals yv j) (yr j)) <= 250000000.
Proof.
  intros Hj L. destruct (values j Hj) as (V1 & V2 & V3 & V4). pose proof (gap_bound (reals yv j) (yr j) (dr j) ltac:(lra) V4) as G. pose proof u53 as U.
  assert (T : (Rabs (reals yv j - yr j) + dr j) * (1 + uro 53) < big 1024). { apply big60. apply Rle_trans with (10000 * 2); [apply Rmult_le_compat; lra|lra]. }
  destruct L as [->|[->| ->]]; cbn [term_room term_err loss_term].
  - assert (P : prod_size (reals yv j - yr j) (gap (prec := 53) (reals yv j) (yr j) (dr j)) (reals yv j - yr j) (gap (prec := 53) (reals yv j) (yr j) (dr j)) <= 8301 * 8301) by (unfold prod_size; apply Rmult_le_compat; lra).
    destruct (prod_bound (reals yv j - yr j) (gap (prec := 53) (reals yv j) (yr j) (dr j)) (reals yv j - yr j) (gap (prec := 53) (reals yv j) (yr j) (dr j)) ltac:(lra) ltac:(lra) ltac:(lra)) as [P1 P2].
    split; [split; [exact T|exact P1]|]. split; [lra|]. rewrite <- RPow_abs. apply Rle_trans with (8192 ^ 2); [apply pow_incr; lra|lra].
  - split; [exact T|]. split; [lra|]. rewrite Rabs_Rabsolu. lra.
  - set (y := yr j) in *. set (t := reals yv j) in *. set (e := dr j) in *. pose proof eta1 as Et. assert (E9 : 0 < eps9 <= 1) by (unfold eps9; lra). assert (A : 0 <= arg_err (prec := 53) y e <= 109).
    { unfold arg_err. rewrite (Rabs_pos_eq y) by lra. assert (0 <= uro 53 * (y + e + 3 * eps9) <= / 1024 * 8297) by (split; [apply Rmult_le_pos; lra|apply Rmult_le_compat; lra]). lra. }
    assert (Lq : 0 <= Rabs (ln (y + eps9)) <= 8195). { split; [apply Rabs_pos|]. assert (0 <= ln (y + eps9)) by (rewrite <- ln_1; left; apply ln_increasing; lra). rewrite Rabs_pos_eq by assumption. pose proof (exp_1_le (ln (y + eps9))) as Q. rewrite exp_ln in Q by lra. lra. }
    assert (Le : 0 <= log_err (prec := 53) (emax := 1024) c y e <= 8198).
    { unfold log_err. cbv zeta. set (a := arg_err y e) in *. set (q := y + eps9) in *. assert (Hq : 258 < q) by (unfold q; lra). assert (D : 0 <= a / (q - a) <= 1).
      { split; [apply Rmult_le_pos; [lra|left; apply Rinv_0_lt_compat; lra]|]. apply Rmult_le_reg_r with (q - a); [lra|]. unfold Rdiv. rewrite Rmult_assoc, Rinv_l by lra. lra. }
      set (d := a / (q - a)) in *. assert (0 <= c * (Rabs (ln q) + d) <= 1 * (8195 + 1)) by (split; [apply Rmult_le_pos; lra|apply Rmult_le_compat; lra]). lra. }
    assert (T2 : Rabs t <= 2) by (rewrite Rabs_pos_eq; lra). assert (P : prod_size t 0 (ln (y + eps9)) (log_err (prec := 53) (emax := 1024) c y e) <= 2 * 16393) by (unfold prod_size; pose proof (Rabs_pos t); apply Rmult_le_compat; lra).
    destruct (prod_bound t 0 (ln (y + eps9)) (log_err (prec := 53) (emax := 1024) c y e) ltac:(lra) ltac:(lra) ltac:(lra)) as [P1 P2].
    split; [split; [lra|]; split; [apply big60; lra|exact P1]|]. split; [lra|]. rewrite Rabs_mult. apply Rle_trans with (2 * 8195); [apply Rmult_le_compat; auto using Rabs_pos; lra|lra].
Qed.
Lemma rsum2 (f : Z -> R) : rsum 2 f = f 0%Z + f 1%Z.
Proof. unfold RealSpec.rsum. change 2%Z with (0 + 1 + 1)%Z. rewrite !zsum_S, zsum_0 by lia. cbn [add zero Num_R]. rewrite Rplus_0_l. reflexivity. Qed.
Lemma room0 lo : lo = MSE \/ lo = MAE \/ lo = CCE -> loss_room (prec := 53) (emax := 1024) c lo 2 (reals yv) yr dr /\
  0 <= loss_error (prec := 53) (emax := 1024) c lo 2 (reals yv) yr dr <= 10000000000 /\ Rabs (std_loss lo 2 (reals yv) yr) <= 1000000000.
Proof.
  intros L. unfold loss_room, loss_error. cbv zeta. set (g := fun i => loss_term lo (reals yv i) (yr i)). set (d := fun i => term_err c lo (reals yv i) (yr i) (dr i)).
  assert (T : forall j, (0 <= j < 2)%Z -> 0 <= d j <= 250000000 /\ Rabs (g j) <= 250000000) by (intros j Hj; destruct (term0 lo j Hj L) as (_ & T1 & T2); split; [exact T1|exact T2]).
  destruct (T 0%Z ltac:(lia)) as [D0 G0]. destruct (T 1%Z ltac:(lia)) as [D1 G1]. assert (Ts : 0 <= total_size 2 g d <= 1000000000) by (unfold total_size; rewrite rsum2; pose proof (Rabs_pos (g 0%Z)); pose proof (Rabs_pos (g 1%Z)); lra).
  destruct (rn 2 0 (total_size 2 g d) ltac:(lia) ltac:(lia) ltac:(lra)) as [R1 R2]. assert (Te : 0 <= total_err (prec := 53) (emax := 1024) 2 g d <= 1600000000) by (unfold total_err; rewrite rsum2; lra).
  assert (Tr : total_room (prec := 53) (emax := 1024) 2 g d) by (unfold total_room; apply big60; lra). assert (Sg : Rabs (rsum 2 g) <= 500000000) by (rewrite rsum2; eapply Rle_trans; [apply Rabs_triang|]; lra).
  split; [|split].
  - split; [intros i Hi; now apply term0|]. split; [exact Tr|]. destruct lo; try exact I. apply prod_bound; try lra. unfold prod_size. rewrite (Rabs_pos_eq (/ 2)) by lra. apply Rle_trans with (2100000000 * (/ 2 + 0)); [apply Rmult_le_compat_r; lra|lra].
  - destruct L as [->|[->| ->]]; cbv iota; try lra. assert (P : prod_size (rsum 2 g) (total_err (prec := 53) (emax := 1024) 2 g d) (/ 2) 0 <= 1050000000) by (unfold prod_size; rewrite (Rabs_pos_eq (/ 2)) by lra; apply Rle_trans with (2100000000 * (/ 2 + 0)); [apply Rmult_le_compat_r; lra|lra]).
    assert (Q : prod_size (rsum 2 g) (total_err (prec := 53) (emax := 1024) 2 g d) (/ 2) 0 <= 1050000000) by exact P. unfold prod_err. cbv zeta. set (A := prod_size _ _ _ _) in *. assert (A0 : 0 <= A) by (unfold A, prod_size; apply Rmult_le_pos; pose proof (Rabs_pos (rsum 2 g)); rewrite ?(Rabs_pos_eq (/ 2)); lra).
    destruct (rn 1 1 A ltac:(lia) ltac:(lia) A0). rewrite (Rabs_pos_eq (/ 2)) by lra. lra.
  - destruct L as [->|[->| ->]]; cbn [std_loss].
    + rewrite Rabs_mult, (Rabs_pos_eq (/ 2)) by lra. change (rsum 2 (fun i => (reals yv i - yr i) ^ 2)) with (rsum 2 g). lra.
    + change (rsum 2 (fun i => Rabs (reals yv i - yr i))) with (rsum 2 g). lra.
    + rewrite Rabs_Ropp. change (rsum 2 (fun i => reals yv i * ln (yr i + eps9))) with (rsum 2 g). lra.
Qed.
Lemma ends0 : has_outputs [nd0] 2. Proof. exists (PDense (Functions.Scalar ReLU) 1 2). split; reflexivity. Qed.
Lemma target0 : holds m0 (t_data (tv 10 2)) 2 yv. Proof. apply (holds_list m0 10 [pw 1; pw 0] o). reflexivity. Qed.
Lemma lib_log : log_accurate PropFloatLayers.Examples.lib c. Proof. apply cr_log_accurate; lia. Qed.
Lemma c_pos : 0 <= c. Proof. pose proof u53. lra. Qed.
Example C133_sample_loss_applies lo : lo = MSE \/ lo = MAE \/ lo = CCE -> exists v m', chk_loss1 [LFC L1] lo (tv 9 1) (tv 10 2) m0 = Ok (v, m') /\ fin v /\
  Rabs (B2R v - std_loss lo 2 (reals yv) yr) <= loss_error (prec := 53) (emax := 1024) c lo 2 (reals yv) yr dr.
Proof.
  intros L. apply (C133_sample_loss (prec := 53) (emax := 1024) ltac:(lia) ltac:(lia) lib PropFloatLayers.Examples.lib_ok c lib_log c_pos ltac:(lia) PropFloatNet.Examples.lib_acc m0 [nd0] 2 lo (tv 9 1) (tv 10 2) xv yv xr e0);
    [discriminate|cbn; lia|exact net0_at|exact ends0|lia|exact L|exact sample0|reflexivity|exact target0|apply outside_net; lia|exact sound0|intros i _; apply in0|apply safe0|intros j Hj; now apply yv_val|now apply room0].
Qed.
Lemma data0 : data_at m0 [nd0] 1 2 [tv 9 1] [tv 10 2] (fun _ => xv) (fun _ => yv).
Proof.
  split; [reflexivity|]. intros i Hi. replace i with 0%Z by lia. exists (tv 9 1), (tv 10 2). do 2 (split; [reflexivity|]). split; [exact sample0|]. split; [reflexivity|]. split; [exact target0|apply outside_net; lia].
Qed.
Example C133_mean_loss_applies : exists v m', chk_loss [LFC L1] MSE [tv 9 1] [tv 10 2] m0 = Ok (v, m') /\ fin v /\
  Rabs (B2R v - rsum 1 (fun _ => std_loss MSE 2 (reals yv) yr) / 1) <= mean_err (prec := 53) (emax := 1024) 1 (fun _ => std_loss MSE 2 (reals yv) yr) (fun _ => loss_error (prec := 53) (emax := 1024) c MSE 2 (reals yv) yr dr).
Proof.
  destruct (room0 MSE ltac:(auto)) as (R1 & R2 & R3).
  apply (C133_mean_loss (prec := 53) (emax := 1024) ltac:(lia) ltac:(lia) lib PropFloatLayers.Examples.lib_ok c lib_log c_pos ltac:(lia) PropFloatNet.Examples.lib_acc m0 [nd0] 1 2 MSE [tv 9 1] [tv 10 2] (fun _ => xv) (fun _ => yv) (fun _ => xr) (fun _ => e0));
    [discriminate|cbn; lia|exact net0_at|exact ends0|lia|auto|exact data0|lia|exact sound0|intros i _ x _ j _; apply in0|intros; apply safe0|intros i _ j Hj; now apply yv_val|intros; exact R1|].
  unfold total_room. change nd0 with d0. set (A := total_size 1 _ _). assert (HA : 0 <= A <= 20000000000).
  { unfold A, total_size, RealSpec.rsum. change 1%Z with (0 + 1)%Z. rewrite zsum_S, zsum_0 by lia. cbn [add zero Num_R]. rewrite Rplus_0_l. pose proof (Rabs_pos (std_loss MSE 2 (reals yv) yr)). lra. }
  destruct (rn 1 0 A ltac:(lia) ltac:(lia) ltac:(lra)). apply big60. lra.
Qed.
(** range 1024: the second output (off by 257) is near enough, the first (off by 8192) is not *)
Lemma range0 : fin (pw 10) /\ clear_range (prec := 53) (emax := 1024) (B2R (pw 10)) 2 (reals yv) yr dr.
Proof.
  destruct (PropFloatLayers.Examples.pw_ok 10 ltac:(lia)) as [F V]. split; [exact F|]. intros j Hj. rewrite V. change (bpow radix2 10) with 1024. destruct (values j Hj) as (V1 & V2 & V3 & V4). pose proof (gap_bound (reals yv j) (yr j) (dr j) ltac:(lra) V4) as G.
  pose proof u53. split; [apply big60; apply Rle_trans with (10000 * 2); [apply Rmult_le_compat; lra|lra]|]. apply Rle_lt_trans with 109; [lra|]. rewrite (proj2 (yv_val j Hj)), (real0 j Hj). destruct (j =? 0)%Z; [rewrite (Rabs_left (2 - 8194)) by lra; rewrite Rabs_pos_eq; lra|rewrite (Rabs_left (1 - 258)) by lra; rewrite Rabs_left; lra].
Qed.
Example C133_accuracies_apply : (exists hits m', ~ In 0%Z hits /\ acc_full [LFC L1] [tv 9 1] [tv 10 2] (pw 10) m0 = Ok (div (ofZ (Z.of_nat (length hits))) (ofZ 1), m')) /\
  exists hits m', In (0, 1)%Z hits /\ ~ In (0, 0)%Z hits /\ acc_global [LFC L1] [tv 9 1] [tv 10 2] (pw 10) m0 = Ok (div (ofZ (Z.of_nat (length hits))) (ofZ 2), m').
Proof.
  destruct range0 as [Fr Cr]. destruct (PropFloatLayers.Examples.pw_ok 10 ltac:(lia)) as [_ V]. change (bpow radix2 10) with 1024 in V. pose proof (fun j Hj => proj2 (yv_val j Hj)) as Y. split.
  - destruct (C133_full_accuracy (prec := 53) (emax := 1024) ltac:(lia) ltac:(lia) lib PropFloatLayers.Examples.lib_ok c ltac:(lia) PropFloatNet.Examples.lib_acc m0 [nd0] 1 2 [tv 9 1] [tv 10 2] (fun _ => xv) (fun _ => yv) (fun _ => xr) (fun _ => e0) (pw 10)
      ltac:(discriminate) ltac:(cbn; lia) net0_at ends0 ltac:(lia) data0 sound0 Fr (fun i _ x _ j _ => in0 j) (fun i _ j Hj => proj1 (yv_val j Hj)) (fun i _ => conj (safe0 c) Cr)) as (hits & m' & Nd & Hin & Ex).
    exists hits, m'. split; [|exact Ex]. intros Q. apply Hin in Q as [_ Q]. specialize (Q 0%Z ltac:(lia)). rewrite V, Y in Q by lia. change [nd0] with [d0] in Q. rewrite real0 in Q by lia. cbn [Z.eqb] in Q. rewrite Rabs_left in Q; lra.
  - destruct (C133_global_accuracy (prec := 53) (emax := 1024) ltac:(lia) ltac:(lia) lib PropFloatLayers.Examples.lib_ok c ltac:(lia) PropFloatNet.Examples.lib_acc m0 [nd0] 1 2 [tv 9 1] [tv 10 2] (fun _ => xv) (fun _ => yv) (fun _ => xr) (fun _ => e0) (pw 10)
      ltac:(discriminate) ltac:(cbn; lia) net0_at ends0 ltac:(lia) data0 ltac:(lia) ltac:(lia) sound0 Fr (fun i _ x _ j _ => in0 j) (fun i _ j Hj => proj1 (yv_val j Hj)) (fun i _ => conj (safe0 c) Cr)) as (hits & m' & Nd & Hin & Ex).
    exists hits, m'. change [nd0] with [d0] in Hin. split; [|split; [|exact Ex]].
    + apply Hin. split; [lia|]. rewrite V, Y, real0 by lia. cbn [Z.eqb]. rewrite Rabs_left; lra.
    + intros Q. apply Hin in Q as [_ Q]. rewrite V, Y, real0 in Q by lia. cbn [Z.eqb] in Q. rewrite Rabs_left in Q; lra.
Qed.
End Examples.

Print Assumptions C133_sample_loss.
Print Assumptions C133_mean_loss.
Print Assumptions C133_full_accuracy.
Print Assumptions C133_global_accuracy.
Print Assumptions cr_log_accurate.

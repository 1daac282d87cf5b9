(** * Rounding in the statistics of Tool.hpp (accumulate, mean, std) *)
From Coq Require Import ZArith QArith Reals Lra Lia Psatz Bool.
From Flocq Require Import Core BinarySingleNaN Plus_error Relative.
From Verif Require Import Mem Scalar LinearProofs Float FloatSpec FloatLemmas RSum FloatError FunctionSpec FunctionProofs Cells FloatAcc.
Local Open Scope R_scope.

Section Stat.
Context {prec emax : Z} {Hp : Prec_gt_0 prec} {He : Prec_lt_emax prec emax}.
Context (lib : libm prec emax).
Notation fl := (fl prec emax).
Notation rnd := (rnd (prec := prec) (emax := emax)).
Notation fmt := (fmt (prec := prec) (emax := emax)).
Notation clamp := (clamp (emax := emax)).
Notation u := (uro prec).
Notation eta := (eta prec emax).
Notation err := (err (prec := prec)).
Notation appR := (appR (prec := prec) (emax := emax)).
Notation slack := (slack (prec := prec) (emax := emax)).
#[local] Instance NF : Num fl := Num_fl prec emax lib.
Implicit Types x y : fl.

(** ** Approximations *)
(** multiply an approximation by 1 + d *)
Lemma appR_scale K M r E A d : (0 <= K)%Z -> (0 <= M)%Z -> Rabs d <= u -> appR K M r E A -> appR (K + 1) M (r * (1 + d)) E A.
Proof.
  intros HK HM D H. pose proof (appR_A _ _ _ _ _ H) as HA. destruct H as [H1 H2]. split; [exact H1|].
  replace (r * (1 + d) - E) with ((r - E) * (1 + d) + E * d) by ring. pose proof (u_pos (prec := prec)). pose proof (slack_pos (prec := prec) (emax := emax) K M A HM HA) as S0.
  assert (D1 : Rabs (1 + d) <= 1 + u) by (apply Rle_trans with (1 := Rabs_triang _ _); rewrite Rabs_R1; lra).
  apply Rle_trans with (slack K M A * (1 + u) + A * u).
  - eapply Rle_trans; [apply Rabs_triang|]. rewrite !Rabs_mult. apply Rplus_le_compat; apply Rmult_le_compat; auto using Rabs_pos.
  - unfold FloatAcc.slack. rewrite (err_S (prec := prec) K) by lia. apply Req_le. ring.
Qed.
Lemma appR_plus K M r E A M' p P B : (0 <= K)%Z -> (0 <= M)%Z -> (0 <= M')%Z -> appR K M r E A -> appR K M' p P B -> appR K (M + M') (r + p) (E + P) (A + B).
Proof.
  intros HK HM HM' [H1 H2] [H3 H4]. split; [eapply Rle_trans; [apply Rabs_triang|]; lra|]. replace (r + p - (E + P)) with ((r - E) + (p - P)) by ring.
  eapply Rle_trans; [apply Rabs_triang|]. apply Rle_trans with (slack K M A + slack K M' B); [lra|]. unfold FloatAcc.slack. rewrite plus_IZR. apply Req_le. ring.
Qed.
Lemma appR_sum K M r E A M' p P B : (0 <= K)%Z -> (0 <= M)%Z -> (0 <= M')%Z -> fmt r -> fmt p -> appR K M r E A -> appR K M' p P B -> appR (K + 1) (M + M') (rnd (r + p)) (E + P) (A + B).
Proof.
  intros HK HM HM' Fr Fp H1 H2. destruct (rnd_plus_err (prec := prec) (emax := emax) r p Fr Fp) as (d & D1 & D2). rewrite D2. apply appR_scale; [exact HK|lia|exact D1|]. now apply appR_plus.
Qed.
Lemma appR_rnd K M r E A : (0 <= K)%Z -> (0 <= M)%Z -> appR K M r E A -> appR (K + 1) (M + 1) (rnd r) E A.
Proof.
  intros HK HM H. destruct (rnd_err (prec := prec) (emax := emax) r) as (d & e & D1 & D2 & ->). pose proof (appR_scale _ _ _ _ _ d HK HM D1 H) as [H1 H2]. split; [exact H1|].
  replace (r * (1 + d) + e - E) with ((r * (1 + d) - E) + e) by ring. eapply Rle_trans; [apply Rabs_triang|]. apply Rle_trans with (slack (K + 1) M A + eta); [lra|].
  unfold FloatAcc.slack. rewrite plus_IZR. pose proof (err_pos (prec := prec) (K + 1)). pose proof (eta_pos (prec := prec) (emax := emax)). nra.
Qed.
(** divide by an integer, exactly *)
Lemma appR_div K M r E A (k : R) : (0 <= K)%Z -> (0 <= M)%Z -> 1 <= k -> appR K M r E A -> appR K M (r / k) (E / k) (A / k).
Proof.
  intros HK HM Hk H. pose proof (appR_A _ _ _ _ _ H) as HA. destruct H as [H1 H2]. assert (I0 : 0 < / k) by (apply Rinv_0_lt_compat; lra). assert (I1 : / k <= 1) by (rewrite <- Rinv_1; apply Rinv_le_contravar; lra).
  unfold Rdiv. split; [rewrite Rabs_mult, (Rabs_pos_eq (/ k)) by lra; apply Rmult_le_compat_r; lra|].
  rewrite <- Rmult_minus_distr_r, Rabs_mult, (Rabs_pos_eq (/ k)) by lra. apply Rle_trans with (slack K M A * / k); [apply Rmult_le_compat_r; lra|].
  unfold FloatAcc.slack. pose proof (err_pos (prec := prec) K). pose proof (eta_pos (prec := prec) (emax := emax)). assert (0 <= IZR M) by (apply IZR_le; exact HM).
  assert (0 <= IZR M * eta * (1 + err K)) by (apply Rmult_le_pos; [apply Rmult_le_pos; lra|lra]). set (q := IZR M * eta * (1 + err K)) in *. nra.
Qed.

(** ** Finite results have finite operands: division by a nonzero integer, square root *)
Lemma ofZ_small k : (1 <= k <= 2 ^ prec)%Z -> fin (fl_ofZ prec emax k) /\ B2R (fl_ofZ prec emax k) = IZR k.
Proof.
  intros Hk. apply ofZ_exact; [apply fmt_Z; lia|]. rewrite <- abs_IZR. apply Rle_lt_trans with (IZR (2 ^ prec)); [apply IZR_le; lia|].
  change 2%Z with (radix_val radix2). rewrite IZR_Zpower by (pose proof (prec_pos (prec := prec)); lia). apply bpow_lt. apply (prec_emax (prec := prec)).
Qed.
Lemma div_fin_inv x y : fin y -> B2R y <> 0 -> fin (Bdiv mode_NE x y) -> fin x /\ B2R (Bdiv mode_NE x y) = rnd (B2R x / B2R y).
Proof.
  intros Fy Ny F. assert (Q : fin x). { unfold fin in *. destruct x as [?|?| |? ? ? ?], y as [?|?| |? ? ? ?]; try discriminate F; try discriminate Fy; reflexivity. }
  split; [exact Q|]. destruct (val_div x y Q Fy Ny). now apply fin_rnd.
Qed.
Lemma sqrt_fin_inv x : fin (Bsqrt mode_NE x) -> fin x /\ 0 <= B2R x.
Proof.
  intros F. unfold fin in *. destruct x as [[]|[]| |[] ? ? ?]; try discriminate F; try (split; [reflexivity|cbn; lra]).
  split; [reflexivity|]. cbn. apply F2R_ge_0. cbn. lia.
Qed.
Lemma fin_of_val (z : fl) r : num z -> val z = clamp (rnd r) -> Rabs (rnd r) < big emax -> fin z /\ B2R z = rnd r.
Proof.
  intros N V L. assert (F : fin z). { apply fin_iff. split; [exact N|]. rewrite V. apply Rabs_def2 in L. rewrite clamp_id by lra. apply Rabs_def1; lra. }
  split; [exact F|]. now apply fin_rnd.
Qed.

(** the square root of a number is rounded without underflow *)
Lemma sqrt_err x : fin x -> 0 <= B2R x -> exists d, Rabs d <= u /\ B2R (Bsqrt mode_NE x) = sqrt (B2R x) * (1 + d).
Proof.
  intros F H. destruct (val_sqrt x F H) as (_ & _ & E). rewrite E. destruct (Req_dec (B2R x) 0) as [Z|NZ].
  - exists 0. rewrite Z, sqrt_0, rnd_0, Rabs_R0. split; [left; apply u_pos|ring].
  - apply rnd_err_normal. rewrite Rabs_pos_eq by apply sqrt_pos.
    assert (L : bpow radix2 (3 - emax - prec) <= B2R x).
    { pose proof (generic_format_B2R prec emax x) as G. replace (B2R x) with (Rabs (B2R x)) by (apply Rabs_pos_eq; exact H).
      assert (M : bpow radix2 (cexp radix2 (SpecFloat.fexp prec emax) (B2R x)) <= Rabs (B2R x)).
      { unfold generic_format in G. set (mm := Ztrunc (scaled_mantissa radix2 (SpecFloat.fexp prec emax) (B2R x))) in *. set (c := cexp radix2 (SpecFloat.fexp prec emax) (B2R x)) in *.
        rewrite G. unfold F2R. cbn [Fnum Fexp]. rewrite Rabs_mult, (Rabs_pos_eq (bpow radix2 c)) by apply bpow_ge_0.
        assert (1 <= Rabs (IZR mm)). { rewrite <- abs_IZR. apply IZR_le. assert (mm <> 0%Z); [|lia]. intros E0. apply NZ. rewrite G, E0. unfold F2R. cbn. ring. }
        pose proof (bpow_gt_0 radix2 c). nra. }
      apply Rle_trans with (2 := M). apply bpow_le. unfold cexp, SpecFloat.fexp. unfold SpecFloat.emin. lia. }
    apply Rsqr_incr_0_var; [|apply sqrt_pos]. unfold Rsqr. rewrite sqrt_sqrt by exact H. rewrite <- bpow_plus. apply Rle_trans with (2 := L). apply bpow_le.
    pose proof (prec_emax (prec := prec) (emax := emax)). lia.
Qed.

(** ** Sums *)
Lemma sum_app (f : Z -> fl) c n : (0 <= n)%Z ->
  (fin (zsum_from c n f) -> (fin c /\ forall i, (0 <= i < n)%Z -> fin (f i)) /\
     appR n 0 (B2R (zsum_from c n f)) (B2R c + rsum n (fun i => B2R (f i))) (Rabs (B2R c) + rsum n (fun i => Rabs (B2R (f i))))) /\
  (fin c -> (forall i, (0 <= i < n)%Z -> fin (f i)) -> Rabs (B2R c) + rsum n (fun i => Rabs (B2R (f i))) + slack n 0 (Rabs (B2R c) + rsum n (fun i => Rabs (B2R (f i)))) < big emax ->
     fin (zsum_from c n f)).
Proof.
  intros Hn. pattern n. match goal with |- ?Q n => refine (natlike_ind Q _ _ n Hn); clear n Hn end.
  - change (zsum_from c 0 f) with c. rewrite !zsum_0. cbn [zero Num_R]. rewrite !Rplus_0_r. split; [|auto]. intros F. split; [split; [exact F|intros; lia]|]. now apply appR_exact.
  - intros n Hn [IH1 IH2]. unfold Z.succ in *. rewrite zsum_from_S, !zsum_S by exact Hn. cbn [add NF Num_fl Num_R]. rewrite <- !Rplus_assoc. split.
    + intros F. destruct (add_fin_inv _ _ F) as (F1 & F2 & E). rewrite E. destruct (IH1 F1) as [[Fc Ff] A]. split; [split; [exact Fc|]; intros i Hi; destruct (Z.eq_dec i n) as [->|]; [exact F2|apply Ff; lia]|].
      apply appR_add; auto using fmt_B2R; lia.
    + intros Fc Ff L. set (A := Rabs (B2R c) + rsum n (fun i => Rabs (B2R (f i)))) in *. assert (A0 : 0 <= A). { apply Rplus_le_le_0_compat; [apply Rabs_pos|apply rsum_nonneg; [exact Hn|intros; apply Rabs_pos]]. }
      pose proof (Rabs_pos (B2R (f n))) as P0. assert (F1 : fin (zsum_from c n f)).
      { apply IH2; [exact Fc|intros; apply Ff; lia|]. apply Rle_lt_trans with (2 := L). apply Rplus_le_compat; [lra|]. apply slack_mono; lia || lra. }
      destruct (IH1 F1) as [_ Q]. pose proof (Ff n ltac:(lia)) as F2. destruct (val_add _ _ F1 F2) as [N V]. apply (fin_of_val _ _ N V).
      pose proof (appR_add n 0 _ _ _ (B2R (f n)) Hn ltac:(lia) (fmt_B2R _) (fmt_B2R (f n)) Q) as Q'. apply appR_bound in Q'. unfold A in *. lra.
Qed.
Lemma sum_accurate (f : Z -> fl) c n : (0 <= n)%Z ->
  accurate (zsum_from c n f) n 0 (B2R c + rsum n (fun i => B2R (f i))) (Rabs (B2R c) + rsum n (fun i => Rabs (B2R (f i)))) (fin c /\ forall i, (0 <= i < n)%Z -> fin (f i)).
Proof.
  intros Hn. destruct (sum_app f c n Hn) as [H1 H2]. split; rewrite <- slack_roundings.
  - intros F. destruct (H1 F) as [O [_ Q]]. auto.
  - intros [O1 O2] L. now apply H2.
Qed.

(** ** The mean *)
Lemma mean_accurate (f : Z -> fl) n : (0 < n <= 2 ^ prec)%Z -> let r := div (zsum n f) (ofZ n) in
  let S := rsum n (fun i => B2R (f i)) in let A := rsum n (fun i => Rabs (B2R (f i))) in
  (fin r -> (forall i, (0 <= i < n)%Z -> fin (f i)) /\ Rabs (B2R r - S / IZR n) <= roundings prec emax (n + 1) 1 (A / IZR n)) /\
  ((forall i, (0 <= i < n)%Z -> fin (f i)) -> A + roundings prec emax n 0 A < big emax -> fin r).
Proof.
  intros Hn r S A. assert (Hn0 : (0 <= n)%Z) by lia. destruct (ofZ_small n ltac:(lia)) as [FN EN]. assert (N1 : 1 <= IZR n) by (apply IZR_le; lia).
  assert (NZ : B2R (fl_ofZ prec emax n) <> 0) by lra. destruct (sum_app f zero n Hn0) as [H1 H2]. rewrite zsum_from_zero in H1, H2. change (B2R (@zero _ NF)) with 0 in H1, H2. rewrite Rabs_R0, !Rplus_0_l in H1, H2.
  fold S in H1. fold A in H1, H2. replace (0 + A) with A in H1 by (symmetry; apply Rplus_0_l). unfold r. cbn [div ofZ NF Num_fl]. split.
  - intros F. destruct (div_fin_inv _ _ FN NZ F) as [Fs E]. destruct (H1 Fs) as [[_ Ff] Q]. split; [exact Ff|]. rewrite E, EN. rewrite <- slack_roundings.
    apply (appR_rnd n 0); [lia|lia|]. apply appR_div; auto; lia.
  - intros Ff L. rewrite <- slack_roundings in L. assert (Fs : fin (zsum n f)) by (apply H2; auto; reflexivity). destruct (H1 Fs) as [_ Q]. pose proof (appR_bound _ _ _ _ _ Q) as B.
    destruct (val_div _ _ Fs FN NZ) as [N V]. apply (fin_of_val _ _ N V). rewrite EN.
    assert (X : Rabs (B2R (zsum n f) / IZR n) <= Rabs (B2R (zsum n f))). { unfold Rdiv. rewrite Rabs_mult, (Rabs_pos_eq (/ IZR n)) by (left; apply Rinv_0_lt_compat; lra). assert (/ IZR n <= 1) by (rewrite <- Rinv_1; apply Rinv_le_contravar; lra). pose proof (Rabs_pos (B2R (zsum n f))). nra. }
    set (q := B2R (zsum n f) / IZR n) in *. set (s := B2R (zsum n f)) in *. assert (Y : Rabs (rnd q) <= Rabs s). { apply Rabs_le. apply Rabs_le_inv in X. apply rnd_between; [apply fmt_opp| |exact X]; destruct (Rle_dec 0 s); [rewrite Rabs_pos_eq by lra|rewrite Rabs_left by lra; apply fmt_opp|rewrite Rabs_pos_eq by lra|rewrite Rabs_left by lra; apply fmt_opp]; apply fmt_B2R. }
    pose proof (fin_bound _ Fs) as FB. rewrite (fin_val _ Fs) in FB. fold s in FB. lra.
Qed.

(** ** The standard deviation *)
Lemma square_app x c : fin (Bmult mode_NE (Bminus mode_NE x c) (Bminus mode_NE x c)) ->
  fin x /\ fin c /\ let t := Bmult mode_NE (Bminus mode_NE x c) (Bminus mode_NE x c) in appR 3 1 (B2R t) ((B2R x - B2R c) * (B2R x - B2R c)) ((B2R x - B2R c) * (B2R x - B2R c)) /\ 0 <= B2R t.
Proof.
  intros F. destruct (mul_fin_inv _ _ F) as (F1 & _ & E). destruct (sub_fin_inv _ _ F1) as (Fx & Fc & E1). split; [exact Fx|]. split; [exact Fc|]. cbv zeta. rewrite E, E1.
  split.
  - destruct (rnd_plus_err (prec := prec) (emax := emax) (B2R x) (- B2R c) (fmt_B2R x) (fmt_opp _ (fmt_B2R c))) as (d & D1 & D2). change (B2R x + - B2R c) with (B2R x - B2R c) in D2. rewrite D2. set (w := B2R x - B2R c) in *.
    apply (appR_rnd 2 0); [lia|lia|]. replace (w * (1 + d) * (w * (1 + d))) with (w * w * (1 + d) * (1 + d)) by ring. apply (appR_scale 1); [lia|lia|exact D1|]. apply (appR_scale 0); [lia|lia|exact D1|].
    replace (w * w) with (Rabs (w * w)) at 3 by (apply Rabs_pos_eq, Rle_0_sqr). apply appR_exact. lia.
  - apply Rle_trans with (rnd 0); [rewrite rnd_0; lra|]. apply rnd_le, Rle_0_sqr.
Qed.
Lemma square_safe x c : fin x -> fin c -> let w := (B2R x - B2R c) * (B2R x - B2R c) in w + slack 3 1 w < big emax -> fin (Bmult mode_NE (Bminus mode_NE x c) (Bminus mode_NE x c)).
Proof.
  intros Fx Fc w L. destruct (val_sub x c Fx Fc) as [N V]. set (z := B2R x - B2R c) in *. assert (W0 : 0 <= w) by apply Rle_0_sqr.
  destruct (rnd_plus_err (prec := prec) (emax := emax) (B2R x) (- B2R c) (fmt_B2R x) (fmt_opp _ (fmt_B2R c))) as (d & D1 & D2). change (B2R x + - B2R c) with z in D2.
  pose proof (u_pos (prec := prec)) as U0. pose proof (eta_pos (prec := prec) (emax := emax)) as E0. pose proof (err_pos (prec := prec) 3) as E3.
  assert (LD : Rabs (rnd z) < big emax).
  { destruct (Rle_dec (Rabs z) 1) as [Hz|Hz].
    - apply Rle_lt_trans with 1; [|exact (big_gt_1 (prec := prec) (emax := emax))]. apply Rabs_le. apply rnd_between; [apply fmt_opp, fmt_1|apply fmt_1|]. now apply Rabs_le_inv.
    - rewrite D2, Rabs_mult. assert (Rabs (1 + d) <= 1 + u) by (apply Rle_trans with (1 := Rabs_triang _ _); rewrite Rabs_R1; lra).
      assert (ZW : Rabs z <= w). { unfold w. rewrite <- (Rabs_pos_eq (z * z)) by apply Rle_0_sqr. rewrite Rabs_mult. pose proof (Rabs_pos z). nra. }
      apply Rle_lt_trans with (w * (1 + u)); [apply Rmult_le_compat; auto using Rabs_pos|]. apply Rle_lt_trans with (2 := L). unfold FloatAcc.slack.
      assert (u <= err 3). { apply Rle_trans with (err 1); [unfold FloatError.err; change (Z.to_nat 1) with 1%nat; rewrite pow_1; lra|apply err_mono; lia]. }
      assert (0 <= IZR 1 * eta * (1 + err 3)) by (apply Rmult_le_pos; lra). nra. }
  destruct (fin_of_val _ _ N V LD) as [FD ED]. destruct (val_mul _ _ FD FD) as [N' V']. apply (fin_of_val _ _ N' V'). rewrite ED, D2.
  assert (Q : appR 3 1 (rnd (z * (1 + d) * (z * (1 + d)))) w w).
  { apply (appR_rnd 2 0); [lia|lia|]. replace (z * (1 + d) * (z * (1 + d))) with (w * (1 + d) * (1 + d)) by (unfold w; ring). apply (appR_scale 1); [lia|lia|exact D1|]. apply (appR_scale 0); [lia|lia|exact D1|].
    rewrite <- (Rabs_pos_eq w) at 3 by exact W0. apply appR_exact. lia. }
  apply appR_bound in Q. lra.
Qed.
Lemma squares_app (f : Z -> fl) c n : (0 <= n)%Z -> let s := zsum n (fun i => mul (sub (f i) c) (sub (f i) c)) in let C := rsum n (fun i => (B2R (f i) - B2R c) * (B2R (f i) - B2R c)) in
  (fin s -> (forall i, (0 <= i < n)%Z -> fin (f i) /\ fin c) /\ appR (n + 3) n (B2R s) C C /\ 0 <= B2R s) /\
  ((forall i, (0 <= i < n)%Z -> fin (f i) /\ fin c) -> C + slack (n + 3) n C < big emax -> fin s).
Proof.
  intros Hn. cbv zeta. pattern n. match goal with |- ?Q n => refine (natlike_ind Q _ _ n Hn); clear n Hn end.
  - rewrite !zsum_0. cbn [zero Num_R NF Num_fl B2R]. split; [|intros; reflexivity]. intros _. split; [intros; lia|]. split; [|lra]. rewrite <- Rabs_R0 at 3. apply appR_exact. lia.
  - intros n Hn [IH1 IH2]. unfold Z.succ in *. rewrite !zsum_S by exact Hn. cbn [add mul sub NF Num_fl Num_R] in *. set (t := Bmult mode_NE (Bminus mode_NE (f n) c) (Bminus mode_NE (f n) c)) in *. set (s := zsum n _) in *.
    set (C := rsum n _) in *. set (w := (B2R (f n) - B2R c) * (B2R (f n) - B2R c)). replace (n + 1 + 3)%Z with (n + 3 + 1)%Z by lia. split.
    + intros F. destruct (add_fin_inv _ _ F) as (F1 & F2 & E). rewrite E. destruct (IH1 F1) as (Ff & A & P). destruct (square_app (f n) c F2) as (Fx & Fc & A2 & P2). fold t in A2, P2. fold w in A2.
      split; [intros i Hi; destruct (Z.eq_dec i n) as [->|]; [auto|apply Ff; lia]|]. split; [apply appR_sum; [lia|lia|lia|apply fmt_B2R|apply fmt_B2R|exact A|apply appR_mono with (3 := A2); lia]|].
      apply Rle_trans with (rnd 0); [rewrite rnd_0; lra|]. apply rnd_le. lra.
    + intros Ff L. assert (C0 : 0 <= C) by (apply rsum_nonneg; [exact Hn|intros; apply Rle_0_sqr]). assert (W0 : 0 <= w) by apply Rle_0_sqr. destruct (Ff n ltac:(lia)) as [Fx Fc].
      assert (F1 : fin s). { apply IH2; [intros; apply Ff; lia|]. apply Rle_lt_trans with (2 := L). apply Rplus_le_compat; [lra|]. apply slack_mono; lia || lra. }
      assert (F2 : fin t). { apply square_safe; [exact Fx|exact Fc|]. fold w. apply Rle_lt_trans with (2 := L). apply Rplus_le_compat; [lra|]. apply slack_mono; lia || lra. }
      destruct (IH1 F1) as (_ & A & P). destruct (square_app (f n) c F2) as (_ & _ & A2 & P2). fold t in A2, P2. fold w in A2.
      destruct (val_add _ _ F1 F2) as [N V]. apply (fin_of_val _ _ N V). assert (Q : appR (n + 3 + 1) (n + 1) (rnd (B2R s + B2R t)) (C + w) (C + w)).
      { apply appR_sum; [lia|lia|lia|apply fmt_B2R|apply fmt_B2R|exact A|apply appR_mono with (3 := A2); lia]. }
      apply appR_bound in Q. lra.
Qed.
(** deviations from [c]: those from the mean, plus the distance of [c] to the mean *)
Lemma shift_rsum n (g : Z -> R) (c : R) : (0 < n)%Z ->
  rsum n (fun i => (g i - c) * (g i - c)) = rsum n (fun i => (g i - rsum n g / IZR n) ^ 2) + IZR n * (c - rsum n g / IZR n) ^ 2.
Proof.
  intros Hn. assert (N : IZR n <> 0) by (apply not_0_IZR; lia). assert (X : forall (c : R) k, (0 <= k)%Z -> rsum k (fun i => (g i - c) * (g i - c)) = rsum k (fun i => g i * g i) - 2 * c * rsum k g + IZR k * (c * c)).
  { intros c0 k Hk. pattern k. match goal with |- ?Q k => refine (natlike_ind Q _ _ k Hk); clear k Hk end; [rewrite !zsum_0; cbn; ring|]. intros k Hk IH. unfold Z.succ. rewrite !zsum_S by exact Hk. cbn [add Num_R]. rewrite IH, plus_IZR. ring. }
  rewrite (X c) by lia. rewrite (zsum_ext n (fun i => (g i - rsum n g / IZR n) ^ 2) (fun i => (g i - rsum n g / IZR n) * (g i - rsum n g / IZR n))) by (intros; ring).
  rewrite (X (rsum n g / IZR n)) by lia. field. exact N.
Qed.
End Stat.

(** * Rounding errors of sums and dot products *)
From Coq Require Import ZArith QArith Reals Lra Lia Psatz Bool.
From Flocq Require Import Core BinarySingleNaN Plus_error Relative.
From Verif Require Import Mem Scalar LinearProofs Float FloatSpec FloatLemmas RSum.
Local Open Scope R_scope.
Notation rsum n f := (zsum (T := R) (H := Num_R) n f).

Section Err.
Context {prec emax : Z} {Hp : Prec_gt_0 prec} {He : Prec_lt_emax prec emax}.
Context (lib : libm prec emax).
Notation fl := (fl prec emax).
Notation rnd := (rnd (prec := prec) (emax := emax)).
Notation fmt := (fmt (prec := prec) (emax := emax)).
Notation clamp := (clamp (emax := emax)).
Notation u := (uro prec).
Notation eta := (eta prec emax).
#[local] Instance NF : Num fl := Num_fl prec emax lib.
#[local] Existing Instance fexp_ok.
Implicit Types x y : fl.

Lemma PE' : (0 < prec < emax)%Z. Proof. split; [exact Hp|exact He]. Qed.
Lemma u_pos : 0 < u. Proof. apply bpow_gt_0. Qed.
Lemma u_half : u <= / 2. Proof. unfold uro. change (/ 2) with (bpow radix2 (-1)). apply bpow_le. pose proof PE'. lia. Qed.
Lemma eta_pos : 0 < eta. Proof. apply bpow_gt_0. Qed.
Lemma u_eq : / 2 * bpow radix2 (- prec + 1) = u.
Proof. unfold uro. rewrite bpow_plus. change (bpow radix2 1) with 2. lra. Qed.
Lemma eta_eq : / 2 * bpow radix2 (3 - emax - prec) = eta.
Proof. unfold FloatSpec.eta. change (3 - emax - prec - 1)%Z with (3 - emax - prec + - (1))%Z. rewrite bpow_plus. change (bpow radix2 (- (1))) with (/ 2). lra. Qed.

Lemma rnd_err r : exists d e, Rabs d <= u /\ Rabs e <= eta /\ rnd r = r * (1 + d) + e.
Proof. destruct (error_N_FLT radix2 (3 - emax - prec) prec Hp (fun z => negb (Z.even z)) r) as (d & e & A & B & _ & C). rewrite u_eq in A. rewrite eta_eq in B. eauto. Qed.
Lemma rnd_plus_err r s : fmt r -> fmt s -> exists d, Rabs d <= u /\ rnd (r + s) = (r + s) * (1 + d).
Proof.
  intros F1 F2. destruct (FLT_plus_error_N_ex radix2 (3 - emax - prec) prec (fun z => negb (Z.even z)) r s F1 F2) as (d & A & B). exists d. split; [|exact B].
  apply Rle_trans with (1 := A). unfold u_ro. rewrite u_eq. pose proof u_pos. apply Rmult_le_reg_r with (1 + u); [lra|]. unfold Rdiv. rewrite Rmult_assoc, Rinv_l by lra. nra.
Qed.
Lemma rnd_err_normal r : bpow radix2 (2 - emax) <= Rabs r -> exists d, Rabs d <= u /\ rnd r = r * (1 + d).
Proof.
  intros H. destruct (relative_error_N_FLT_ex radix2 (3 - emax - prec) prec Hp (fun z => negb (Z.even z)) r) as (d & A & B).
  { replace (3 - emax - prec + prec - 1)%Z with (2 - emax)%Z by lia. exact H. }
  rewrite u_eq in A. eauto.
Qed.

(** a finite result has finite operands and is the rounded exact one *)
Lemma fin_rnd (z : fl) r : num z -> val z = clamp (rnd r) -> fin z -> B2R z = rnd r.
Proof.
  intros N E F. rewrite fin_val in E by exact F. pose proof (big_lt z F) as B. rewrite E in B |- *. pose proof (big_pos (emax := emax)).
  destruct (Rle_dec (big emax) (rnd r)) as [H1|H1]; [rewrite clamp_up in B by lra; lra|].
  destruct (Rle_dec (rnd r) (- big emax)) as [H2|H2]; [rewrite clamp_down in B by lra; lra|]. apply clamp_id. lra.
Qed.
Lemma add_fin_inv x y : fin (Bplus mode_NE x y) -> fin x /\ fin y /\ B2R (Bplus mode_NE x y) = rnd (B2R x + B2R y).
Proof.
  intros F. assert (Q : fin x /\ fin y). { unfold fin in *. destruct x as [[]|[]| |[] ? ? ?], y as [[]|[]| |[] ? ? ?]; try discriminate F; split; reflexivity. }
  destruct Q as [Fx Fy]. split; [exact Fx|]. split; [exact Fy|]. destruct (val_add x y Fx Fy). now apply fin_rnd.
Qed.
Lemma sub_fin_inv x y : fin (Bminus mode_NE x y) -> fin x /\ fin y /\ B2R (Bminus mode_NE x y) = rnd (B2R x - B2R y).
Proof.
  intros F. assert (Q : fin x /\ fin y). { unfold fin in *. destruct x as [[]|[]| |[] ? ? ?], y as [[]|[]| |[] ? ? ?]; try discriminate F; split; reflexivity. }
  destruct Q as [Fx Fy]. split; [exact Fx|]. split; [exact Fy|]. destruct (val_sub x y Fx Fy). now apply fin_rnd.
Qed.
Lemma mul_fin_inv x y : fin (Bmult mode_NE x y) -> fin x /\ fin y /\ B2R (Bmult mode_NE x y) = rnd (B2R x * B2R y).
Proof.
  intros F. assert (Q : fin x /\ fin y). { unfold fin in *. destruct x as [?|?| |? ? ? ?], y as [?|?| |? ? ? ?]; try discriminate F; split; reflexivity. }
  destruct Q as [Fx Fy]. split; [exact Fx|]. split; [exact Fy|]. destruct (val_mul x y Fx Fy). now apply fin_rnd.
Qed.

(** ** dot products *)
Lemma Rabs_step (E A p S d d' e : R) (k : R) :
  0 <= A -> Rabs S <= A -> Rabs d <= u -> Rabs d' <= u -> Rabs e <= eta -> 0 <= k -> Rabs E <= k ->
  Rabs ((S + E + (p * (1 + d) + e)) * (1 + d') - (S + p)) <= k * (1 + u) + u * A + Rabs p * ((1 + u) * (1 + u) - 1) + eta * (1 + u).
Proof.
  intros HA HS Hd Hd' He' Hk HE. pose proof u_pos. pose proof eta_pos.
  replace (_ - (S + p)) with (E * (1 + d') + (S * d' + (p * (d + d' + d * d') + e * (1 + d')))) by ring.
  assert (D1 : Rabs (1 + d') <= 1 + u). { apply Rle_trans with (1 := Rabs_triang _ _). rewrite Rabs_R1. lra. }
  eapply Rle_trans; [apply Rabs_triang|]. apply Rle_trans with (k * (1 + u) + (u * A + (Rabs p * ((1 + u) * (1 + u) - 1) + eta * (1 + u)))); [|lra].
  apply Rplus_le_compat. { rewrite Rabs_mult. apply Rmult_le_compat; auto using Rabs_pos. }
  eapply Rle_trans; [apply Rabs_triang|]. apply Rplus_le_compat. { rewrite Rabs_mult, Rmult_comm. apply Rmult_le_compat; auto using Rabs_pos. }
  eapply Rle_trans; [apply Rabs_triang|]. apply Rplus_le_compat.
  - rewrite Rabs_mult. apply Rmult_le_compat_l; [apply Rabs_pos|]. eapply Rle_trans; [apply Rabs_triang|]. replace ((1 + u) * (1 + u) - 1) with (u + u + u * u) by ring.
    apply Rplus_le_compat. { eapply Rle_trans; [apply Rabs_triang|]. lra. } rewrite Rabs_mult. apply Rmult_le_compat; auto using Rabs_pos.
  - rewrite Rabs_mult. apply Rmult_le_compat; auto using Rabs_pos.
Qed.
Lemma rsum_abs_le n (f : Z -> R) : (0 <= n)%Z -> Rabs (rsum n f) <= rsum n (fun i => Rabs (f i)).
Proof.
  intros Hn. revert n Hn. apply natlike_ind.
  - rewrite !zsum_0. cbn. rewrite Rabs_R0. lra.
  - intros n Hn IH. unfold Z.succ. rewrite !zsum_S by exact Hn. cbn [add Num_R]. eapply Rle_trans; [apply Rabs_triang|]. lra.
Qed.
Lemma one_le_pow n : 1 <= (1 + u) ^ n. Proof. apply pow_R1_Rle. pose proof u_pos. lra. Qed.
Lemma rsum_nonneg n (f : Z -> R) : (0 <= n)%Z -> (forall i, (0 <= i < n)%Z -> 0 <= f i) -> 0 <= rsum n f.
Proof.
  intros Hn. revert n Hn. apply (natlike_ind (fun n => (forall i, (0 <= i < n)%Z -> 0 <= f i) -> 0 <= rsum n f)).
  - intros _. rewrite zsum_0. cbn. lra.
  - intros n Hn IH H. unfold Z.succ. rewrite zsum_S by exact Hn. cbn [add Num_R]. assert (0 <= f n) by (apply H; lia). assert (0 <= rsum n f) by (apply IH; intros; apply H; lia). lra.
Qed.
(** the accumulated dot product: if the result is finite then so are all terms, and the error is the classical one *)
Definition err (n : Z) : R := (1 + u) ^ (Z.to_nat n) - 1.
Lemma err_S n : (0 <= n)%Z -> err (n + 1) = (1 + u) * (1 + err n) - 1.
Proof. intros H. unfold err. replace (Z.to_nat (n + 1)) with (S (Z.to_nat n)) by lia. cbn [pow]. ring. Qed.
Lemma err_pos n : 0 <= err n. Proof. unfold err. pose proof (one_le_pow (Z.to_nat n)). lra. Qed.
Lemma err_mono n k : (0 <= n <= k)%Z -> err n <= err k.
Proof. intros H. unfold err. assert ((1 + u) ^ Z.to_nat n <= (1 + u) ^ Z.to_nat k); [|lra]. apply Rle_pow; [pose proof u_pos; lra|lia]. Qed.
Lemma dot_error (a b : Z -> fl) n : (0 <= n)%Z -> fin (zsum n (fun i => mul (a i) (b i))) ->
  (forall i, (0 <= i < n)%Z -> fin (a i) /\ fin (b i)) /\
  Rabs (B2R (zsum n (fun i => mul (a i) (b i))) - rsum n (fun i => B2R (a i) * B2R (b i))) <=
    err (n + 1) * rsum n (fun i => Rabs (B2R (a i) * B2R (b i))) + IZR n * eta * (1 + err n).
Proof.
  intros Hn. pattern n. match goal with |- ?Q n => refine (natlike_ind Q _ _ n Hn); clear n Hn end.
  - intros _. split; [intros; lia|]. rewrite !zsum_0. cbn [zero NF Num_R Num_fl B2R]. rewrite Rminus_0_r, Rabs_R0. lra.
  - intros n Hn IH F. unfold Z.succ in *. rewrite zsum_S in F |- * by exact Hn. rewrite !zsum_S by exact Hn. cbn [add mul Num_R NF Num_fl] in *.
    destruct (add_fin_inv _ _ F) as (F1 & F2 & E). destruct (IH F1) as [I1 I2]. destruct (mul_fin_inv _ _ F2) as (F3 & F4 & E2). split.
    { intros i Hi. destruct (Z.eq_dec i n) as [->|]; [auto|]. apply I1. lia. }
    rewrite E. set (s := zsum n _) in *. set (S := zsum n (fun i => B2R (a i) * B2R (b i))) in *. set (A := zsum n (fun i => Rabs _)) in *. set (p := B2R (a n) * B2R (b n)) in *.
    destruct (rnd_plus_err (B2R s) (B2R (Bmult mode_NE (a n) (b n))) (fmt_B2R _) (fmt_B2R _)) as (d' & D1 & D2). rewrite D2, E2. fold p.
    destruct (rnd_err p) as (d & e & D3 & D4 & D5). rewrite D5. replace (B2R s) with (S + (B2R s - S)) by ring.
    assert (HS : Rabs S <= A) by (now apply rsum_abs_le). assert (HA : 0 <= A) by (apply Rle_trans with (2 := HS), Rabs_pos).
    pose proof u_pos. pose proof eta_pos. pose proof (err_pos n). pose proof (err_pos (n + 1)). assert (Hn' : 0 <= IZR n) by (apply IZR_le; exact Hn).
    eapply Rle_trans; [apply (Rabs_step _ A p S d d' e (err (n + 1) * A + IZR n * eta * (1 + err n))); auto|].
    { apply Rplus_le_le_0_compat; [apply Rmult_le_pos; auto|]. apply Rmult_le_pos; [apply Rmult_le_pos; lra|lra]. }
    rewrite plus_IZR. rewrite (err_S (n + 1)) by lia. assert (G : err (n + 1) = (1 + u) * (1 + err n) - 1) by (apply err_S; exact Hn). pose proof (Rabs_pos p) as HP.
    assert (T1 : Rabs p * ((1 + u) * (1 + u) - 1) <= Rabs p * ((1 + u) * (1 + err (n + 1)) - 1)).
    { apply Rmult_le_compat_l; [exact HP|]. rewrite G. assert (0 <= u * err n) by (apply Rmult_le_pos; lra). nra. }
    assert (T2 : eta * (1 + u) <= eta * (1 + err (n + 1))) by (apply Rmult_le_compat_l; [lra|]; rewrite G; nra).
    replace (IZR n * eta * (1 + err n) * (1 + u)) with (IZR n * eta * (1 + err (n + 1))) by (rewrite G; ring).
    assert (T3 : (err (n + 1) * A + IZR n * eta * (1 + err n)) * (1 + u) = (err (n + 1) * (1 + u)) * A + IZR n * eta * (1 + err (n + 1))) by (rewrite G; ring).
    rewrite T3. nra.
Qed.

(** ** sums of numbers in [0, 1] *)
Lemma saturate : rnd (bpow radix2 (prec + 1) + 1) <= bpow radix2 (prec + 1).
Proof.
  pose proof PE'. assert (Fb : fmt (bpow radix2 (prec + 1))) by (apply fmt_bpow; lia). apply round_N_le_midp; [typeclasses eauto|exact Fb|].
  rewrite succ_eq_pos by apply bpow_ge_0. rewrite ulp_bpow. rewrite fexp_flt. unfold FLT_exp. rewrite Z.max_l by lia. replace (prec + 1 + 1 - prec)%Z with 2%Z by lia. change (bpow radix2 2) with 4. lra.
Qed.
Lemma unit_sum (f : Z -> fl) n : (0 <= n)%Z -> (prec + 2 <= emax)%Z -> (forall i, (0 <= i < n)%Z -> within (f i) 0 1) ->
  fin (zsum n f) /\ 0 <= B2R (zsum n f) <= bpow radix2 (prec + 1) /\ (forall i, (0 <= i < n)%Z -> B2R (f i) <= B2R (zsum n f)) /\
  (1 - u) ^ (Z.to_nat n) * rsum n (fun i => B2R (f i)) <= B2R (zsum n f) <= (1 + u) ^ (Z.to_nat n) * rsum n (fun i => B2R (f i)).
Proof.
  intros Hn PM. pattern n. match goal with |- ?Q n => refine (natlike_ind Q _ _ n Hn); clear n Hn end.
  - intros _. rewrite !zsum_0. cbn [zero NF Num_R Num_fl B2R]. split; [reflexivity|]. pose proof (bpow_ge_0 radix2 (prec + 1)). split; [lra|]. split; [intros; lia|lra].
  - intros n Hn IH H. destruct IH as (F & B & M & L); [intros; apply H; lia|]. pose proof PE' as PE. unfold Z.succ in *. rewrite !zsum_S by exact Hn. cbn [add NF Num_R Num_fl].
    set (s := zsum n f) in *. set (S := zsum n (fun i => B2R (f i))) in *. pose proof (H n ltac:(lia)) as W.
    assert (Ff : fin (f n)) by (apply (within_fin _ _ _ W); pose proof (big_gt_1 (prec := prec) (emax := emax)); lra). destruct W as [_ W]. rewrite fin_val in W by exact Ff.
    destruct (val_add s (f n) F Ff) as [N E]. assert (Lb : bpow radix2 (prec + 1) < big emax) by (apply bpow_lt; lia).
    assert (R1 : 0 <= rnd (B2R s + B2R (f n)) <= bpow radix2 (prec + 1)).
    { split; [rewrite <- (rnd_0 (prec := prec) (emax := emax)); apply rnd_le; lra|]. apply Rle_trans with (2 := saturate). apply rnd_le. lra. }
    rewrite clamp_id in E by (pose proof (big_pos (emax := emax)); lra). assert (Fs : fin (Bplus mode_NE s (f n))) by (apply fin_iff; split; [exact N|]; rewrite E, Rabs_pos_eq; lra).
    rewrite fin_val in E by exact Fs. rewrite E. split; [exact Fs|]. split; [exact R1|]. split.
    { intros i Hi. destruct (Z.eq_dec i n) as [->|].
      - rewrite <- (rnd_id (B2R (f n)) (fmt_B2R _)) at 1. apply rnd_le. lra.
      - apply Rle_trans with (B2R s); [apply M; lia|]. rewrite <- (rnd_id (B2R s) (fmt_B2R _)) at 1. apply rnd_le. lra. }
    destruct (rnd_plus_err (B2R s) (B2R (f n)) (fmt_B2R _) (fmt_B2R _)) as (d & D1 & D2). rewrite D2. apply Rabs_le_inv in D1. replace (Z.to_nat (n + 1)) with (Datatypes.S (Z.to_nat n)) by lia. cbn [pow].
    pose proof u_pos. pose proof u_half. pose proof (one_le_pow (Z.to_nat n)) as P1. assert (P2 : 0 <= (1 - u) ^ Z.to_nat n <= 1). { split; [apply pow_le; lra|]. pose proof (pow_incr (1 - u) 1 (Z.to_nat n) ltac:(lra)) as Q. rewrite pow1 in Q. exact Q. }
    assert (Q1 : (1 - u) ^ Z.to_nat n * (S + B2R (f n)) <= B2R s + B2R (f n)) by nra.
    assert (Q2 : B2R s + B2R (f n) <= (1 + u) ^ Z.to_nat n * (S + B2R (f n))) by nra.
    split.
    + apply Rle_trans with ((1 - u) * (B2R s + B2R (f n))); [rewrite Rmult_assoc; apply Rmult_le_compat_l; lra|]. nra.
    + apply Rle_trans with ((1 + u) * (B2R s + B2R (f n))); [nra|]. rewrite Rmult_assoc. apply Rmult_le_compat_l; lra.
Qed.
End Err.

(** * Properties C96, C97: SoftMax on floating-point numbers *)
From Coq Require Import ZArith QArith Reals Lra Lia.
From Flocq Require Import Core BinarySingleNaN.
From Verif Require Import Mem Scalar Functions FunctionSpec MemSpec MemLemmas LiqueProofs LinearProofs FunctionProofs Float FloatSpec FloatLemmas FloatAct FloatLib FloatError.
Local Open Scope R_scope.

Section Softmax.
Context {prec emax : Z} {Hp : Prec_gt_0 prec} {He : Prec_lt_emax prec emax} (PM : (prec + 3 <= emax)%Z).
Context (lib : libm prec emax) (LO : libm_ok lib).
Notation fl := (fl prec emax).
Notation rnd := (rnd (prec := prec) (emax := emax)).
Notation fmt := (fmt (prec := prec) (emax := emax)).
Notation clamp := (clamp (emax := emax)).
Notation u := (uro prec).
Notation eta := (eta prec emax).
#[local] Instance NF : Num fl := Num_fl prec emax lib.

(** ** the scan for the maximum *)
Lemma vmax_ok (x : Z -> fl) n : (0 < n)%Z -> (forall i, (0 <= i < n)%Z -> fin (x i)) ->
  (exists j, (0 <= j < n)%Z /\ vmax n x = x j) /\ forall i, (0 <= i < n)%Z -> B2R (x i) <= B2R (vmax n x).
Proof.
  intros Hn F. unfold vmax, zfold. assert (G : forall k : nat, (Z.of_nat k <= n - 1)%Z ->
    let M := gfold k (fun i max => if ltb max (x (i + 1)%Z) then x (i + 1)%Z else max) (x 0%Z) in
    (exists j, (0 <= j <= Z.of_nat k)%Z /\ M = x j) /\ forall i, (0 <= i <= Z.of_nat k)%Z -> B2R (x i) <= B2R M).
  { induction k; intros Hk.
    - cbn. split; [exists 0%Z; split; [lia|reflexivity]|]. intros i Hi. replace i with 0%Z by lia. lra.
    - destruct IHk as [(j & Hj & Ej) H]; [lia|]. cbn [gfold]. set (M := gfold k _ _) in *. cbv zeta. cbn [ltb NF Num_fl].
      assert (FM : fin M) by (rewrite Ej; apply F; lia). assert (Fk : fin (x (Z.of_nat k + 1)%Z)) by (apply F; lia).
      destruct (Bltb M (x (Z.of_nat k + 1)%Z)) eqn:L.
      + apply val_ltb in L; auto using fin_num. rewrite !fin_val in L by auto. split; [exists (Z.of_nat k + 1)%Z; split; [lia|reflexivity]|].
        intros i Hi. destruct (Z.eq_dec i (Z.of_nat k + 1)) as [->|]; [lra|]. pose proof (H i ltac:(lia)). lra.
      + apply val_ltb_false in L; auto using fin_num. rewrite !fin_val in L by auto. split; [exists j; split; [lia|exact Ej]|].
        intros i Hi. destruct (Z.eq_dec i (Z.of_nat k + 1)) as [->|]; [lra|]. apply H. lia. }
  destruct (G (Z.to_nat (n - 1)) ltac:(lia)) as [(j & Hj & Ej) H]. split; [exists j; split; [lia|exact Ej]|]. intros i Hi. apply H. lia.
Qed.

(** ** the values *)
Lemma exps_ok (x : Z -> fl) n : (0 < n)%Z -> (forall i, (0 <= i < n)%Z -> fin (x i)) ->
  let e i := l_exp lib (Bminus mode_NE (x i) (vmax n x)) in
  (forall i, (0 <= i < n)%Z -> within (e i) 0 1) /\ exists j, (0 <= j < n)%Z /\ vmax n x = x j /\ B2R (e j) = 1.
Proof.
  intros Hn F e. destruct (vmax_ok x n Hn F) as [(j & Hj & Ej) H]. assert (FM : fin (vmax n x)) by (rewrite Ej; now apply F). pose proof (big_pos (emax := emax)) as BP. split.
  - intros i Hi. destruct (val_sub _ _ (F i Hi) FM) as [N E]. assert (L : val (Bminus mode_NE (x i) (vmax n x)) <= 0).
    { rewrite E. replace 0 with (clamp (rnd 0)). - apply clamp_le, rnd_le. specialize (H i Hi). lra. - rewrite rnd_0. apply clamp_id. lra. }
    unfold e. split; [now apply (m_exp_num lib LO)|]. split; [now apply (m_exp_pos lib LO)|now apply (m_exp_le_1 lib LO)].
  - exists j. split; [exact Hj|]. split; [exact Ej|]. unfold e. rewrite Ej. destruct (val_sub _ _ (F j Hj) (F j Hj)) as [N E]. rewrite Rminus_diag_eq, rnd_0, clamp_id in E by (auto; lra).
    assert (Fz : fin (Bminus mode_NE (x j) (x j))) by (apply fin_iff; split; [exact N|rewrite E, Rabs_R0; exact BP]). rewrite fin_val in E by exact Fz. now apply (m_exp_0 lib LO).
Qed.
Lemma unit_fin' (x : fl) : within x 0 1 -> fin x. Proof. apply unit_fin. Qed.
Lemma recip (s : fl) : fin s -> 1 <= B2R s <= bpow radix2 (prec + 1) ->
  fin (Bdiv mode_NE Bone s) /\ bpow radix2 (- (prec + 1)) <= B2R (Bdiv mode_NE Bone s) <= 1 /\ exists d, Rabs d <= u /\ B2R (Bdiv mode_NE Bone s) = / B2R s * (1 + d).
Proof.
  intros F [H1 H2]. pose proof (fin_one (prec := prec) (emax := emax)) as F1. pose proof (val_one (prec := prec) (emax := emax)) as V1. pose proof (PE' (prec := prec) (emax := emax)) as PE.
  assert (I : bpow radix2 (- (prec + 1)) <= / B2R s <= 1). { rewrite bpow_opp. split; [apply Rinv_le_contravar; lra|]. rewrite <- Rinv_1. apply Rinv_le_contravar; lra. }
  assert (Fb : fmt (bpow radix2 (- (prec + 1)))) by (apply fmt_bpow; lia). pose proof (bpow_gt_0 radix2 (- (prec + 1))) as B0. pose proof (big_gt_1 (prec := prec) (emax := emax)) as B1.
  assert (W : within (Bdiv mode_NE Bone s) (bpow radix2 (- (prec + 1))) 1). { apply div_within; auto using fmt_1; try lra. rewrite V1. unfold Rdiv. rewrite Rmult_1_l. exact I. }
  assert (Fr : fin (Bdiv mode_NE Bone s)) by (apply (within_fin _ _ _ W); lra). split; [exact Fr|]. split; [now apply within_B2R|].
  destruct (val_div Bone s F1 F ltac:(lra)) as [N E]. rewrite V1 in E. pose proof (fin_rnd _ _ N E Fr) as E'. rewrite E'. unfold Rdiv. rewrite Rmult_1_l. apply rnd_err_normal.
  rewrite Rabs_pos_eq by lra. apply Rle_trans with (2 := proj1 I). apply bpow_le. lia.
Qed.
Lemma rsum_le n (f g : Z -> R) : (0 <= n)%Z -> (forall i, (0 <= i < n)%Z -> f i <= g i) -> rsum n f <= rsum n g.
Proof.
  intros Hn H. assert (Q : 0 <= rsum n (fun i => g i - f i)) by (apply rsum_nonneg; [exact Hn|]; intros i Hi; specialize (H i Hi); lra).
  assert (E : rsum n (fun i => g i - f i) = rsum n g - rsum n f); [|lra]. clear H Q. pattern n. match goal with |- ?Q n => refine (natlike_ind Q _ _ n Hn) end.
  - rewrite !zsum_0. cbn. lra.
  - intros k Hk IH. unfold Z.succ. rewrite !zsum_S by exact Hk. cbn [add Num_R] in *. rewrite IH. lra.
Qed.
Lemma rsum_affine n (f : Z -> R) a b : (0 <= n)%Z -> rsum n (fun i => a * f i + b) = a * rsum n f + IZR n * b.
Proof.
  intros Hn. pattern n. match goal with |- ?Q n => refine (natlike_ind Q _ _ n Hn) end.
  - rewrite !zsum_0. cbn. lra.
  - intros k Hk IH. unfold Z.succ. rewrite !zsum_S by exact Hk. cbn [add Num_R] in *. rewrite IH, plus_IZR. lra.
Qed.

Lemma softmax_ok (x : Z -> fl) n : (0 < n)%Z -> (forall i, (0 <= i < n)%Z -> fin (x i)) ->
  (forall i, (0 <= i < n)%Z -> fin (act_val SoftMax n x i) /\ 0 <= B2R (act_val SoftMax n x i) <= 1) /\
  (1 - u) ^ 2 / (1 + u) ^ (Z.to_nat n) - IZR n * eta <= rsum n (fun i => B2R (act_val SoftMax n x i)) <= (1 + u) ^ 2 / (1 - u) ^ (Z.to_nat n) + IZR n * eta.
Proof.
  intros Hn F. destruct (exps_ok x n Hn F) as [We (j & Hj & Ej & E1)]. cbn [act_val]. cbn [mul div one nexp sub NF Num_fl]. set (e := fun i => l_exp lib (Bminus mode_NE (x i) (vmax n x))) in *.
  change (zsum n (fun j => l_exp lib (Bminus mode_NE (x j) (vmax n x)))) with (zsum n e) in *.
  destruct (unit_sum lib e n ltac:(lia) ltac:(lia) We) as (Fs & Bs & Ms & Ls). set (s := zsum n e) in *.
  assert (S1 : 1 <= B2R s) by (rewrite <- E1; now apply Ms). destruct (recip s Fs ltac:(lra)) as (Fr & Br & d & D1 & D2). set (r := Bdiv mode_NE Bone s) in *.
  pose proof (big_gt_1 (prec := prec) (emax := emax)) as B1. pose proof (u_pos (prec := prec)) as U0. pose proof (u_half (prec := prec) (emax := emax)) as U1.
  assert (Fe : forall i, (0 <= i < n)%Z -> fin (e i) /\ 0 <= B2R (e i) <= 1). { intros i Hi. pose proof (We i Hi) as W. pose proof (unit_fin' _ W) as Q. split; [exact Q|now apply within_B2R]. }
  pose proof (bpow_gt_0 radix2 (- (prec + 1))) as B0.
  assert (Wy : forall i, (0 <= i < n)%Z -> within (Bmult mode_NE (e i) r) 0 1). { intros i Hi. destruct (Fe i Hi) as [Q1 Q2]. apply mul_within; auto using fmt_0, fmt_1; try lra. nra. }
  assert (Fy : forall i, (0 <= i < n)%Z -> fin (Bmult mode_NE (e i) r)) by (intros; now apply unit_fin', Wy).
  split. { intros i Hi. split; [now apply Fy|]. apply within_B2R; [now apply Fy|now apply Wy]. }
  set (E := rsum n (fun i => B2R (e i))) in *. apply Rabs_le_inv in D1.
  assert (EP : 0 < E).
  { assert (P : 0 <= E) by (apply rsum_nonneg; [lia|]; intros i Hi; apply Fe, Hi). pose proof (one_le_pow (prec := prec) (Z.to_nat n)). nra. }
  assert (Y : forall i, (0 <= i < n)%Z -> (B2R r * (1 - u)) * B2R (e i) + - eta <= B2R (Bmult mode_NE (e i) r) <= (B2R r * (1 + u)) * B2R (e i) + eta).
  { intros i Hi. destruct (mul_fin_inv _ _ (Fy i Hi)) as (_ & _ & Q). rewrite Q. destruct (rnd_err (prec := prec) (emax := emax) (B2R (e i) * B2R r)) as (d1 & e1 & A1 & A2 & A3). rewrite A3.
    apply Rabs_le_inv in A1, A2. destruct (Fe i Hi) as [_ Q2]. assert (0 <= B2R (e i) * B2R r) by nra. nra. }
  assert (PL : 0 < (1 - u) ^ Z.to_nat n) by (apply pow_lt; lra). pose proof (one_le_pow (prec := prec) (Z.to_nat n)) as PH.
  assert (IS : 0 < / B2R s) by (apply Rinv_0_lt_compat; lra).
  assert (R1 : / B2R s * E <= / (1 - u) ^ Z.to_nat n). { apply Rmult_le_reg_l with (B2R s * (1 - u) ^ Z.to_nat n); [nra|]. field_simplify; lra. }
  assert (R2 : / (1 + u) ^ Z.to_nat n <= / B2R s * E). { apply Rmult_le_reg_l with (B2R s * (1 + u) ^ Z.to_nat n); [nra|]. field_simplify; lra. }
  assert (I1 : 0 < / (1 - u) ^ Z.to_nat n) by (now apply Rinv_0_lt_compat). assert (I2 : 0 < / (1 + u) ^ Z.to_nat n) by (apply Rinv_0_lt_compat; lra).
  assert (RE : B2R r * E = (/ B2R s * E) * (1 + d)) by (rewrite D2; ring). cbn [pow]. rewrite !Rmult_1_r. unfold Rdiv.
  assert (RE1 : (1 - u) * / (1 + u) ^ Z.to_nat n <= B2R r * E) by (rewrite RE; nra).
  assert (RE2 : B2R r * E <= (1 + u) * / (1 - u) ^ Z.to_nat n) by (rewrite RE; nra).
  split.
  - apply Rle_trans with (rsum n (fun i => (B2R r * (1 - u)) * B2R (e i) + - eta)); [rewrite rsum_affine by lia; fold E; nra|]. apply rsum_le; [lia|]. intros i Hi. apply Y, Hi.
  - apply Rle_trans with (rsum n (fun i => (B2R r * (1 + u)) * B2R (e i) + eta)); [|rewrite rsum_affine by lia; fold E; nra]. apply rsum_le; [lia|]. intros i Hi. apply Y, Hi.
Qed.

(** ** C96 *)
(** SoftMax of any [n > 0] finite numbers, however large or far apart: every output is a finite number in [0, 1], and
    the outputs add up to 1 up to the rounding of n + 2 operations (relative, u = 2^-prec) and underflow (n half units
    of the smallest number). *)
Theorem C96_softmax_probabilities (result input : ptr) (n : Z) (m : mem fl) (x : Z -> fl) :
  (0 < n)%Z -> room m result n -> holds m input n x -> operand_ok result n input -> (forall i, (0 <= i < n)%Z -> fin (x i)) ->
  exists (y : Z -> fl) m', act_f SoftMax result n input n m = Ok (tt, m') /\ sets result n y m m' /\
    (forall i, (0 <= i < n)%Z -> fin (y i) /\ 0 <= B2R (y i) <= 1) /\
    (1 - u) ^ 2 / (1 + u) ^ (Z.to_nat n) - IZR n * eta <= rsum n (fun i => B2R (y i)) <= (1 + u) ^ 2 / (1 - u) ^ (Z.to_nat n) + IZR n * eta.
Proof.
  intros Hn Hr Hx Ho F. destruct (wp_elim _ _ _ _ (wp_act_f SoftMax result n input m x ltac:(auto) Hr Hx Ho)) as ([] & m1 & E1 & S1).
  exists (act_val SoftMax n x), m1. split; [exact E1|]. split; [exact S1|]. now apply softmax_ok.
Qed.
(** If the library's exp is monotone, SoftMax keeps the order: a larger input never gets a smaller output. *)
Theorem C96_softmax_order (result input : ptr) (n : Z) (m : mem fl) (x : Z -> fl) :
  (forall a b : fl, num a -> num b -> val a <= val b -> val (l_exp lib a) <= val (l_exp lib b)) ->
  (0 < n)%Z -> room m result n -> holds m input n x -> operand_ok result n input -> (forall i, (0 <= i < n)%Z -> fin (x i)) ->
  exists (y : Z -> fl) m', act_f SoftMax result n input n m = Ok (tt, m') /\ sets result n y m m' /\
    forall i j, (0 <= i < n)%Z -> (0 <= j < n)%Z -> B2R (x i) <= B2R (x j) -> B2R (y i) <= B2R (y j).
Proof.
  intros MO Hn Hr Hx Ho F. destruct (wp_elim _ _ _ _ (wp_act_f SoftMax result n input m x ltac:(auto) Hr Hx Ho)) as ([] & m1 & E1 & S1).
  exists (act_val SoftMax n x), m1. split; [exact E1|]. split; [exact S1|]. intros i j Hi Hj L.
  destruct (softmax_ok x n Hn F) as [Y _]. pose proof (proj1 (Y i Hi)) as Fi. pose proof (proj1 (Y j Hj)) as Fj. clear Y.
  destruct (vmax_ok x n Hn F) as [(k & Hk & Ek) _]. assert (FM : fin (vmax n x)) by (rewrite Ek; now apply F).
  destruct (exps_ok x n Hn F) as [We (k' & Hk' & Ek' & Ev)]. cbn [act_val] in *. cbn [mul div one nexp sub NF Num_fl] in *. set (e := fun i => l_exp lib (Bminus mode_NE (x i) (vmax n x))) in *.
  change (zsum n (fun j => l_exp lib (Bminus mode_NE (x j) (vmax n x)))) with (zsum n e) in *.
  destruct (unit_sum lib e n ltac:(lia) ltac:(lia) We) as (Fs & Bs & Ms & Ls). set (s := zsum n e) in *.
  assert (S1' : 1 <= B2R s) by (rewrite <- Ev; now apply Ms). destruct (recip s Fs ltac:(lra)) as (Fr & Br & _). set (r := Bdiv mode_NE Bone s) in *.
  destruct (val_sub _ _ (F i Hi) FM) as [N1 V1]. destruct (val_sub _ _ (F j Hj) FM) as [N2 V2].
  assert (Q : val (e i) <= val (e j)). { apply MO; auto. rewrite V1, V2. apply clamp_le, rnd_le. lra. }
  pose proof (unit_fin' _ (We i Hi)) as F1. pose proof (unit_fin' _ (We j Hj)) as F2. rewrite !fin_val in Q by auto.
  destruct (mul_fin_inv _ _ Fi) as (_ & _ & R1). destruct (mul_fin_inv _ _ Fj) as (_ & _ & R2).
  change (l_exp lib (Bminus mode_NE (x i) (vmax n x))) with (e i) in *. change (l_exp lib (Bminus mode_NE (x j) (vmax n x))) with (e j) in *.
  rewrite R1, R2. apply rnd_le. pose proof (bpow_gt_0 radix2 (- (prec + 1))). nra.
Qed.

(** ** C97: unstable_softmax, the variant that does not subtract the maximum *)
Lemma fin_sum_inv (f : Z -> fl) n : (0 <= n)%Z -> fin (zsum n f) -> forall i, (0 <= i < n)%Z -> fin (f i).
Proof.
  intros Hn. pattern n. match goal with |- ?Q n => refine (natlike_ind Q _ _ n Hn); clear n Hn end.
  - intros _ i Hi. lia.
  - intros n Hn IH F i Hi. unfold Z.succ in *. rewrite zsum_S in F by exact Hn. destruct (add_fin_inv _ _ F) as (F1 & F2 & _). destruct (Z.eq_dec i n) as [->|]; [exact F2|]. apply IH; [exact F1|lia].
Qed.
Lemma sum_ge (f : Z -> fl) n : (0 <= n)%Z -> fin (zsum n f) -> (forall i, (0 <= i < n)%Z -> 0 <= val (f i)) ->
  0 <= B2R (zsum n f) /\ forall i, (0 <= i < n)%Z -> B2R (f i) <= B2R (zsum n f).
Proof.
  intros Hn. pattern n. match goal with |- ?Q n => refine (natlike_ind Q _ _ n Hn); clear n Hn end.
  - intros _ _. rewrite zsum_0. cbn. split; [lra|]. intros; lia.
  - intros n Hn IH F P. unfold Z.succ in *. rewrite zsum_S in F |- * by exact Hn. cbn [add NF Num_fl] in *. destruct (add_fin_inv _ _ F) as (F1 & F2 & E). destruct IH as [I1 I2]; [exact F1|intros; apply P; lia|].
    pose proof (P n ltac:(lia)) as Pn. rewrite fin_val in Pn by exact F2. rewrite E. set (s := zsum n f) in *.
    assert (A : B2R s <= rnd (B2R s + B2R (f n))) by (rewrite <- (rnd_id (B2R s) (fmt_B2R _)) at 1; apply rnd_le; lra).
    assert (B : B2R (f n) <= rnd (B2R s + B2R (f n))) by (rewrite <- (rnd_id (B2R (f n)) (fmt_B2R _)) at 1; apply rnd_le; lra).
    split; [lra|]. intros i Hi. destruct (Z.eq_dec i n) as [->|]; [exact B|]. pose proof (I2 i ltac:(lia)). lra.
Qed.
Lemma add_nonneg (a b : fl) : num a -> num b -> 0 <= val a -> 0 <= val b ->
  num (Bplus mode_NE a b) /\ 0 <= val (Bplus mode_NE a b) /\ (a = B754_infinity false \/ b = B754_infinity false -> Bplus mode_NE a b = B754_infinity false).
Proof.
  intros Na Nb Ha Hb. pose proof (big_pos (emax := emax)) as BP. destruct (split_num a Na) as [Fa|[->| ->]]; [|cbn [val] in Ha; lra|].
  - destruct (split_num b Nb) as [Fb|[->| ->]]; [|cbn [val] in Hb; lra|].
    + destruct (val_add a b Fa Fb) as [N E]. rewrite !fin_val in * by auto. split; [exact N|]. split.
      * rewrite E. replace 0 with (clamp (rnd 0)); [apply clamp_le, rnd_le; lra|]. rewrite rnd_0. apply clamp_id. lra.
      * intros [->| ->]; discriminate.
    + assert (E : Bplus mode_NE a (B754_infinity false) = B754_infinity false) by (unfold fin in Fa; destruct a as [?|?| |? ? ? ?]; try discriminate Fa; reflexivity). rewrite E. cbn [val]. split; [reflexivity|]. split; [lra|auto].
  - assert (E : Bplus mode_NE (B754_infinity false) b = B754_infinity false).
    { destruct (split_num b Nb) as [Fb|[->| ->]]; [|cbn [val] in Hb; lra|reflexivity]. unfold fin in Fb; destruct b as [?|?| |? ? ? ?]; try discriminate Fb; reflexivity. }
    rewrite E. cbn [val]. split; [reflexivity|]. split; [lra|auto].
Qed.
Lemma sum_inf (f : Z -> fl) n : (0 <= n)%Z -> (forall i, (0 <= i < n)%Z -> num (f i) /\ 0 <= val (f i)) ->
  num (zsum n f) /\ 0 <= val (zsum n f) /\ forall i, (0 <= i < n)%Z -> f i = B754_infinity false -> zsum n f = B754_infinity false.
Proof.
  intros Hn. pattern n. match goal with |- ?Q n => refine (natlike_ind Q _ _ n Hn); clear n Hn end.
  - intros _. rewrite zsum_0. cbn. split; [reflexivity|]. split; [lra|]. intros; lia.
  - intros n Hn IH P. destruct IH as (I1 & I2 & I3); [intros; apply P; lia|]. unfold Z.succ in *. rewrite zsum_S by exact Hn. cbn [add NF Num_fl]. destruct (P n ltac:(lia)) as [Nn Pn].
    destruct (add_nonneg _ _ I1 Nn I2 Pn) as (A & B & C). split; [exact A|]. split; [exact B|]. intros i Hi Ei. apply C. destruct (Z.eq_dec i n) as [->|]; [now right|]. left. apply (I3 i); [lia|exact Ei].
Qed.
(** When the sum of the exponentials is finite and at least 1, all outputs are finite and between 0 and 1 + 8u ... *)
Theorem C97_unstable_softmax_range_partial (result input : ptr) (n : Z) (m : mem fl) (x : Z -> fl) :
  (4 <= prec)%Z -> (0 < n)%Z -> room m result n -> holds m input n x -> operand_ok result n input -> (forall i, (0 <= i < n)%Z -> fin (x i)) ->
  fin (zsum n (fun i => l_exp lib (x i))) -> 1 <= B2R (zsum n (fun i => l_exp lib (x i))) ->
  exists (y : Z -> fl) m', unstable_softmax result n input m = Ok (tt, m') /\ sets result n y m m' /\
    forall i, (0 <= i < n)%Z -> fin (y i) /\ 0 <= B2R (y i) <= 1 + 8 * u.
Proof.
  intros P4 Hn Hr Hx Ho F Fs S1. destruct (wp_elim _ _ _ _ (wp_unstable_softmax result n input m x Hn Hr Hx Ho)) as ([] & m1 & E1 & M1).
  eexists _, m1. split; [exact E1|]. split; [exact M1|]. intros i Hi. cbv beta. cbn [mul div one nexp NF Num_fl]. set (s := zsum n (fun i => l_exp lib (x i))) in *.
  change (zsum n (fun j => l_exp lib (x j))) with s.
  assert (Pe : forall i, (0 <= i < n)%Z -> 0 <= val (l_exp lib (x i))) by (intros; apply (m_exp_pos lib LO), fin_num; auto).
  pose proof (fin_sum_inv _ n ltac:(lia) Fs i Hi) as Fe. destruct (sum_ge _ n ltac:(lia) Fs Pe) as [_ Ms]. specialize (Ms i Hi). fold s in Ms. specialize (Pe i Hi). cbv beta in *. rewrite fin_val in Pe by exact Fe. set (e := l_exp lib (x i)) in *.
  pose proof (fin_one (prec := prec) (emax := emax)) as F1. pose proof (val_one (prec := prec) (emax := emax)) as V1. pose proof (PE' (prec := prec) (emax := emax)) as PE.
  pose proof (big_gt_1 (prec := prec) (emax := emax)) as B1. pose proof (u_pos (prec := prec)) as U0.
  assert (U1 : u <= / 16) by (unfold uro; change (/ 16) with (bpow radix2 (-4)); apply bpow_le; lia).
  assert (IS : 0 < / B2R s <= 1). { split; [apply Rinv_0_lt_compat; lra|]. rewrite <- Rinv_1. apply Rinv_le_contravar; lra. }
  assert (Wr : within (Bdiv mode_NE Bone s) 0 1). { apply div_within; auto using fmt_1, fmt_0; try lra. rewrite V1. unfold Rdiv. lra. }
  pose proof (unit_fin' _ Wr) as Fr. pose proof (within_B2R _ _ _ Fr Wr) as Br. destruct (val_div Bone s F1 Fs ltac:(lra)) as [Nr Er]. rewrite V1 in Er. pose proof (fin_rnd _ _ Nr Er Fr) as Er'. set (r := Bdiv mode_NE Bone s) in *.
  (* the reciprocal may underflow: s can be almost 2^emax, and then 1/s loses two bits *)
  pose proof (big_lt s Fs) as Bs.
  assert (NR : bpow radix2 (- emax) <= / B2R s). { rewrite bpow_opp. apply Rinv_le_contravar; unfold big in Bs; lra. }
  destruct (rnd_err (prec := prec) (emax := emax) (1 / B2R s)) as (d & e' & D1 & D2 & D3).
  assert (EB : eta <= 4 * u * / B2R s).
  { apply Rle_trans with (4 * u * bpow radix2 (- emax)).
    - unfold FloatSpec.eta, uro. change 4 with (bpow radix2 2). rewrite <- !bpow_plus. apply bpow_le. lia.
    - apply Rmult_le_compat_l; lra. }
  apply Rabs_le_inv in D1, D2. unfold Rdiv in D3. rewrite Rmult_1_l in D3.
  assert (Rr : B2R r <= / B2R s * (1 + 5 * u)) by (rewrite Er'; unfold Rdiv; rewrite Rmult_1_l, D3; nra).
  assert (Q : 0 <= B2R e * B2R r <= 1 + 8 * u).
  { split; [nra|]. apply Rle_trans with (B2R s * (/ B2R s * (1 + 5 * u))); [apply Rmult_le_compat; lra|]. rewrite <- Rmult_assoc, Rinv_r by lra. lra. }
  assert (F8 : fmt (1 + 8 * u)).
  { replace (1 + 8 * u) with (IZR (2 ^ (prec - 1) + 4) * bpow radix2 (1 - prec)).
    - apply fmt_scaled; [|lia]. replace prec with (prec - 1 + 1)%Z at 2 by lia. rewrite Z.pow_add_r by lia. assert (2 ^ 3 <= 2 ^ (prec - 1))%Z by (apply Z.pow_le_mono_r; lia). lia.
    - rewrite plus_IZR. change (2 ^ (prec - 1))%Z with (radix_val radix2 ^ (prec - 1))%Z. rewrite IZR_Zpower by lia. rewrite Rmult_plus_distr_r, <- bpow_plus. replace (prec - 1 + (1 - prec))%Z with 0%Z by lia.
      unfold uro. replace (1 - prec)%Z with (1 + - prec)%Z by lia. rewrite bpow_plus. change (bpow radix2 1) with 2. change (bpow radix2 0) with 1. lra. }
  assert (L2 : 2 < big emax) by (unfold big; change 2 with (bpow radix2 1); apply bpow_lt; lia).
  assert (W : within (Bmult mode_NE e r) 0 (1 + 8 * u)) by (apply mul_within; auto using fmt_0; lra).
  assert (Fy : fin (Bmult mode_NE e r)) by (apply (within_fin _ _ _ W); lra). split; [exact Fy|]. now apply within_B2R.
Qed.
(** ... but every element at or above the largest exponent (128 in float, 1024 in double) comes out as NaN. *)
Theorem C97_unstable_softmax_nan_refuted (result input : ptr) (n : Z) (m : mem fl) (x : Z -> fl) :
  (0 < n)%Z -> room m result n -> holds m input n x -> operand_ok result n input -> (forall i, (0 <= i < n)%Z -> fin (x i)) ->
  exists (y : Z -> fl) m', unstable_softmax result n input m = Ok (tt, m') /\ sets result n y m m' /\
    forall i, (0 <= i < n)%Z -> IZR emax <= B2R (x i) -> y i = B754_nan.
Proof.
  intros Hn Hr Hx Ho F. destruct (wp_elim _ _ _ _ (wp_unstable_softmax result n input m x Hn Hr Hx Ho)) as ([] & m1 & E1 & M1).
  eexists _, m1. split; [exact E1|]. split; [exact M1|]. intros i Hi L. cbv beta. cbn [mul div one nexp NF Num_fl].
  assert (I : l_exp lib (x i) = B754_infinity false). { apply (m_exp_overflow lib LO); [now apply fin_num, F|]. rewrite fin_val by now apply F. exact L. }
  destruct (sum_inf (fun j => l_exp lib (x j)) n ltac:(lia)) as (_ & _ & S).
  { intros j Hj. pose proof (fin_num _ (F j Hj)). split; [now apply (m_exp_num lib LO)|now apply (m_exp_pos lib LO)]. }
  rewrite (S i Hi I). rewrite I. pose proof (fin_one (prec := prec) (emax := emax)) as F1. unfold fin in F1. destruct Bone as [?|?| |? ? ? ?]; try discriminate F1; reflexivity.
Qed.
End Softmax.

(** ** The hypotheses can be met: three doubles, as far apart as doubles go, correctly rounded library *)
Module Examples.
#[local] Instance Hp53 : Prec_gt_0 53 := eq_refl.
#[local] Instance He53 : Prec_lt_emax 53 1024 := eq_refl.
Notation double := (fl 53 1024).
Definition lib := cr_lib (prec := 53) (emax := 1024).
Lemma lib_ok : libm_ok lib. Proof. now apply cr_lib_ok. Qed.
Definition a1 : double := fl_of 1.
Definition a2 : double := fl_of (- bpow radix2 1020).
Definition a3 : double := fl_of (bpow radix2 1020).
Lemma a1_ok : fin a1 /\ B2R a1 = 1.
Proof. apply fl_of_exact; [apply fmt_1|]. rewrite Rabs_R1. apply (big_gt_1 (prec := 53)). Qed.
Lemma a2_ok : fin a2 /\ B2R a2 = - bpow radix2 1020.
Proof. apply fl_of_exact; [apply fmt_opp, fmt_bpow; lia|]. rewrite Rabs_Ropp, Rabs_pos_eq by apply bpow_ge_0. apply bpow_lt. lia. Qed.
Lemma a3_ok : fin a3 /\ B2R a3 = bpow radix2 1020.
Proof. apply fl_of_exact; [apply fmt_bpow; lia|]. rewrite Rabs_pos_eq by apply bpow_ge_0. apply bpow_lt. lia. Qed.
Definition m0 (a b c : double) : mem double := [Some [Some a; Some b; Some c]; Some [None; None; None]]%list.
Definition xs (a b c : double) (i : Z) : double := match i with 0%Z => a | 1%Z => b | _ => c end.
Lemma cases3 (P : Z -> Prop) : P 0%Z -> P 1%Z -> P 2%Z -> forall i, (0 <= i < 3)%Z -> P i.
Proof. intros A B C i Hi. assert (H : i = 0%Z \/ i = 1%Z \/ i = 2%Z) by lia. destruct H as [->|[->| ->]]; assumption. Qed.
Lemma buffers a b c : room (m0 a b c) (Ptr 1 0) 3 /\ holds (m0 a b c) (Ptr 0 0) 3 (xs a b c) /\ operand_ok (Ptr 1 0) 3 (Ptr 0 0).
Proof.
  split; [|split].
  - refine (cases3 (fun i => elem (m0 a b c) (Ptr 1 0) i <> None) _ _ _); discriminate.
  - refine (cases3 (fun i => elem (m0 a b c) (Ptr 0 0) i = Some (Some (xs a b c i))) _ _ _); reflexivity.
  - right. unfold disjoint, inside. intros b' i [-> _] [H _]. discriminate H.
Qed.
Lemma all_fin : forall i, (0 <= i < 3)%Z -> fin (xs a1 a2 a3 i).
Proof. apply (cases3 (fun i => fin (xs a1 a2 a3 i))); [apply a1_ok|apply a2_ok|apply a3_ok]. Qed.
(** three outputs, whose sum differs from 1 by less than 10 units of rounding *)
Example C96_three : exists y m', act_f (NT := Num_fl 53 1024 lib) SoftMax (Ptr 1 0) 3 (Ptr 0 0) 3 (m0 a1 a2 a3) = Ok (tt, m') /\
  (forall i, (0 <= i < 3)%Z -> elem m' (Ptr 1 0) i = Some (Some (y i)) /\ fin (y i) /\ 0 <= B2R (y i) <= 1) /\
  rsum 3 (fun i => B2R (y i)) <= 1 + 10 * uro 53.
Proof.
  destruct (buffers a1 a2 a3) as (R & H & O).
  destruct (C96_softmax_probabilities (prec := 53) (emax := 1024) ltac:(lia) lib lib_ok _ _ 3 _ _ ltac:(lia) R H O all_fin) as (y & m' & E & S & Y & _ & U).
  exists y, m'. split; [exact E|]. split. { intros i Hi. split; [now apply S|now apply Y]. }
  apply Rle_trans with (1 := U). change (Z.to_nat 3) with 3%nat.
  assert (U1 : uro 53 <= / 1024) by (unfold uro; change (/ 1024) with (bpow radix2 (-10)); apply bpow_le; lia). pose proof (u_pos (prec := 53)) as U0.
  assert (ET : eta 53 1024 <= uro 53) by (unfold eta, uro; apply bpow_le; lia). set (v := uro 53) in *. set (w := eta 53 1024) in *. clearbody v w. clear -U0 U1 ET.
  assert (A : (1 + v) ^ 2 / (1 - v) ^ 3 <= 1 + 7 * v); [|lra]. assert (P : 0 < (1 - v) ^ 3) by (apply pow_lt; lra).
  apply Rmult_le_reg_r with (1 := P). unfold Rdiv. rewrite Rmult_assoc, Rinv_l, Rmult_1_r by lra. cbn [pow]. assert (0 <= v * v) by nra. assert (v * v <= v * / 1024) by nra. assert (0 <= v * v * v) by (apply Rmult_le_pos; lra). assert (v * v * v * v <= v * v * v) by nra. nra.
Qed.
Example C97_nan : exists y m', unstable_softmax (NT := Num_fl 53 1024 lib) (Ptr 1 0) 3 (Ptr 0 0) (m0 a1 a2 a3) = Ok (tt, m') /\
  elem m' (Ptr 1 0) 2 = Some (Some (y 2%Z)) /\ y 2%Z = B754_nan.
Proof.
  destruct (buffers a1 a2 a3) as (R & H & O).
  destruct (C97_unstable_softmax_nan_refuted (prec := 53) (emax := 1024) lib lib_ok _ _ 3 _ _ ltac:(lia) R H O all_fin) as (y & m' & E & S & Y).
  exists y, m'. split; [exact E|]. split; [apply S; lia|]. apply Y; [lia|]. cbn [xs]. rewrite (proj2 a3_ok). change (IZR 1024) with (bpow radix2 10). apply bpow_le. lia.
Qed.
(** the extra hypothesis of C96_softmax_order holds of the correctly rounded library *)
Example C96_monotone (a b : double) : num a -> num b -> val a <= val b -> val (l_exp lib a) <= val (l_exp lib b).
Proof.
  intros Na Nb L. pose proof (big_pos (emax := 1024)) as BP. cbn [lib cr_lib l_exp].
  destruct (FloatLib.split_num a Na) as [Fa|[->| ->]].
  - destruct (FloatLib.split_num b Nb) as [Fb|[->| ->]].
    + rewrite !fin_val in L by auto. rewrite !rounded_fin by auto. rewrite (proj2 (val_fl_of (exp (B2R a)))), (proj2 (val_fl_of (exp (B2R b)))). apply clamp_le, rnd_le. destruct L as [L|L]; [left; now apply exp_increasing|right; now rewrite L].
    + rewrite fin_val in L by exact Fa. pose proof (big_lt a Fa). cbn [val] in L. lra.
    + cbn [rounded val]. pose proof (val_bound (rounded exp (B754_zero false) (B754_infinity false) a)) as B. apply Rabs_le_inv in B. lra.
  - cbn [rounded]. change (val (B754_zero false : double)) with 0. apply (m_exp_pos lib lib_ok b Nb).
  - destruct (FloatLib.split_num b Nb) as [Fb|[->| ->]].
    + rewrite (fin_val b Fb) in L. pose proof (big_lt b Fb). cbn [val] in L. lra.
    + cbn [val] in L. lra.
    + lra.
Qed.
End Examples.
Print Assumptions C96_softmax_probabilities.
Print Assumptions C96_softmax_order.
Print Assumptions C97_unstable_softmax_range_partial.
Print Assumptions C97_unstable_softmax_nan_refuted.

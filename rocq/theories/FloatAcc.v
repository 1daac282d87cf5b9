(** * Accumulation loops in floating-point arithmetic

    Loops of the form [for (...) sum += a * b] (with conditions that skip terms): a finite result has only finite
    operands and a classical error bound, and if the bound stays below the largest number the result is finite. *)
From Coq Require Import ZArith QArith Reals Lra Lia Psatz Bool.
From Flocq Require Import Core BinarySingleNaN Plus_error Relative.
From Verif Require Import Mem Scalar LinearProofs Float FloatSpec FloatLemmas RSum FloatError FunctionSpec FunctionProofs Cells.
Local Open Scope R_scope.

Section Acc.
Context {prec emax : Z} {Hp : Prec_gt_0 prec} {He : Prec_lt_emax prec emax}.
Context (lib : libm prec emax).
Notation fl := (fl prec emax).
Notation rnd := (rnd (prec := prec) (emax := emax)).
Notation fmt := (fmt (prec := prec) (emax := emax)).
Notation clamp := (clamp (emax := emax)).
Notation u := (uro prec).
Notation eta := (eta prec emax).
Notation err := (err (prec := prec)).
#[local] Instance NF : Num fl := Num_fl prec emax lib.
Implicit Types x y : fl.

(** the size of the rounding error of a sum of terms of total magnitude [A], after [K] roundings of sums and [M] products *)
Definition slack (K M : Z) (A : R) : R := err K * A + IZR M * eta * (1 + err K).
(** [r] is an approximation of [E] after [K] roundings; [A] bounds the terms *)
Definition appR (K M : Z) (r E A : R) : Prop := Rabs E <= A /\ Rabs (r - E) <= slack K M A.
Lemma slack_pos K M A : (0 <= M)%Z -> 0 <= A -> 0 <= slack K M A.
Proof. intros HM HA. pose proof (err_pos (prec := prec) K). pose proof (eta_pos (prec := prec) (emax := emax)). assert (0 <= IZR M) by (apply IZR_le; exact HM). unfold slack. apply Rplus_le_le_0_compat; [apply Rmult_le_pos; lra|]. apply Rmult_le_pos; [apply Rmult_le_pos; lra|lra]. Qed.
Lemma slack_mono K M A K' M' A' : (0 <= K <= K')%Z -> (0 <= M <= M')%Z -> 0 <= A <= A' -> slack K M A <= slack K' M' A'.
Proof.
  intros HK HM HA. pose proof (err_pos (prec := prec) K). pose proof (err_mono (prec := prec) K K' HK). pose proof (eta_pos (prec := prec) (emax := emax)). assert (0 <= IZR M) by (apply IZR_le; lia). assert (IZR M <= IZR M') by (apply IZR_le; lia).
  unfold slack. apply Rplus_le_compat; [apply Rmult_le_compat; lra|]. apply Rmult_le_compat; [apply Rmult_le_pos; lra|lra|apply Rmult_le_compat; lra|lra].
Qed.
Lemma appR_A K M r E A : appR K M r E A -> 0 <= A.
Proof. intros [H _]. apply Rle_trans with (2 := H), Rabs_pos. Qed.
Lemma appR_mono K M r E A K' M' : (0 <= K <= K')%Z -> (0 <= M <= M')%Z -> appR K M r E A -> appR K' M' r E A.
Proof. intros HK HM H. pose proof (appR_A _ _ _ _ _ H). destruct H as [H1 H2]. split; [exact H1|]. apply Rle_trans with (1 := H2), slack_mono; lra || lia. Qed.
Lemma appR_bound K M r E A : appR K M r E A -> Rabs r <= A + slack K M A.
Proof. intros [H1 H2]. replace r with (E + (r - E)) by ring. eapply Rle_trans; [apply Rabs_triang|]. lra. Qed.
Lemma appR_exact (x : R) K M : (0 <= M)%Z -> appR K M x x (Rabs x).
Proof. intros HM. split; [lra|]. rewrite Rminus_eq_0, Rabs_R0. apply slack_pos; [exact HM|apply Rabs_pos]. Qed.

(** one step of an accumulation *)
Lemma appR_mac K M r E A p : (1 <= K)%Z -> (0 <= M)%Z -> fmt r -> appR K M r E A -> appR (K + 1) (M + 1) (rnd (r + rnd p)) (E + p) (A + Rabs p).
Proof.
  intros HK HM Fr H. pose proof (appR_A _ _ _ _ _ H) as HA. destruct H as [H1 H2]. split; [eapply Rle_trans; [apply Rabs_triang|]; lra|].
  destruct (rnd_plus_err (prec := prec) (emax := emax) r (rnd p) Fr (fmt_rnd p)) as (d' & D1 & D2). rewrite D2. destruct (rnd_err (prec := prec) (emax := emax) p) as (d & e & D3 & D4 & D5). rewrite D5. replace r with (E + (r - E)) by ring.
  eapply Rle_trans; [apply (Rabs_step (prec := prec) (emax := emax) (r - E) A p E d d' e (slack K M A)); auto; now apply slack_pos|].
  unfold slack. rewrite plus_IZR. rewrite (err_S (prec := prec) K) by lia. pose proof (u_pos (prec := prec)). pose proof (eta_pos (prec := prec) (emax := emax)).
  assert (G : u <= err K). { apply Rle_trans with (err 1); [unfold FloatError.err; change (Z.to_nat 1) with 1%nat; rewrite pow_1; lra|apply err_mono; lia]. }
  pose proof (Rabs_pos p) as P0. assert (0 <= IZR M) by (apply IZR_le; exact HM).
  assert (T1 : Rabs p * ((1 + u) * (1 + u) - 1) <= Rabs p * ((1 + u) * (1 + err K) - 1)) by (apply Rmult_le_compat_l; [exact P0|nra]).
  assert (T2 : eta * (1 + u) <= eta * ((1 + u) * (1 + err K))) by (apply Rmult_le_compat_l; [lra|nra]).
  replace ((err K * A + IZR M * eta * (1 + err K)) * (1 + u)) with (err K * (1 + u) * A + IZR M * eta * ((1 + u) * (1 + err K))) by ring. nra.
Qed.
Lemma appR_add K M r E A p : (0 <= K)%Z -> (0 <= M)%Z -> fmt r -> fmt p -> appR K M r E A -> appR (K + 1) M (rnd (r + p)) (E + p) (A + Rabs p).
Proof.
  intros HK HM Fr Fp H. pose proof (appR_A _ _ _ _ _ H) as HA. destruct H as [H1 H2]. split; [eapply Rle_trans; [apply Rabs_triang|]; lra|].
  destruct (rnd_plus_err (prec := prec) (emax := emax) r p Fr Fp) as (d & D1 & D2). rewrite D2. replace ((r + p) * (1 + d) - (E + p)) with ((r - E) * (1 + d) + (E * d + p * d)) by ring.
  pose proof (u_pos (prec := prec)). assert (D : Rabs (1 + d) <= 1 + u) by (apply Rle_trans with (1 := Rabs_triang _ _); rewrite Rabs_R1; lra).
  pose proof (Rabs_pos p) as P0. pose proof (Rabs_pos E) as E0. pose proof (Rabs_pos d) as d0. pose proof (Rabs_pos (r - E)) as r0. pose proof (err_pos (prec := prec) K) as EP.
  apply Rle_trans with (slack K M A * (1 + u) + (A * u + Rabs p * u)).
  - eapply Rle_trans; [apply Rabs_triang|]. apply Rplus_le_compat; [rewrite Rabs_mult; apply Rmult_le_compat; auto using Rabs_pos|].
    eapply Rle_trans; [apply Rabs_triang|]. rewrite !Rabs_mult. apply Rplus_le_compat; apply Rmult_le_compat; lra.
  - unfold slack. rewrite (err_S (prec := prec) K) by lia. assert (0 <= err K * (1 + u) * Rabs p) by (apply Rmult_le_pos; [apply Rmult_le_pos; lra|exact P0]). nra.
Qed.

(** [g] adds terms of exact sum [e] and total magnitude [a], in at most [k] steps; [ok]: its operands are finite *)
Definition app (K M : Z) (s : fl) (E A : R) : Prop := fin s /\ appR K M (B2R s) E A.
Record accu (g : fl -> fl) (k : Z) (e a : R) (ok : Prop) : Prop := {
  ac_k : (0 <= k)%Z;
  ac_a : 0 <= a;
  ac_fin : forall s, fin (g s) -> fin s /\ ok;
  ac_app : forall s K M E A, (1 <= K)%Z -> (0 <= M)%Z -> fin (g s) -> app K M s E A -> app (K + k) (M + k) (g s) (E + e) (A + a);
  ac_safe : forall s K M E A, (1 <= K)%Z -> (0 <= M)%Z -> ok -> app K M s E A -> A + a + slack (K + k) (M + k) (A + a) < big emax -> fin (g s) }.
Lemma accu_skip k : (0 <= k)%Z -> accu (fun s => s) k 0 0 True.
Proof.
  intros Hk. split; auto; [lra| |].
  - intros s K M E A HK HM F [_ H]. split; [exact F|]. rewrite !Rplus_0_r. apply appR_mono with (3 := H); lia.
  - intros s K M E A HK HM _ [F _] _. exact F.
Qed.
Lemma accu_weaken g k e a ok k' ok' : accu g k e a ok -> (k <= k')%Z -> (ok <-> ok') -> accu g k' e a ok'.
Proof.
  intros [H0 Ha H1 H2 H3] Hk Hok. split; [lia|exact Ha| | |].
  - intros s F. destruct (H1 s F). tauto.
  - intros s K M E A HK HM F H. destruct (H2 s K M E A HK HM F H) as [F' Q]. split; [exact F'|]. apply appR_mono with (3 := Q); lia.
  - intros s K M E A HK HM O H L. apply (H3 s K M E A); [auto|auto|tauto|exact H|]. pose proof (appR_A _ _ _ _ _ (proj2 H)) as HA.
    apply Rle_lt_trans with (2 := L). apply Rplus_le_compat_l, slack_mono; lia || lra.
Qed.
Lemma accu_mac x y : accu (fun s => add s (mul x y)) 1 (B2R x * B2R y) (Rabs (B2R x * B2R y)) (fin x /\ fin y).
Proof.
  split; [lia|apply Rabs_pos| | |]; cbn [add mul NF Num_fl].
  - intros s F. destruct (add_fin_inv _ _ F) as (F1 & F2 & _). destruct (mul_fin_inv _ _ F2) as (F3 & F4 & _). auto.
  - intros s K M E A HK HM F [_ H]. split; [exact F|]. destruct (add_fin_inv _ _ F) as (F1 & F2 & E1). destruct (mul_fin_inv _ _ F2) as (F3 & F4 & E2). rewrite E1, E2. now apply appR_mac; auto using fmt_B2R.
  - intros s K M E A HK HM [Fx Fy] [Fs H] L. pose proof (appR_A _ _ _ _ _ H) as HA. set (p := B2R x * B2R y) in *.
    assert (Q : appR 2 1 (rnd (0 + rnd p)) (0 + p) (Rabs 0 + Rabs p)).
    { apply (appR_mac 1 0); [lia|lia|apply fmt_0|]. now apply appR_exact. }
    rewrite Rabs_R0, !Rplus_0_l, (rnd_id (rnd p)) in Q by apply fmt_rnd. apply appR_bound in Q.
    destruct (val_mul x y Fx Fy) as [N V]. assert (LP : Rabs (rnd p) < big emax).
    { apply Rle_lt_trans with (1 := Q). apply Rle_lt_trans with (2 := L). pose proof (Rabs_pos p). apply Rplus_le_compat; [lra|]. apply slack_mono; lia || lra. }
    assert (Fm : fin (Bmult mode_NE x y)).
    { apply fin_iff. split; [exact N|]. rewrite V. fold p. apply Rabs_def2 in LP. rewrite clamp_id by lra. apply Rabs_def1; lra. }
    destruct (mul_fin_inv _ _ Fm) as (_ & _ & Em). fold p in Em. destruct (val_add s _ Fs Fm) as [N' V']. rewrite Em in V'.
    pose proof (appR_mac K M _ _ _ p HK HM (fmt_B2R s) H) as Q'. apply appR_bound in Q'. assert (LS : Rabs (rnd (B2R s + rnd p)) < big emax) by lra.
    apply fin_iff. split; [exact N'|]. rewrite V'. apply Rabs_def2 in LS. rewrite clamp_id by lra. apply Rabs_def1; lra.
Qed.
Lemma accu_add x : accu (fun s => add s x) 1 (B2R x) (Rabs (B2R x)) (fin x).
Proof.
  split; [lia|apply Rabs_pos| | |]; cbn [add NF Num_fl].
  - intros s F. destruct (add_fin_inv _ _ F) as (F1 & F2 & _). auto.
  - intros s K M E A HK HM F [_ H]. split; [exact F|]. destruct (add_fin_inv _ _ F) as (F1 & F2 & E1). rewrite E1. apply appR_mono with (K := (K + 1)%Z) (M := M); [lia|lia|]. apply appR_add; auto using fmt_B2R. lia.
  - intros s K M E A HK HM Fx [Fs H] L. destruct (val_add s x Fs Fx) as [N V]. pose proof (appR_A _ _ _ _ _ H) as HA. pose proof (Rabs_pos (B2R x)).
    pose proof (appR_add K M _ _ _ (B2R x) ltac:(lia) HM (fmt_B2R s) (fmt_B2R x) H) as Q. apply appR_bound in Q.
    pose proof (slack_mono (K + 1) M (A + Rabs (B2R x)) (K + 1) (M + 1) (A + Rabs (B2R x)) ltac:(lia) ltac:(lia) ltac:(lra)).
    assert (LS : Rabs (rnd (B2R s + B2R x)) < big emax) by lra. apply fin_iff. split; [exact N|]. rewrite V. apply Rabs_def2 in LS. rewrite clamp_id by lra. apply Rabs_def1; lra.
Qed.
Lemma accu_seq g h k e a ok k' e' a' ok' : accu g k e a ok -> accu h k' e' a' ok' -> accu (fun s => h (g s)) (k + k') (e + e') (a + a') (ok /\ ok').
Proof.
  intros [K0 A0 F0 P0 S0] [K1 A1 F1 P1 S1]. split; [lia|lra| | |].
  - intros s F. destruct (F1 _ F) as [F2 O]. destruct (F0 _ F2). tauto.
  - intros s K M E A HK HM F H. destruct (F1 _ F) as [F2 O]. rewrite !Z.add_assoc, <- !Rplus_assoc. apply P1; [lia|lia|exact F|]. now apply P0.
  - intros s K M E A HK HM [O O'] H L. pose proof (appR_A _ _ _ _ _ (proj2 H)) as HA.
    assert (Fg : fin (g s)). { apply (S0 s K M E A); auto. apply Rle_lt_trans with (2 := L). apply Rplus_le_compat; [lra|]. apply slack_mono; lia || lra. }
    apply (S1 _ (K + k)%Z (M + k)%Z (E + e) (A + a)); [lia|lia|exact O'|now apply P0|]. rewrite (Rplus_assoc A a a'), <- !Z.add_assoc. exact L.
Qed.
Lemma accu_ext g h k e a ok e' a' : accu g k e a ok -> (forall s, h s = g s) -> e' = e -> a' = a -> accu h k e' a' ok.
Proof. intros [K0 A0 F0 P0 S0] X -> ->. split; auto; intros; rewrite X in *; eauto. Qed.
Lemma accu_fold n (g : Z -> fl -> fl) k e a (ok : Z -> Prop) : (0 <= n)%Z -> (0 <= k)%Z -> (forall i, (0 <= i < n)%Z -> accu (g i) k (e i) (a i) (ok i)) ->
  accu (zfold n g) (n * k) (rsum n e) (rsum n a) (forall i, (0 <= i < n)%Z -> ok i).
Proof.
  intros Hn Hk. pattern n. match goal with |- ?Q n => refine (natlike_ind Q _ _ n Hn); clear n Hn end.
  - intros _. eapply accu_ext; [eapply accu_weaken; [apply (accu_skip 0); lia|lia|]|reflexivity|now rewrite zsum_0|now rewrite zsum_0]. split; [intros; lia|auto].
  - intros n Hn IH H. unfold Z.succ in *. assert (H1 : accu (zfold n g) (n * k) (rsum n e) (rsum n a) (forall i, (0 <= i < n)%Z -> ok i)) by (apply IH; intros; apply H; lia).
    pose proof (accu_seq _ _ _ _ _ _ _ _ _ _ H1 (H n ltac:(lia))) as Q. eapply accu_ext; [eapply accu_weaken; [exact Q|lia|]| | |].
    + split; [intros [O1 O2] i Hi; destruct (Z.eq_dec i n) as [->|]; [exact O2|apply O1; lia]|]. intros O. split; [intros i Hi; apply O; lia|apply O; lia].
    + intros s. now rewrite zfold_S by exact Hn.
    + rewrite zsum_S by exact Hn. reflexivity.
    + rewrite zsum_S by exact Hn. reflexivity.
Qed.

(** conclusions: start from an exact number [s] *)
Lemma accu_result g k e a ok s : accu g k e a ok ->
  (fin (g s) -> fin s /\ ok /\ Rabs (B2R (g s) - (B2R s + e)) <= slack (k + 1) k (Rabs (B2R s) + a)) /\
  (fin s -> ok -> Rabs (B2R s) + a + slack (k + 1) k (Rabs (B2R s) + a) < big emax -> fin (g s)).
Proof.
  intros [K0 A0 F0 P0 S0]. split.
  - intros F. destruct (F0 s F) as [Fs O]. split; [exact Fs|]. split; [exact O|].
    destruct (P0 s 1%Z 0%Z (B2R s) (Rabs (B2R s)) ltac:(lia) ltac:(lia) F) as [_ [_ Q]]; [split; [exact Fs|]; now apply appR_exact|]. rewrite Z.add_comm. exact Q.
  - intros Fs O L. apply (S0 s 1%Z 0%Z (B2R s) (Rabs (B2R s))); [lia|lia|exact O|split; [exact Fs|]; now apply appR_exact|]. rewrite (Z.add_comm 1 k). exact L.
Qed.
Lemma zsum_zfold n (f : Z -> fl) : (0 <= n)%Z -> zsum n f = zfold n (fun i s => add s (f i)) zero.
Proof.
  intros Hn. pattern n. match goal with |- ?Q n => refine (natlike_ind Q _ _ n Hn); clear n Hn end; [reflexivity|]. intros n Hn IH. unfold Z.succ. rewrite zsum_S, zfold_S by exact Hn. now rewrite IH.
Qed.
Lemma zsum_from_zfold c n (f : Z -> fl) : (0 <= n)%Z -> zsum_from c n f = zfold n (fun i s => add s (f i)) c.
Proof.
  intros Hn. pattern n. match goal with |- ?Q n => refine (natlike_ind Q _ _ n Hn); clear n Hn end; [reflexivity|]. intros n Hn IH. unfold Z.succ. rewrite zsum_from_S, zfold_S by exact Hn. now rewrite IH.
Qed.
Lemma slack_roundings K M A : slack K M A = roundings prec emax K M A.
Proof. unfold slack, roundings, FloatError.err. ring. Qed.
Lemma roundings_mono K M A K' M' A' : (0 <= K <= K')%Z -> (0 <= M <= M')%Z -> 0 <= A <= A' -> roundings prec emax K M A <= roundings prec emax K' M' A'.
Proof. rewrite <- !slack_roundings. apply slack_mono. Qed.
Lemma accu_accurate g k e a ok s : accu g k e a ok -> accurate (g s) (k + 1) k (B2R s + e) (Rabs (B2R s) + a) (fin s /\ ok).
Proof. intros H. destruct (accu_result g k e a ok s H) as [H1 H2]. split; rewrite <- slack_roundings; [|tauto]. intros F. destruct (H1 F). tauto. Qed.
Lemma accurate_ext (r r' : fl) K M e e' A A' ok ok' : accurate r K M e A ok -> r' = r -> e' = e -> A' = A -> (ok <-> ok') -> accurate r' K M e' A' ok'.
Proof. intros [H1 H2] -> -> -> X. split; tauto. Qed.
Lemma accurate_dot (a b : Z -> fl) n : (0 <= n)%Z ->
  accurate (zsum n (fun i => mul (a i) (b i))) (n + 1) n (rsum n (fun i => B2R (a i) * B2R (b i))) (rsum n (fun i => Rabs (B2R (a i) * B2R (b i)))) (forall i, (0 <= i < n)%Z -> fin (a i) /\ fin (b i)).
Proof.
  intros Hn. pose proof (accu_fold n (fun i s => add s (mul (a i) (b i))) 1 _ _ _ Hn ltac:(lia) (fun i _ => accu_mac (a i) (b i))) as Q. rewrite Z.mul_1_r in Q.
  eapply accurate_ext; [apply (accu_accurate _ _ _ _ _ zero Q)|now apply zsum_zfold| | |].
  - change (B2R zero) with 0. now rewrite Rplus_0_l.
  - change (B2R zero) with 0. now rewrite Rabs_R0, Rplus_0_l.
  - split; [tauto|]. split; [reflexivity|assumption].
Qed.
Lemma accurate_dot_from (a b : Z -> fl) c n : (0 <= n)%Z ->
  accurate (zsum_from c n (fun i => mul (a i) (b i))) (n + 1) n (B2R c + rsum n (fun i => B2R (a i) * B2R (b i))) (Rabs (B2R c) + rsum n (fun i => Rabs (B2R (a i) * B2R (b i)))) (fin c /\ forall i, (0 <= i < n)%Z -> fin (a i) /\ fin (b i)).
Proof.
  intros Hn. pose proof (accu_fold n (fun i s => add s (mul (a i) (b i))) 1 _ _ _ Hn ltac:(lia) (fun i _ => accu_mac (a i) (b i))) as Q. rewrite Z.mul_1_r in Q.
  eapply accurate_ext; [apply (accu_accurate _ _ _ _ _ c Q)|now apply zsum_from_zfold| | |]; tauto || reflexivity.
Qed.
Lemma accurate_affine (a b : Z -> fl) c n : (0 <= n)%Z ->
  accurate (add (zsum n (fun i => mul (a i) (b i))) c) (n + 2) (n + 1) (rsum n (fun i => B2R (a i) * B2R (b i)) + B2R c)
    (rsum n (fun i => Rabs (B2R (a i) * B2R (b i))) + Rabs (B2R c)) ((forall i, (0 <= i < n)%Z -> fin (a i) /\ fin (b i)) /\ fin c).
Proof.
  intros Hn. pose proof (accu_fold n (fun i s => add s (mul (a i) (b i))) 1 _ _ _ Hn ltac:(lia) (fun i _ => accu_mac (a i) (b i))) as Q. rewrite Z.mul_1_r in Q.
  pose proof (accu_seq _ _ _ _ _ _ _ _ _ _ Q (accu_add c)) as Q'. replace (n + 2)%Z with (n + 1 + 1)%Z by lia.
  eapply accurate_ext; [apply (accu_accurate _ _ _ _ _ zero Q')|now rewrite <- zsum_zfold| | |].
  - change (B2R zero) with 0. now rewrite Rplus_0_l.
  - change (B2R zero) with 0. now rewrite Rabs_R0, Rplus_0_l.
  - split; [tauto|]. split; [reflexivity|assumption].
Qed.
Lemma accurate_mul x y : accurate (mul x y) 1 1 (B2R x * B2R y) (Rabs (B2R x * B2R y)) (fin x /\ fin y).
Proof.
  set (p := B2R x * B2R y). assert (Q : Rabs (rnd p - p) <= roundings prec emax 1 1 (Rabs p)).
  { destruct (rnd_err (prec := prec) (emax := emax) p) as (d & e & D1 & D2 & ->). unfold roundings. change (Z.to_nat 1) with 1%nat. rewrite !pow_1. replace (p * (1 + d) + e - p) with (d * p + e) by ring. pose proof (u_pos (prec := prec)). pose proof (eta_pos (prec := prec) (emax := emax)).
    eapply Rle_trans; [apply Rabs_triang|]. rewrite Rabs_mult. apply Rplus_le_compat; [apply Rmult_le_compat_r; [apply Rabs_pos|lra]|nra]. }
  split; cbn [mul NF Num_fl].
  - intros F. destruct (mul_fin_inv _ _ F) as (F1 & F2 & E). rewrite E. auto.
  - intros [Fx Fy] L. destruct (val_mul x y Fx Fy) as [N V]. apply fin_iff. split; [exact N|]. rewrite V. fold p. assert (Rabs (rnd p) < big emax).
    { apply Rle_lt_trans with (2 := L). replace (rnd p) with (p + (rnd p - p)) by ring. eapply Rle_trans; [apply Rabs_triang|]. lra. }
    apply Rabs_def2 in H. rewrite clamp_id by lra. apply Rabs_def1; lra.
Qed.
End Acc.

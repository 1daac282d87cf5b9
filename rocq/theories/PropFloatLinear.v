(** * Property C98: dot products and matrix products in floating-point arithmetic *)
From Coq Require Import ZArith Reals Lra Lia List.
From Flocq Require Import Core BinarySingleNaN.
From Verif Require Import Mem Scalar MemSpec MemLemmas Lique LiqueSpec LiqueProofs Linear LinearProofs PropLinear Float FloatSpec FloatLemmas FloatLib FloatError FloatAcc.
Import ListNotations.
Local Open Scope R_scope.

Section Linear.
Context {prec emax : Z} {Hp : Prec_gt_0 prec} {He : Prec_lt_emax prec emax} (lib : libm prec emax).
Notation fl := (fl prec emax).
#[local] Instance NF : Num fl := Num_fl prec emax lib.

(** [r] is the dot product of the [n] numbers [a i] with the [b i], computed with rounding *)
Definition dot_product (n : Z) (a b : Z -> fl) (r : fl) : Prop :=
  accurate r (n + 1) n (rsum n (fun i => B2R (a i) * B2R (b i))) (rsum n (fun i => Rabs (B2R (a i) * B2R (b i))))
    (forall i, (0 <= i < n)%Z -> fin (a i) /\ fin (b i)).

Theorem C98_dot (a b : tensor) (m : mem fl) (n : Z) fa fb :
  t_size a = n -> (0 <= n)%Z -> holds m (t_data a) n fa -> holds m (t_data b) n fb ->
  exists r, lin_dot_vv a b m = Ok (r, m) /\ dot_product n fa fb r.
Proof. intros <- Hn Ha Hb. eexists. split; [apply (wp_dot_vv a b m fa fb); auto|]. now apply (accurate_dot lib fa fb). Qed.
Theorem C98_vector_times_matrix (r v A : tensor) (m : mem fl) (n w : Z) fv fa :
  t_size v = n -> t_size r = w -> mat_is A n w ->
  holds m (t_data v) n fv -> holds2 m (t_data A) n w fa -> room m (t_data r) w ->
  disjoint (t_data r) w (t_data v) n -> disjoint (t_data r) w (t_data A) (n * w) ->
  exists m' y, lin_dot_vm r v A m = Ok (tt, m') /\ sets (t_data r) w y m m' /\
    forall j, (0 <= j < w)%Z -> dot_product n fv (fun i => fa i j) (y j).
Proof.
  intros Sv Sr MA Hv HA Hr D1 D2. destruct (C14_row_vector_times_matrix r v A m n w fv fa Sv Sr MA Hv HA Hr D1 D2) as (m' & E & S).
  eexists m', _. split; [exact E|]. split; [exact S|]. intros j Hj. apply (accurate_dot lib fv (fun i => fa i j)), MA.
Qed.
Theorem C98_matrix_times_vector (r A v : tensor) (m : mem fl) (h n : Z) fv fa :
  t_size r = h -> t_size v = n -> mat_is A h n ->
  holds m (t_data v) n fv -> holds2 m (t_data A) h n fa -> room m (t_data r) h ->
  disjoint (t_data r) h (t_data v) n -> disjoint (t_data r) h (t_data A) (h * n) ->
  exists m' y, lin_dot_mv r A v m = Ok (tt, m') /\ sets (t_data r) h y m m' /\
    forall i, (0 <= i < h)%Z -> dot_product n (fa i) fv (y i).
Proof.
  intros Sr Sv MA Hv HA Hr D1 D2. destruct (C15_matrix_times_column_vector r A v m h n fv fa Sr Sv MA Hv HA Hr D1 D2) as (m' & E & S).
  eexists m', _. split; [exact E|]. split; [exact S|]. intros i Hi. apply (accurate_dot lib (fa i) fv), MA.
Qed.
Theorem C98_matrix_product (A B : tensor) (m : mem fl) (h n w : Z) fa fb :
  mat_is A h n -> mat_is B n w -> (h * w < 2 ^ 64)%Z ->
  holds2 m (t_data A) h n fa -> holds2 m (t_data B) n w fb ->
  exists r m' y, lin_dot_mm_ret A B m = Ok (r, m') /\ mat_is r h w /\ made2 m h w y (t_data r) m' /\
    forall i j, (0 <= i < h)%Z -> (0 <= j < w)%Z -> dot_product n (fa i) (fun k => fb k j) (y i j).
Proof.
  intros MA MB Hs HA HB. destruct (C16_matrix_product_ret A B m h n w fa fb MA MB Hs HA HB) as (r & m' & E & Mr & S).
  eexists r, m', _. split; [exact E|]. split; [exact Mr|]. split; [exact S|]. intros i j Hi Hj. apply (accurate_dot lib (fa i) (fun k => fb k j)), MA.
Qed.
(** the in-place form adds to the previous contents of the result *)
Theorem C98_matrix_product_inplace (r A B : tensor) (m : mem fl) (h n w : Z) fr fa fb :
  mat_is r h w -> mat_is A h n -> mat_is B n w ->
  holds2 m (t_data r) h w fr -> holds2 m (t_data A) h n fa -> holds2 m (t_data B) n w fb ->
  disjoint (t_data r) (h * w) (t_data A) (h * n) -> disjoint (t_data r) (h * w) (t_data B) (n * w) ->
  exists m' y, lin_dot_mm r A B m = Ok (tt, m') /\ sets2 (t_data r) h w y m m' /\
    forall i j, (0 <= i < h)%Z -> (0 <= j < w)%Z ->
      accurate (y i j) (n + 1) n (B2R (fr i j) + rsum n (fun k => B2R (fa i k) * B2R (fb k j)))
        (Rabs (B2R (fr i j)) + rsum n (fun k => Rabs (B2R (fa i k) * B2R (fb k j))))
        (fin (fr i j) /\ forall k, (0 <= k < n)%Z -> fin (fa i k) /\ fin (fb k j)).
Proof.
  intros Mr MA MB Hr HA HB D1 D2. destruct (C16_matrix_product_inplace_partial r A B m h n w fr fa fb Mr MA MB Hr HA HB D1 D2) as (m' & E & S).
  eexists m', _. split; [exact E|]. split; [exact S|]. intros i j Hi Hj. apply (accurate_dot_from lib (fa i) (fun k => fb k j)), MA.
Qed.
(** No rounding at all on integers: if all products are integers of total magnitude at most 2^prec. *)
Lemma int_rsum n (f : Z -> R) : (0 <= n)%Z -> (forall i, (0 <= i < n)%Z -> exists z, f i = IZR z) -> exists z, rsum n f = IZR z.
Proof.
  intros Hn. pattern n. match goal with |- ?Q n => refine (natlike_ind Q _ _ n Hn); clear n Hn end.
  - intros _. exists 0%Z. now rewrite zsum_0.
  - intros n Hn IH H. unfold Z.succ in *. destruct IH as [z1 E1]; [intros; apply H; lia|]. destruct (H n ltac:(lia)) as [z2 E2]. exists (z1 + z2)%Z. rewrite zsum_S, plus_IZR by exact Hn. cbn [add Num_R]. now rewrite E1, E2.
Qed.
Lemma int_dot (a b : Z -> fl) n : (prec < emax)%Z -> (0 <= n)%Z -> (forall i, (0 <= i < n)%Z -> fin (a i) /\ fin (b i) /\ exists z, B2R (a i) * B2R (b i) = IZR z) ->
  rsum n (fun i => Rabs (B2R (a i) * B2R (b i))) <= IZR (2 ^ prec) ->
  fin (zsum n (fun i => mul (a i) (b i))) /\ B2R (zsum n (fun i => mul (a i) (b i))) = rsum n (fun i => B2R (a i) * B2R (b i)).
Proof.
  intros PM Hn. pattern n. match goal with |- ?Q n => refine (natlike_ind Q _ _ n Hn); clear n Hn end.
  - intros _ _. rewrite !zsum_0. split; reflexivity.
  - intros n Hn IH H L. unfold Z.succ in *. rewrite zsum_S in L by exact Hn. rewrite !zsum_S by exact Hn. cbn [add mul NF Num_fl Num_R] in *.
    assert (A0 : 0 <= rsum n (fun i => Rabs (B2R (a i) * B2R (b i)))) by (apply rsum_nonneg; [exact Hn|intros; apply Rabs_pos]).
    set (p := B2R (a n) * B2R (b n)) in *. pose proof (Rabs_pos p) as P0. assert (PP := prec_pos (prec := prec)).
    assert (B : IZR (2 ^ prec) < big emax). { change 2%Z with (radix_val radix2). rewrite IZR_Zpower by lia. now apply bpow_lt. }
    assert (ex : forall (r : R) z, r = IZR z -> Rabs r <= IZR (2 ^ prec) -> clamp (emax := emax) (rnd (prec := prec) (emax := emax) r) = r /\ Rabs r < big emax).
    { intros r z -> Lr. split; [|lra]. rewrite rnd_id. { apply Rabs_le_inv in Lr. apply clamp_id. lra. } apply fmt_Z. rewrite <- abs_IZR in Lr. now apply le_IZR. }
    destruct IH as [Fs Es]; [intros; apply H; lia|lra|]. destruct (H n ltac:(lia)) as (Fa & Fb & z & Ez). fold p in Ez.
    destruct (ex p z Ez ltac:(lra)) as [C1 C2]. destruct (val_mul (a n) (b n) Fa Fb) as [N V]. fold p in V. rewrite C1 in V.
    assert (Fm : fin (Bmult mode_NE (a n) (b n))) by (apply fin_iff; split; [exact N|now rewrite V]). rewrite (fin_val _ Fm) in V.
    destruct (int_rsum n (fun i => B2R (a i) * B2R (b i)) Hn) as [z' Ez']; [intros i Hi; apply H; lia|].
    destruct (ex (rsum n (fun i => B2R (a i) * B2R (b i)) + p) (z' + z)%Z) as [C3 C4]; [rewrite plus_IZR; now rewrite Ez', Ez| |].
    { pose proof (rsum_abs_le n (fun i => B2R (a i) * B2R (b i)) Hn) as Q. eapply Rle_trans; [apply Rabs_triang|]. lra. }
    destruct (val_add _ _ Fs Fm) as [N' V']. rewrite Es, V, C3 in V'. match type of N' with num ?r => assert (Fr : fin r) by (apply fin_iff; split; [exact N'|now rewrite V']) end.
    rewrite (fin_val _ Fr) in V'. auto.
Qed.
Theorem C98_integers_exact (a b : tensor) (m : mem fl) (n : Z) fa fb :
  t_size a = n -> (0 <= n)%Z -> holds m (t_data a) n fa -> holds m (t_data b) n fb ->
  (forall i, (0 <= i < n)%Z -> fin (fa i) /\ fin (fb i) /\ exists z, B2R (fa i) * B2R (fb i) = IZR z) ->
  rsum n (fun i => Rabs (B2R (fa i) * B2R (fb i))) <= IZR (2 ^ prec) ->
  exists r, lin_dot_vv a b m = Ok (r, m) /\ fin r /\ B2R r = rsum n (fun i => B2R (fa i) * B2R (fb i)).
Proof. intros <- Hn Ha Hb Hi L. eexists. split; [apply (wp_dot_vv a b m fa fb); auto|]. apply int_dot; auto. Qed.
End Linear.

(** ** The hypotheses can be met: (2, 1/8, 2^1020) . (32, 2^-1000, 4) in double precision *)
Module Examples.
#[local] Instance Hp53 : Prec_gt_0 53 := eq_refl.
#[local] Instance He53 : Prec_lt_emax 53 1024 := eq_refl.
Notation double := (fl 53 1024).
Definition lib := cr_lib (prec := 53) (emax := 1024).
Definition pw (k : Z) : double := fl_of (bpow radix2 k).
Lemma pw_ok k : (-1074 <= k < 1024)%Z -> fin (pw k) /\ B2R (pw k) = bpow radix2 k.
Proof. intros H. apply fl_of_exact; [apply fmt_bpow; lia|]. rewrite Rabs_pos_eq by apply bpow_ge_0. apply bpow_lt. lia. Qed.
Definition m0 : mem double := [Some [Some (pw 1); Some (pw (-3)); Some (pw 1020)]; Some [Some (pw 5); Some (pw (-1000)); Some (pw 2)]; Some [None; None; None]].
Definition va (i : Z) : double := match i with 0%Z => pw 1 | 1%Z => pw (-3) | _ => pw 1020 end.
Definition vb (i : Z) : double := match i with 0%Z => pw 5 | 1%Z => pw (-1000) | _ => pw 2 end.
Definition ta := mk_tensor (Ptr 0 0) (shape1 3).
Definition tb := mk_tensor (Ptr 1 0) (shape1 3).
Lemma cases3 (P : Z -> Prop) : P 0%Z -> P 1%Z -> P 2%Z -> forall i, (0 <= i < 3)%Z -> P i.
Proof. intros A B C i Hi. assert (H : i = 0%Z \/ i = 1%Z \/ i = 2%Z) by lia. destruct H as [->|[->| ->]]; assumption. Qed.
Lemma ha : holds m0 (Ptr 0 0) 3 va. Proof. refine (cases3 (fun i => elem m0 (Ptr 0 0) i = Some (Some (va i))) _ _ _); reflexivity. Qed.
Lemma hb : holds m0 (Ptr 1 0) 3 vb. Proof. refine (cases3 (fun i => elem m0 (Ptr 1 0) i = Some (Some (vb i))) _ _ _); reflexivity. Qed.
Lemma f3 : forall i, (0 <= i < 3)%Z -> fin (va i) /\ fin (vb i).
Proof. apply (cases3 (fun i => fin (va i) /\ fin (vb i))); split; apply pw_ok; lia. Qed.
Lemma rsum3 (f : Z -> R) : rsum 3 f = f 0%Z + f 1%Z + f 2%Z.
Proof. change 3%Z with (0 + 1 + 1 + 1)%Z. rewrite !zsum_S, zsum_0 by lia. cbn [add zero Num_R]. rewrite Rplus_0_l. reflexivity. Qed.
(** the dot product is about 2^1022: the theorem gives finiteness and the error bound *)
Example C98_three : exists r, lin_dot_vv (NT := Num_fl 53 1024 lib) ta tb m0 = Ok (r, m0) /\ fin r /\
  Rabs (B2R r - rsum 3 (fun i => B2R (va i) * B2R (vb i))) <= roundings 53 1024 4 3 (rsum 3 (fun i => Rabs (B2R (va i) * B2R (vb i)))).
Proof.
  destruct (C98_dot (prec := 53) (emax := 1024) lib ta tb m0 3 va vb eq_refl ltac:(lia) ha hb) as (r & E & A1 & A2). exists r. split; [exact E|].
  assert (F : fin r); [|split; [exact F|apply A1, F]]. apply A2; [apply f3|].
  assert (V : rsum 3 (fun i => Rabs (B2R (va i) * B2R (vb i))) <= bpow radix2 1022 + 65).
  { rewrite rsum3. cbn [va vb]. rewrite (proj2 (pw_ok 1 ltac:(lia))), (proj2 (pw_ok 5 ltac:(lia))), (proj2 (pw_ok (-3) ltac:(lia))), (proj2 (pw_ok (-1000) ltac:(lia))), (proj2 (pw_ok 1020 ltac:(lia))), (proj2 (pw_ok 2 ltac:(lia))). rewrite <- !bpow_plus, !Rabs_pos_eq by apply bpow_ge_0. change (1 + 5)%Z with 6%Z. change (-3 + -1000)%Z with (-1003)%Z. change (1020 + 2)%Z with 1022%Z.
    change (bpow radix2 6) with 64. assert (bpow radix2 (-1003) <= bpow radix2 0) by (apply bpow_le; lia). change (bpow radix2 0) with 1 in H. lra. }
  clear A1 A2. set (S := rsum 3 _) in *. assert (S0 : 0 <= S) by (apply rsum_nonneg; [lia|intros; apply Rabs_pos]).
  unfold roundings. change (Z.to_nat (3 + 1)) with 4%nat. assert (U1 : uro 53 <= / 1024) by (unfold uro; change (/ 1024) with (bpow radix2 (-10)); apply bpow_le; lia). pose proof (u_pos (prec := 53)) as U0.
  assert (E1 : eta 53 1024 <= 1) by (unfold eta; change 1 with (bpow radix2 0); apply bpow_le; lia). pose proof (eta_pos (prec := 53) (emax := 1024)) as E0.
  assert (P4 : (1 + uro 53) ^ 4 <= 1 + / 4). { apply Rle_trans with ((1 + / 1024) ^ 4); [apply pow_incr; lra|]. cbn [pow]. lra. }
  assert (P1 : 1 <= (1 + uro 53) ^ 4) by apply one_le_pow. set (p4 := (1 + uro 53) ^ 4) in *. assert (B : big 1024 = 4 * bpow radix2 1022). { change 4 with (bpow radix2 2). rewrite <- bpow_plus. reflexivity. }
  assert (L : 1024 <= bpow radix2 1022) by (change 1024 with (bpow radix2 10); apply bpow_le; lia). rewrite B. set (G := bpow radix2 1022) in *. clearbody G p4 S. generalize dependent (eta 53 1024). intros e E1 E0. change (IZR 3) with 3. assert ((p4 - 1) * S <= / 4 * S) by (apply Rmult_le_compat_r; lra). assert (3 * e * p4 <= 3 * 1 * (1 + / 4)) by nra. lra.
Qed.
End Examples.
Print Assumptions C98_dot.
Print Assumptions C98_vector_times_matrix.
Print Assumptions C98_matrix_times_vector.
Print Assumptions C98_matrix_product.
Print Assumptions C98_matrix_product_inplace.
Print Assumptions C98_integers_exact.

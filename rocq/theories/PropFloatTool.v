(** * Property C129: searches, statistics and sampling of Tool.hpp in floating-point arithmetic *)
From Coq Require Import ZArith Reals Lra Lia List Bool.
From Flocq Require Import Core BinarySingleNaN.
From Verif Require Import Mem Scalar MemSpec MemLemmas Lique LiqueSpec LiqueProofs LinearProofs RSum Tool PropTool Float FloatSpec FloatLemmas FloatLib FloatError FloatAcc FloatStat PropFloatLinear.
Import ListNotations.
Local Open Scope R_scope.

(** ** Specification *)
Section Spec.
Context {prec emax : Z}.
Notation fl := (fl prec emax).
(** [r] is the index a search for the largest of [n] elements finds: the first largest number, NaN elements being skipped;
    but 0 when the first element is NaN *)
Definition first_largest (n : Z) (f : Z -> fl) (r : Z) : Prop :=
  (0 <= r < n)%Z /\
  (~ num (f 0%Z) -> r = 0%Z) /\
  (num (f 0%Z) -> num (f r) /\
     (forall i, (0 <= i < n)%Z -> num (f i) -> val (f i) <= val (f r)) /\
     (forall i, (0 <= i < r)%Z -> num (f i) -> val (f i) < val (f r))).
Definition first_smallest (n : Z) (f : Z -> fl) (r : Z) : Prop :=
  (0 <= r < n)%Z /\
  (~ num (f 0%Z) -> r = 0%Z) /\
  (num (f 0%Z) -> num (f r) /\
     (forall i, (0 <= i < n)%Z -> num (f i) -> val (f r) <= val (f i)) /\
     (forall i, (0 <= i < r)%Z -> num (f i) -> val (f r) < val (f i))).
End Spec.

Section Props.
Context {prec emax : Z} {Hp : Prec_gt_0 prec} {He : Prec_lt_emax prec emax} (lib : libm prec emax).
Notation fl := (fl prec emax).
Notation rnd := (rnd (prec := prec) (emax := emax)).
#[local] Instance NF : Num fl := Num_fl prec emax lib.
Implicit Types (x y : fl) (m : mem fl).

Lemma num_dec x : num x \/ ~ num x.
Proof. unfold num. destruct (is_nan x); [right; discriminate|left; reflexivity]. Qed.
Lemma largest_search : search_step (is_less (NT := NF)) first_largest.
Proof.
  split; [|split].
  - intros f. split; [lia|]. split; [reflexivity|]. intros N. split; [exact N|]. split; [|intros; lia]. intros i Hi _. replace i with 0%Z by lia. lra.
  - intros i f r Hi (Hr & A & B). unfold is_less. cbn [ltb NF Num_fl]. destruct (Bltb (f r) (f i)) eqn:E.
    + destruct (ltb_num _ _ E) as [N1 N2]. split; [lia|]. split.
      { intros H. exfalso. rewrite (A H) in N1. auto. }
      intros N0. destruct (B N0) as (_ & C & D). apply (proj1 (val_ltb _ _ N1 N2)) in E. split; [exact N2|]. split; intros j Hj Nj.
      * destruct (Z.eq_dec j i) as [->|]; [lra|]. pose proof (C j ltac:(lia) Nj). lra.
      * pose proof (C j ltac:(lia) Nj). lra.
    + split; [lia|]. split; [exact A|]. intros N0. destruct (B N0) as (N1 & C & D). split; [exact N1|]. split; [|exact D]. intros j Hj Nj.
      destruct (Z.eq_dec j i) as [->|]; [now apply (proj1 (val_ltb_false _ _ N1 Nj)) in E|apply C; [lia|exact Nj]].
  - intros i f r H. apply H.
Qed.
Lemma smallest_search : search_step (is_bigger (NT := NF)) first_smallest.
Proof.
  split; [|split].
  - intros f. split; [lia|]. split; [reflexivity|]. intros N. split; [exact N|]. split; [|intros; lia]. intros i Hi _. replace i with 0%Z by lia. lra.
  - intros i f r Hi (Hr & A & B). unfold is_bigger. cbn [ltb NF Num_fl]. destruct (Bltb (f i) (f r)) eqn:E.
    + destruct (ltb_num _ _ E) as [N2 N1]. split; [lia|]. split.
      { intros H. exfalso. rewrite (A H) in N1. auto. }
      intros N0. destruct (B N0) as (_ & C & D). apply (proj1 (val_ltb _ _ N2 N1)) in E. split; [exact N2|]. split; intros j Hj Nj.
      * destruct (Z.eq_dec j i) as [->|]; [lra|]. pose proof (C j ltac:(lia) Nj). lra.
      * pose proof (C j ltac:(lia) Nj). lra.
    + split; [lia|]. split; [exact A|]. intros N0. destruct (B N0) as (N1 & C & D). split; [exact N1|]. split; [|exact D]. intros j Hj Nj.
      destruct (Z.eq_dec j i) as [->|]; [now apply (proj1 (val_ltb_false _ _ Nj N1)) in E|apply C; [lia|exact Nj]].
  - intros i f r H. apply H.
Qed.

(** ** Searches: any elements, infinities and NaN included *)
Theorem C129_argmax (p : ptr) (n : Z) (f : Z -> fl) m : (0 < n)%Z -> holds m p n f ->
  exists r, tl_argmax p n m = Ok (r, m) /\ tl_max p n m = Ok (f r, m) /\ first_largest n f r.
Proof.
  intros Hn Hf. destruct (search_inv is_less first_largest p n f m largest_search Hn Hf) as (r & E & Hr). exists r. split; [exact E|]. split; [|exact Hr].
  unfold tl_max. erewrite bind_eq by exact E. apply load_ok. apply Hf, Hr.
Qed.
Theorem C129_argmin (p : ptr) (n : Z) (f : Z -> fl) m : (0 < n)%Z -> holds m p n f ->
  exists r, tl_argmin p n m = Ok (r, m) /\ tl_min p n m = Ok (f r, m) /\ first_smallest n f r.
Proof.
  intros Hn Hf. destruct (search_inv is_bigger first_smallest p n f m smallest_search Hn Hf) as (r & E & Hr). exists r. split; [exact E|]. split; [|exact Hr].
  unfold tl_min. erewrite bind_eq by exact E. apply load_ok. apply Hf, Hr.
Qed.
(** along Axis::X of a matrix, column by column *)
Theorem C129_axis_x (t : tensor) m (h w : Z) (f : Z -> Z -> fl) :
  mat_is t h w -> (0 < h)%Z -> holds2 m (t_data t) h w f ->
  (exists l, tl_search_x t is_less m = Ok (map Some l, m) /\ Z.of_nat (length l) = w /\
     forall j, (0 <= j < w)%Z -> exists r, znth l j = Some r /\ first_largest h (fun i => f i j) r) /\
  (exists l, tl_search_x t is_bigger m = Ok (map Some l, m) /\ Z.of_nat (length l) = w /\
     forall j, (0 <= j < w)%Z -> exists r, znth l j = Some r /\ first_smallest h (fun i => f i j) r).
Proof. intros Ht Hh Hf. split; apply search_x_inv; auto using largest_search, smallest_search. Qed.

(** ** Statistics *)
Theorem C129_accumulate (p : ptr) (n : Z) (f : Z -> fl) (init : fl) m : (0 <= n)%Z -> holds m p n f ->
  exists r, tl_accumulate p n init m = Ok (r, m) /\
    accurate r n 0 (B2R init + rsum n (fun i => B2R (f i))) (Rabs (B2R init) + rsum n (fun i => Rabs (B2R (f i))))
      (fin init /\ forall i, (0 <= i < n)%Z -> fin (f i)).
Proof. intros Hn Hf. eexists. split; [exact (accumulate_ok p n f init m Hn Hf)|]. exact (sum_accurate lib f init n Hn). Qed.
Theorem C129_mean (p : ptr) (n : Z) (f : Z -> fl) m : (0 < n <= 2 ^ prec)%Z -> holds m p n f ->
  let total := rsum n (fun i => B2R (f i)) in let magnitude := rsum n (fun i => Rabs (B2R (f i))) in
  exists r, tl_mean p n m = Ok (r, m) /\
    (fin r -> (forall i, (0 <= i < n)%Z -> fin (f i)) /\
       Rabs (B2R r - total / IZR n) <= roundings prec emax (n + 1) 1 (magnitude / IZR n)) /\
    ((forall i, (0 <= i < n)%Z -> fin (f i)) -> magnitude + roundings prec emax n 0 magnitude < big emax -> fin r).
Proof.
  intros Hn Hf S A. destruct (C23_statistics_any_scalar (H := NF) p n f m zero false ltac:(lia) Hf) as (_ & E & _). eexists. split; [exact E|]. exact (mean_accurate lib f n Hn).
Qed.
Lemma div_le (s : R) (k : Z) x : (1 <= k)%Z -> s = B2R x -> Rabs (rnd (s / IZR k)) <= Rabs s.
Proof.
  intros Hk ->. assert (N1 : 1 <= IZR k) by (apply IZR_le; exact Hk).
  assert (X : Rabs (B2R x / IZR k) <= Rabs (B2R x)). { unfold Rdiv. rewrite Rabs_mult, (Rabs_pos_eq (/ IZR k)) by (left; apply Rinv_0_lt_compat; lra). assert (/ IZR k <= 1) by (rewrite <- Rinv_1; apply Rinv_le_contravar; lra). pose proof (Rabs_pos (B2R x)). nra. }
  apply Rabs_le. apply Rabs_le_inv in X. pose proof (fmt_B2R x) as G. set (s := B2R x) in *. clearbody s. apply rnd_between; [apply fmt_opp| |exact X]; destruct (Rle_dec 0 s); [rewrite Rabs_pos_eq by lra|rewrite Rabs_left by lra; apply fmt_opp|rewrite Rabs_pos_eq by lra|rewrite Rabs_left by lra; apply fmt_opp]; exact G.
Qed.
(** The square of the standard deviation is close to the mean square deviation from the computed mean [mu], that is to
    the exact variance plus what the error of [mu] adds to it. *)
Theorem C129_std (p : ptr) (n : Z) (f : Z -> fl) (unbiased : bool) m :
  let k := (n - (if unbiased then 1 else 0))%Z in
  (0 < k)%Z -> (n <= 2 ^ prec)%Z -> holds m p n f ->
  let mean := rsum n (fun i => B2R (f i)) / IZR n in
  exists r mu, tl_std p n unbiased m = Ok (r, m) /\ tl_mean p n m = Ok (mu, m) /\
    let squares := rsum n (fun i => (B2R (f i) - mean) ^ 2) + IZR n * (B2R mu - mean) ^ 2 in
    (fin r -> (forall i, (0 <= i < n)%Z -> fin (f i)) /\ fin mu /\ 0 <= B2R r /\
       Rabs (B2R r ^ 2 - squares / IZR k) <= roundings prec emax (n + 6) (n + 1) (squares / IZR k)) /\
    ((forall i, (0 <= i < n)%Z -> fin (f i)) -> fin mu -> squares + roundings prec emax (n + 3) n squares < big emax -> fin r).
Proof.
  intros k Hk Hn Hf mean. assert (kn : (k <= n)%Z) by (unfold k; destruct unbiased; lia). assert (n0 : (0 < n)%Z) by lia.
  destruct (C23_statistics_any_scalar (H := NF) p n f m zero unbiased ltac:(lia) Hf) as (_ & Em & Es). fold k in Es. eexists _, _. split; [exact Es|]. split; [exact Em|]. cbv zeta.
  set (mu := div (zsum n f) (ofZ n)). clearbody mu. clear Es Em. pose proof (shift_rsum n (fun i => B2R (f i)) (B2R mu) n0) as Sh. fold mean in Sh. rewrite <- Sh. clear Sh.
  set (s := zsum n (fun i => mul (sub (f i) mu) (sub (f i) mu))). destruct (squares_app lib f mu n ltac:(lia)) as [H1 H2]. cbv zeta in H1, H2. change (zsum n (fun i => mul (sub (f i) mu) (sub (f i) mu))) with s in H1, H2. clearbody s.
  set (C := rsum n (fun i => (B2R (f i) - B2R mu) * (B2R (f i) - B2R mu))) in *. assert (C0 : 0 <= C) by (apply rsum_nonneg; [lia|intros; apply Rle_0_sqr]). clearbody C.
  destruct (ofZ_small (prec := prec) (emax := emax) k ltac:(lia)) as [FK EK]. assert (K1 : 1 <= IZR k) by (apply IZR_le; lia). cbn [div ofZ nsqrt NF Num_fl]. assert (KZ : B2R (fl_ofZ prec emax k) <> 0) by (rewrite EK; lra).
  rewrite <- !slack_roundings. split.
  - intros F. destruct (sqrt_fin_inv _ F) as [Fq Pq]. destruct (div_fin_inv _ _ FK KZ Fq) as [Fs Eq]. destruct (H1 Fs) as (Ff & A & P). split; [intros i Hi; apply Ff; exact Hi|]. split; [apply (Ff 0%Z); lia|].
    destruct (val_sqrt _ Fq Pq) as ((_ & Q1 & _) & F' & _). rewrite (fin_val _ F') in Q1. split; [exact Q1|]. clear Q1 F'.
    destruct (sqrt_err _ Fq Pq) as (d & D1 & D2). rewrite D2. replace ((sqrt (B2R (Bdiv mode_NE s (fl_ofZ prec emax k))) * (1 + d)) ^ 2) with (sqrt (B2R (Bdiv mode_NE s (fl_ofZ prec emax k))) * sqrt (B2R (Bdiv mode_NE s (fl_ofZ prec emax k))) * (1 + d) * (1 + d)) by ring.
    rewrite sqrt_sqrt by exact Pq. replace (n + 6)%Z with (n + 3 + 1 + 1 + 1)%Z by lia. apply appR_scale; [lia|lia|exact D1|]. apply appR_scale; [lia|lia|exact D1|]. rewrite Eq, EK. apply appR_rnd; [lia|lia|]. apply appR_div; [lia|lia|exact K1|exact A].
  - intros Ff Fm L. assert (Fs : fin s) by (apply H2; auto). destruct (H1 Fs) as (_ & _ & P). destruct (val_div _ _ Fs FK KZ) as [N V].
    assert (B : Rabs (rnd (B2R s / B2R (fl_ofZ prec emax k))) < big emax). { rewrite EK. eapply Rle_lt_trans; [apply (div_le _ k s); [lia|reflexivity]|]. rewrite <- (fin_val _ Fs). now apply fin_bound. }
    destruct (fin_of_val _ _ N V B) as [Fq Eq]. apply val_sqrt; [exact Fq|]. rewrite Eq, EK. apply Rle_trans with (rnd 0); [rewrite rnd_0; lra|]. apply rnd_le. apply Rmult_le_pos; [exact P|]. left. apply Rinv_0_lt_compat. lra.
Qed.
(** Degenerate cases: the mean and the deviation of nothing, and the unbiased deviation of one number, are NaN; the
    (biased) deviation of one number is 0. *)
Theorem C129_nothing (p : ptr) m :
  (exists r, tl_mean p 0 m = Ok (r, m) /\ ~ num r) /\ (exists r, tl_std p 0 false m = Ok (r, m) /\ ~ num r).
Proof.
  assert (Hf : holds m p 0 (fun _ => zero)) by (intros i Hi; lia). destruct (C23_statistics_any_scalar (H := NF) p 0 (fun _ => zero) m zero false ltac:(lia) Hf) as (_ & Em & Es).
  split; eexists; (split; [eassumption|]); rewrite !zsum_0; discriminate.
Qed.
Theorem C129_one (p : ptr) (x : fl) m : holds m p 1 (fun _ => x) -> fin x ->
  (exists r, tl_mean p 1 m = Ok (r, m) /\ fin r /\ B2R r = B2R x) /\
  (exists r, tl_std p 1 false m = Ok (r, m) /\ fin r /\ B2R r = 0) /\
  (exists r, tl_std p 1 true m = Ok (r, m) /\ ~ num r).
Proof.
  intros Hf Fx. assert (P1 : (1 <= 2 ^ prec)%Z). { pose proof (prec_pos (prec := prec)). change 1%Z with (2 ^ 0)%Z. apply Z.pow_le_mono_r; lia. }
  destruct (ofZ_small (prec := prec) (emax := emax) 1 ltac:(lia)) as [F1 E1]. assert (NZ : B2R (fl_ofZ prec emax 1) <> 0) by (rewrite E1; lra).
  assert (Mean : fin (div (zsum 1 (fun _ => x)) (ofZ 1)) /\ B2R (div (zsum 1 (fun _ => x)) (ofZ 1)) = B2R x).
  { change (zsum 1 (fun _ => x)) with (zsum (0 + 1) (fun _ => x)). rewrite zsum_S, zsum_0 by lia. cbn [add zero div ofZ NF Num_fl].
    destruct (val_add (B754_zero false) x eq_refl Fx) as [N V]. cbn [B2R] in V. rewrite Rplus_0_l in V. pose proof (fin_bound _ Fx) as B. rewrite (fin_val _ Fx) in B.
    destruct (fin_of_val _ _ N V) as [Fs Es]; [now rewrite rnd_id by apply fmt_B2R|]. rewrite rnd_id in Es by apply fmt_B2R.
    destruct (val_div _ _ Fs F1 NZ) as [N' V']. rewrite Es, E1 in V'. replace (B2R x / 1) with (B2R x) in V' by field. destruct (fin_of_val _ _ N' V') as [Fd Ed]; [now rewrite rnd_id by apply fmt_B2R|]. rewrite rnd_id in Ed by apply fmt_B2R. auto. }
  set (mu := div (zsum 1 (fun _ => x)) (ofZ 1)) in *. destruct (C23_statistics_any_scalar (H := NF) p 1 (fun _ => x) m zero false ltac:(lia) Hf) as (_ & Em & Es0). destruct (C23_statistics_any_scalar (H := NF) p 1 (fun _ => x) m zero true ltac:(lia) Hf) as (_ & _ & Es1).
  change (div (zsum 1 (fun _ => x)) (ofZ 1)) with mu in Em, Es0, Es1. clearbody mu. destruct Mean as [Fm Emu]. split; [eauto|].
  assert (S0 : exists b, zsum 1 (fun _ => mul (sub x mu) (sub x mu)) = B754_zero b).
  { destruct (squares_app lib (fun _ => x) mu 1 ltac:(lia)) as [H1 H2]. cbv zeta in H1, H2. set (s := zsum 1 _) in *.
    assert (C0 : rsum 1 (fun _ => (B2R x - B2R mu) * (B2R x - B2R mu)) = 0). { change 1%Z with (0 + 1)%Z. rewrite zsum_S, zsum_0 by lia. cbn [add zero Num_R]. rewrite Emu. ring. }
    assert (D : sub x mu = B754_zero (Bsign (sub x mu))).
    { destruct (val_sub x mu Fx Fm) as [N V]. rewrite Emu, Rminus_eq_0, rnd_0 in V. rewrite clamp_id in V by (pose proof (big_pos (emax := emax)); lra). cbn [sub NF Num_fl] in *. pose proof (big_pos (emax := emax)) as BP. destruct (Bminus mode_NE x mu) as [b|b| |b e ex] eqn:E; [reflexivity| | |].
      - cbn in V. destruct b; lra.
      - discriminate N.
      - exfalso. cbn in V. apply eq_0_F2R in V. destruct b; discriminate. }
    clear H1 H2. unfold s. change 1%Z with (0 + 1)%Z. rewrite zsum_S, zsum_0 by lia. rewrite D. destruct (Bsign (sub x mu)); eexists; reflexivity. }
  destruct S0 as [b S0]. rewrite S0 in Es0, Es1. split.
  - eexists. split; [exact Es0|]. change (1 - 0)%Z with 1%Z. cbn [div ofZ nsqrt NF Num_fl].
    destruct (val_div (B754_zero b) _ eq_refl F1 NZ) as [N V]. rewrite E1 in V. cbn [B2R] in V. replace (0 / 1) with 0 in V by field.
    destruct (fin_of_val _ _ N V) as [Fd Ed]; [rewrite rnd_0, Rabs_R0; apply big_pos|]. rewrite rnd_0 in Ed.
    destruct (val_sqrt _ Fd ltac:(rewrite Ed; lra)) as (_ & Fr & Er). rewrite Ed, sqrt_0, rnd_0 in Er. auto.
  - eexists. split; [exact Es1|]. destruct b; discriminate.
Qed.

Lemma neg_big x : 0 <= val x -> x <> B754_infinity true.
Proof. intros H ->. cbn in H. pose proof (big_pos (emax := emax)). lra. Qed.
Lemma add_nonneg x y : num x -> num y -> 0 <= val x -> 0 <= val y -> num (add x y) /\ 0 <= val (add x y).
Proof.
  intros Nx Ny Px Py. pose proof (neg_big x Px) as Ix. pose proof (neg_big y Py) as Iy. pose proof (big_pos (emax := emax)) as BP. cbn [add NF Num_fl].
  assert (C : (fin x /\ fin y) \/ Bplus mode_NE x y = B754_infinity false).
  { destruct x as [?|[]| |? ? ? ?], y as [?|[]| |? ? ? ?]; try discriminate Nx; try discriminate Ny; try (exfalso; now apply Ix); try (exfalso; now apply Iy); try (left; split; reflexivity); right; reflexivity. }
  destruct C as [[Fx Fy]| ->]; [|split; [reflexivity|cbn; lra]]. destruct (val_add x y Fx Fy) as [N V]. split; [exact N|]. rewrite V. rewrite (fin_val _ Fx) in Px. rewrite (fin_val _ Fy) in Py.
  replace 0 with (clamp (emax := emax) (rnd 0)) by (rewrite rnd_0; apply clamp_id; lra). apply clamp_le, rnd_le. lra.
Qed.
Lemma add_nothing x y : num x -> num y -> val y = 0 -> val (add x y) = val x.
Proof.
  intros Nx Ny Vy. pose proof (big_pos (emax := emax)) as BP. assert (Fy : fin y) by (apply fin_iff; split; [exact Ny|rewrite Vy, Rabs_R0; exact BP]). cbn [add NF Num_fl].
  assert (C : fin x \/ Bplus mode_NE x y = x). { destruct x as [?|?| |? ? ? ?], y as [?|?| |? ? ? ?]; try discriminate Nx; try discriminate Fy; try (left; reflexivity); right; reflexivity. }
  destruct C as [Fx| ->]; [|reflexivity]. destruct (val_add x y Fx Fy) as [N V]. rewrite (fin_val _ Fy) in Vy. rewrite V, Vy, Rplus_0_r, rnd_id by apply fmt_B2R. rewrite (fin_val _ Fx). apply clamp_id. pose proof (big_lt x Fx). lra.
Qed.
Lemma div_nonneg x y : 0 <= val x -> 0 < val y -> num (div x y) -> 0 <= val (div x y).
Proof.
  intros Px Py N. pose proof (neg_big x Px) as Ix. pose proof (big_pos (emax := emax)) as BP. cbn [div NF Num_fl] in *.
  assert (S : fin x -> fin y -> 0 <= val (Bdiv mode_NE x y)).
  { intros Fx Fy. rewrite (fin_val _ Fx) in Px. rewrite (fin_val _ Fy) in Py. destruct (val_div x y Fx Fy ltac:(lra)) as [_ V]. rewrite V. replace 0 with (clamp (emax := emax) (rnd 0)) by (rewrite rnd_0; apply clamp_id; lra). apply clamp_le, rnd_le.
    apply Rmult_le_pos; [exact Px|]. left. now apply Rinv_0_lt_compat. }
  assert (Sy : Bsign y = false). { destruct y as [?|[]| |[] ? ? ?]; cbn in Py |- *; try reflexivity; try lra. exfalso. assert (F2R (Float radix2 (Z.neg m) e) <= 0) by (apply F2R_le_0; cbn; lia). lra. }
  destruct x as [?|[]| |? ? ? ?], y as [?|?| |? ? ? ?]; try (apply S; reflexivity); try discriminate N; try (exfalso; now apply Ix); cbn in Sy; subst; cbn; try lra.
Qed.
Lemma ofZ_val z : num (fl_ofZ prec emax z) /\ ((0 <= z)%Z -> 0 <= val (fl_ofZ prec emax z)) /\ ((0 < z)%Z -> 0 < val (fl_ofZ prec emax z)).
Proof.
  destruct (val_ofZ (prec := prec) (emax := emax) z) as [N V]. split; [exact N|]. pose proof (big_gt_1 (prec := prec) (emax := emax)) as B1. rewrite V. split; intros Hz.
  - replace 0 with (clamp (emax := emax) (rnd 0)) by (rewrite rnd_0; apply clamp_id; lra). apply clamp_le, rnd_le. now apply IZR_le.
  - apply Rlt_le_trans with 1; [lra|]. replace 1 with (clamp (emax := emax) (rnd 1)) by (rewrite rnd_id by apply fmt_1; apply clamp_id; lra). apply clamp_le, rnd_le. apply IZR_le. lia.
Qed.
(** ** Sampling: a class of weight 0 is never drawn while some class has positive weight *)
Theorem C129_multinomial (p : ptr) (n : Z) (f : Z -> fl) (g rand_max : Z) m :
  (0 < n)%Z -> holds m p n f -> (0 <= g)%Z -> (0 < rand_max)%Z ->
  (forall i, (0 <= i < n)%Z -> num (f i) /\ 0 <= val (f i)) -> (exists i, (0 <= i < n)%Z /\ 0 < val (f i)) ->
  exists k, tl_multinomial p n g rand_max m = Ok (k, m) /\ (0 <= k < n)%Z /\ 0 < val (f k).
Proof.
  intros Hn Hf Hg Hr Pf (i0 & Hi0 & P0).
  destruct (multinomial_inv (first_largest n f) p n f g rand_max m) as (k & E & Hk & C); [|exact Hn|exact Hf|].
  { destruct (search_inv is_less first_largest p n f m largest_search Hn Hf) as (k & E & Hk). exists k. split; [exact E|]. split; [apply Hk|exact Hk]. }
  exists k. split; [exact E|]. split; [exact Hk|]. destruct C as [[L B]|[_ Q]].
  - assert (Cum : forall j, (0 <= j)%Z -> (j <= n)%Z -> num (zsum j f) /\ 0 <= val (zsum j f)).
    { intros j Hj. pattern j. match goal with |- ?Q j => refine (natlike_ind Q _ _ j Hj); clear j Hj end; [rewrite zsum_0; split; [reflexivity|cbn; lra]|].
      intros j Hj IH Hjn. unfold Z.succ. rewrite zsum_S by exact Hj. destruct (IH ltac:(lia)). destruct (Pf j ltac:(lia)). now apply add_nonneg. }
    destruct (Pf k Hk) as [Nk Pk]. destruct (Rle_lt_or_eq_dec _ _ Pk) as [|Z0]; [assumption|exfalso]. rewrite zsum_S in L by lia.
    destruct (Cum k ltac:(lia) ltac:(lia)) as [Nc Pc]. pose proof (add_nothing _ _ Nc Nk (eq_sym Z0)) as V. destruct (add_nonneg _ _ Nc Nk Pc Pk) as [Na _].
    set (r := div (ofZ g) (ofZ rand_max)) in *. set (s := add (zsum k f) (f k)) in *. cbn [ltb NF Num_fl] in L, B. destruct (ltb_num _ _ L) as [Nr _]. apply (proj1 (val_ltb _ _ Nr Na)) in L. rewrite V in L.
    destruct (Z.eq_dec k 0) as [->|K0].
    + rewrite zsum_0 in L. change (val (@zero _ NF)) with 0 in L. assert (0 <= val r); [|lra]. apply div_nonneg; [| |exact Nr]; cbn [ofZ NF Num_fl]; apply ofZ_val; lia.
    + specialize (B (k - 1)%Z ltac:(lia)). replace (k - 1 + 1)%Z with k in B by lia. apply (proj1 (val_ltb_false _ _ Nr Nc)) in B. lra.
  - destruct Q as (_ & _ & Q). destruct (Q (proj1 (Pf 0%Z ltac:(lia)))) as (_ & Q1 & _). pose proof (Q1 i0 Hi0 (proj1 (Pf i0 Hi0))). lra.
Qed.
End Props.

(** ** The hypotheses can be met, in double precision *)
Module Examples.
#[local] Instance Hp53 : Prec_gt_0 53 := eq_refl.
#[local] Instance He53 : Prec_lt_emax 53 1024 := eq_refl.
Notation double := (fl 53 1024).
Definition lib := cr_lib (prec := 53) (emax := 1024).
#[local] Instance ND : Num double := Num_fl 53 1024 lib.
Definition z (k : Z) : double := fl_ofZ 53 1024 k.
Definition nan : double := B754_nan.
Definition inf : double := B754_infinity false.
(** NaN in the middle is skipped; a leading NaN hides everything *)
Definition m0 : mem double := [Some [Some (z 3); Some nan; Some (z 7); Some (z 7); Some (z (-2))]; Some [Some nan; Some (z 5); Some inf]; Some [Some (z 3); Some (z 5); Some (z 10)]; Some [Some (z 0); Some (z 1); Some (z 0)]].
Definition index (r : res (Z * mem double)) : option Z := match r with Ok (i, _) => Some i | UB _ => None end.
Example run_argmax : index (tl_argmax (Ptr 0 0) 5 m0) = Some 2%Z /\ index (tl_argmin (Ptr 0 0) 5 m0) = Some 4%Z /\ index (tl_argmax (Ptr 1 0) 3 m0) = Some 0%Z.
Proof. repeat split; vm_compute; reflexivity. Qed.
(** draws from weights 0, 1, 0: always class 1, also for the largest generator value *)
Example run_multinomial : index (tl_multinomial (Ptr 3 0) 3 0 100 m0) = Some 1%Z /\ index (tl_multinomial (Ptr 3 0) 3 99 100 m0) = Some 1%Z /\ index (tl_multinomial (Ptr 3 0) 3 100 100 m0) = Some 1%Z.
Proof. repeat split; vm_compute; reflexivity. Qed.
Definition f3 (i : Z) : double := match i with 0%Z => z 3 | 1%Z => z 5 | _ => z 10 end.
Lemma hf : holds m0 (Ptr 2 0) 3 f3.
Proof. refine (PropFloatLinear.Examples.cases3 (fun i => elem m0 (Ptr 2 0) i = Some (Some (f3 i))) _ _ _); reflexivity. Qed.
Lemma z_ok k : (1 <= k <= 16)%Z -> fin (z k) /\ B2R (z k) = IZR k.
Proof. intros H. apply (ofZ_small (prec := 53) (emax := 1024)). lia. Qed.
Lemma f3_fin i : (0 <= i < 3)%Z -> fin (f3 i).
Proof. revert i. refine (PropFloatLinear.Examples.cases3 (fun i => fin (f3 i)) _ _ _); apply z_ok; lia. Qed.
Lemma small K M A : (0 <= K <= 10)%Z -> (0 <= M <= 10)%Z -> 0 <= A -> 0 <= roundings 53 1024 K M A <= A + 20.
Proof.
  intros HK HM HA. pose proof (u_pos (prec := 53)) as U0. pose proof (eta_pos (prec := 53) (emax := 1024)) as E0. assert (P1 := one_le_pow (prec := 53) (Z.to_nat K)).
  assert (P2 : (1 + uro 53) ^ Z.to_nat K <= 2). { apply Rle_trans with ((1 + / 1024) ^ Z.to_nat K); [apply pow_incr; split; [lra|]; apply Rplus_le_compat_l; unfold uro; change (/ 1024) with (bpow radix2 (-10)); apply bpow_le; lia|]. apply Rle_trans with ((1 + / 1024) ^ 10); [apply Rle_pow; [lra|lia]|cbn [pow]; lra]. }
  assert (E1 : eta 53 1024 <= 1) by (unfold eta; change 1 with (bpow radix2 0); apply bpow_le; lia). assert (0 <= IZR M <= 10) by (split; apply IZR_le; lia). unfold roundings. set (q := (1 + uro 53) ^ Z.to_nat K) in *. generalize dependent (eta 53 1024). intros e E0 E1. clearbody q. generalize dependent (IZR M). intros mm Hm.
  assert (0 <= (q - 1) * A <= 1 * A) by (split; [apply Rmult_le_pos; lra|apply Rmult_le_compat_r; lra]). assert (0 <= mm * e <= 10) by (split; [apply Rmult_le_pos; lra|apply Rle_trans with (10 * 1); [apply Rmult_le_compat; lra|lra]]). assert (0 <= mm * e * q <= 10 * 2) by (split; [apply Rmult_le_pos; lra|apply Rmult_le_compat; lra]). lra.
Qed.
Lemma big_large : 1000000 < big 1024. Proof. apply Rlt_trans with (bpow radix2 20); [cbn; lra|apply bpow_lt; lia]. Qed.
Lemma ok_inj (a b : double) (m : mem double) : Ok (a, m) = Ok (b, m) -> a = b. Proof. intros H. injection H. auto. Qed.
(** mean and deviation of 3, 5, 10 are finite *)
Example std_three : exists r, tl_std (Ptr 2 0) 3 true m0 = Ok (r, m0) /\ fin r.
Proof.
  destruct (C129_std (prec := 53) (emax := 1024) lib (Ptr 2 0) 3 f3 true m0 ltac:(lia) ltac:(lia) hf) as (r & mu & Er & Em & _ & S). exists r. split; [exact Er|].
  destruct (C129_mean (prec := 53) (emax := 1024) lib (Ptr 2 0) 3 f3 m0 ltac:(lia) hf) as (mu' & Em' & M1 & M2).
  assert (mu' = mu) by exact (ok_inj _ _ _ (eq_trans (eq_sym Em') Em)).
  subst mu'. clear Em'. rewrite !PropFloatLinear.Examples.rsum3 in *. cbn [f3] in *. rewrite (proj2 (z_ok 3 ltac:(lia))), (proj2 (z_ok 5 ltac:(lia))), (proj2 (z_ok 10 ltac:(lia))) in *.
  rewrite !Rabs_pos_eq in M2 by lra. pose proof big_large as BL. assert (Fm : fin mu). { apply M2; [apply f3_fin|]. pose proof (small 3 0 (3 + 5 + 10) ltac:(lia) ltac:(lia) ltac:(lra)). lra. }
  destruct (M1 Fm) as [_ D]. pose proof (small (3 + 1) 1 ((Rabs 3 + Rabs 5 + Rabs 10) / 3) ltac:(lia) ltac:(lia)) as SM. rewrite (Rabs_pos_eq 3), (Rabs_pos_eq 5), (Rabs_pos_eq 10) in SM, D by lra. specialize (SM ltac:(lra)).
  apply S; [apply f3_fin|exact Fm|]. set (w := B2R mu - (3 + 5 + 10) / 3) in *. assert (W : Rabs w <= 26) by lra. assert (W2 : 0 <= w ^ 2 <= 676). { rewrite <- (pow2_abs w). pose proof (Rabs_pos w). split; [apply pow_le; lra|]. replace 676 with (26 ^ 2) by ring. apply pow_incr. lra. }
  set (sq := _ + 3 * w ^ 2). assert (SQ : 0 <= sq <= 5000) by (unfold sq; generalize dependent (w ^ 2); intros; split; nra). pose proof (small (3 + 3) 3 sq ltac:(lia) ltac:(lia) ltac:(lra)). lra.
Qed.
End Examples.
Print Assumptions C129_argmax.
Print Assumptions C129_argmin.
Print Assumptions C129_axis_x.
Print Assumptions C129_accumulate.
Print Assumptions C129_mean.
Print Assumptions C129_std.
Print Assumptions C129_nothing.
Print Assumptions C129_one.
Print Assumptions C129_multinomial.

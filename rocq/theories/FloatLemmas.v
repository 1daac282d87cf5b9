(** * Lemmas on floating-point operations *)
From Coq Require Import ZArith QArith Reals Lra Lia Psatz Bool.
From Flocq Require Import Core BinarySingleNaN.
From Verif Require Import Scalar Float FloatSpec.
Local Open Scope R_scope.

Section Kit.
Context {prec emax : Z} {Hp : Prec_gt_0 prec} {He : Prec_lt_emax prec emax}.
Notation fl := (fl prec emax).
Notation fexp := (SpecFloat.fexp prec emax).
Implicit Types x y : fl.
#[local] Instance fexp_ok : Valid_exp fexp := fexp_correct prec emax Hp.
#[local] Instance fexp_mono : Monotone_exp fexp := fexp_monotone prec emax.
Definition rnd (r : R) : R := round radix2 fexp ZnearestE r.
Definition fmt (r : R) : Prop := generic_format radix2 fexp r.
Definition clamp (r : R) : R := Rmax (- big emax) (Rmin (big emax) r).

Lemma prec_pos : (0 < prec)%Z. Proof. exact Hp. Qed.
Lemma prec_emax : (prec < emax)%Z. Proof. exact He. Qed.
Lemma big_pos : 0 < big emax. Proof. apply bpow_gt_0. Qed.
Lemma big_gt_1 : 1 < big emax.
Proof. unfold big. change 1 with (bpow radix2 0). apply bpow_lt. pose proof prec_pos. pose proof prec_emax. lia. Qed.

Lemma fexp_flt : fexp = FLT_exp (3 - emax - prec) prec. Proof. reflexivity. Qed.
Lemma fmt_val x : fin x -> fmt (B2R x). Proof. intros. apply generic_format_B2R. Qed.
Lemma fmt_B2R x : fmt (B2R x). Proof. apply generic_format_B2R. Qed.
Lemma fmt_0 : fmt 0. Proof. apply generic_format_0. Qed.
Lemma fmt_bpow e : (3 - emax - prec <= e)%Z -> fmt (bpow radix2 e).
Proof. intros H. apply generic_format_FLT_bpow; [exact Hp|exact H]. Qed.
Lemma fmt_1 : fmt 1. Proof. change 1 with (bpow radix2 0). apply fmt_bpow. pose proof prec_pos. pose proof prec_emax. lia. Qed.
Lemma fmt_big : fmt (big emax). Proof. apply fmt_bpow. pose proof prec_pos. pose proof prec_emax. lia. Qed.
Lemma fmt_opp r : fmt r -> fmt (- r). Proof. apply generic_format_opp. Qed.
(** integers of at most [prec] bits *)
Lemma fmt_Z z : (Z.abs z <= 2 ^ prec)%Z -> fmt (IZR z).
Proof.
  intros H. destruct (Z.eq_dec (Z.abs z) (2 ^ prec)) as [E|N].
  - assert (E' : Rabs (IZR z) = bpow radix2 prec). { rewrite <- abs_IZR, E, <- (IZR_Zpower radix2) by (pose proof prec_pos; lia). reflexivity. }
    assert (F : fmt (bpow radix2 prec)) by (apply fmt_bpow; pose proof prec_pos; pose proof prec_emax; lia).
    rewrite <- E' in F. now apply generic_format_abs_inv.
  - apply generic_format_FLT. exists (Float radix2 z 0).
    + unfold F2R. cbn. lra.
    + cbn. lia.
    + cbn. unfold SpecFloat.emin. pose proof prec_pos. pose proof prec_emax. lia.
Qed.
Lemma fmt_scaled z e : (Z.abs z < 2 ^ prec)%Z -> (3 - emax - prec <= e)%Z -> fmt (IZR z * bpow radix2 e).
Proof. intros H1 H2. apply generic_format_FLT. exists (Float radix2 z e); [reflexivity|exact H1|exact H2]. Qed.

Lemma rnd_le r s : r <= s -> rnd r <= rnd s. Proof. apply round_le; typeclasses eauto. Qed.
Lemma rnd_id r : fmt r -> rnd r = r. Proof. apply round_generic; typeclasses eauto. Qed.
Lemma rnd_between a b r : fmt a -> fmt b -> a <= r <= b -> a <= rnd r <= b.
Proof. intros Fa Fb [H1 H2]. apply rnd_le in H1, H2. rewrite (rnd_id a Fa) in H1. rewrite (rnd_id b Fb) in H2. auto. Qed.
Lemma rnd_0 : rnd 0 = 0. Proof. apply round_0. typeclasses eauto. Qed.
Lemma rnd_opp r : rnd (- r) = - rnd r. Proof. apply round_NE_opp. Qed.
Lemma fmt_rnd r : fmt (rnd r). Proof. apply generic_format_round; typeclasses eauto. Qed.

Lemma clamp_le r s : r <= s -> clamp r <= clamp s.
Proof. intros H. unfold clamp. apply Rle_max_compat_l. apply Rle_min_compat_l. exact H. Qed.
Lemma clamp_id r : - big emax <= r <= big emax -> clamp r = r.
Proof. intros [H1 H2]. unfold clamp. rewrite Rmin_right by lra. apply Rmax_right. lra. Qed.
Lemma clamp_up r : big emax <= r -> clamp r = big emax.
Proof. intros H. unfold clamp. rewrite Rmin_left by lra. apply Rmax_right. pose proof big_pos. lra. Qed.
Lemma clamp_down r : r <= - big emax -> clamp r = - big emax.
Proof. intros H. unfold clamp. pose proof big_pos. rewrite Rmin_right by lra. apply Rmax_left. lra. Qed.

(** ** finite values *)
Lemma fin_num x : fin x -> num x. Proof. unfold fin, num. destruct x; cbn; congruence. Qed.
Lemma fin_val x : fin x -> val x = B2R x. Proof. unfold fin. destruct x; cbn; congruence. Qed.
Lemma fin_bound x : fin x -> Rabs (val x) < big emax.
Proof. intros H. rewrite fin_val by exact H. apply abs_B2R_lt_emax. Qed.
Lemma val_bound x : Rabs (val x) <= big emax.
Proof.
  pose proof big_pos. destruct x as [s|[]| |]; cbn [val].
  - cbn. rewrite Rabs_R0. lra.
  - rewrite Rabs_Ropp, Rabs_pos_eq; lra.
  - rewrite Rabs_pos_eq; lra.
  - cbn. rewrite Rabs_R0. lra.
  - apply Rlt_le, abs_B2R_lt_emax.
Qed.
Lemma fin_iff x : fin x <-> num x /\ Rabs (val x) < big emax.
Proof.
  split; [intros H; split; [now apply fin_num|now apply fin_bound]|]. intros [N B]. destruct x as [s|[]| |]; try reflexivity.
  - cbn in B. rewrite Rabs_Ropp, Rabs_pos_eq in B; pose proof big_pos; lra.
  - cbn in B. rewrite Rabs_pos_eq in B; pose proof big_pos; lra.
  - discriminate.
Qed.
Lemma within_fin x a b : within x a b -> - big emax < a -> b < big emax -> fin x.
Proof. intros [N [H1 H2]] Ha Hb. apply fin_iff. split; [exact N|]. apply Rabs_def1; lra. Qed.
Lemma within_weaken x a b a' b' : within x a b -> a' <= a -> b <= b' -> within x a' b'.
Proof. intros [N [H1 H2]]. split; [exact N|lra]. Qed.
Lemma fmt_valx x : fmt (val x).
Proof. destruct x as [s|[]| |]; cbn [val]; [apply fmt_B2R|apply fmt_opp, fmt_big|apply fmt_big|apply fmt_B2R|apply fmt_B2R]. Qed.

(** ** comparisons *)
Lemma big_lt x : fin x -> - big emax < B2R x < big emax.
Proof. intros H. pose proof (fin_bound x H) as B. rewrite fin_val in B by exact H. apply Rabs_def2 in B. lra. Qed.
Lemma val_ltb x y : num x -> num y -> (Bltb x y = true <-> val x < val y).
Proof.
  intros Nx Ny. pose proof big_pos as P.
  destruct (is_finite x) eqn:Fx; destruct (is_finite y) eqn:Fy.
  - rewrite (Bltb_correct prec emax x y Fx Fy). rewrite !fin_val by assumption. case Rlt_bool_spec; intros; split; intros; try discriminate; try reflexivity; try lra.
  - rewrite (fin_val x Fx). pose proof (big_lt x Fx). destruct y as [s|[]| |]; try discriminate Fy; try discriminate Ny; cbn [val]; destruct x as [s'|s'| |s' ? ? ?]; try discriminate Fx; split; intros Q; try reflexivity; try (exfalso; lra); try (destruct s'; discriminate Q); try discriminate Q; lra.
  - rewrite (fin_val y Fy). pose proof (big_lt y Fy). destruct x as [s|[]| |]; try discriminate Fx; try discriminate Nx; cbn [val]; destruct y as [s'|s'| |s' ? ? ?]; try discriminate Fy; split; intros Q; try reflexivity; try (exfalso; lra); try (destruct s'; discriminate Q); try discriminate Q; lra.
  - destruct x as [s|[]| |]; try discriminate Fx; try discriminate Nx; destruct y as [s'|[]| |]; try discriminate Fy; try discriminate Ny; cbn [val]; split; intros Q; try reflexivity; try (exfalso; lra); try discriminate Q; lra.
Qed.
Lemma val_ltb_false x y : num x -> num y -> (Bltb x y = false <-> val y <= val x).
Proof.
  intros Nx Ny. pose proof (val_ltb x y Nx Ny) as H. destruct (Bltb x y); split; intros Q; try discriminate; try reflexivity.
  - assert (val x < val y) by (now apply H). lra.
  - apply Rnot_lt_le. intros C. apply H in C. discriminate.
Qed.
Lemma val_leb x y : num x -> num y -> (Bleb x y = true <-> val x <= val y).
Proof.
  intros Nx Ny. pose proof big_pos as P.
  destruct (is_finite x) eqn:Fx; destruct (is_finite y) eqn:Fy.
  - rewrite (Bleb_correct prec emax x y Fx Fy). rewrite !fin_val by assumption. case Rle_bool_spec; intros; split; intros; try discriminate; try reflexivity; try lra.
  - rewrite (fin_val x Fx). pose proof (big_lt x Fx). destruct y as [s|[]| |]; try discriminate Fy; try discriminate Ny; cbn [val]; destruct x as [s'|s'| |s' ? ? ?]; try discriminate Fx; split; intros Q; try reflexivity; try (exfalso; lra); try (destruct s'; discriminate Q); try discriminate Q; lra.
  - rewrite (fin_val y Fy). pose proof (big_lt y Fy). destruct x as [s|[]| |]; try discriminate Fx; try discriminate Nx; cbn [val]; destruct y as [s'|s'| |s' ? ? ?]; try discriminate Fy; split; intros Q; try reflexivity; try (exfalso; lra); try (destruct s'; discriminate Q); try discriminate Q; lra.
  - destruct x as [s|[]| |]; try discriminate Fx; try discriminate Nx; destruct y as [s'|[]| |]; try discriminate Fy; try discriminate Ny; cbn [val]; split; intros Q; try reflexivity; try (exfalso; lra); try discriminate Q; lra.
Qed.
Lemma ltb_num x y : Bltb x y = true -> num x /\ num y.
Proof. destruct x as [s|[]| |s ? ? ?], y as [s'|[]| |s' ? ? ?]; try destruct s; try destruct s'; cbn; intros H; try discriminate H; split; reflexivity. Qed.

(** ** arithmetic *)
Lemma overflow_val x s : B2SF x = binary_overflow prec emax mode_NE s -> x = B754_infinity s.
Proof. unfold binary_overflow. cbn. destruct x; cbn; intros H; try discriminate H. now injection H as ->. Qed.
Lemma val_of_result (z : fl) (r : R) (s : bool) : (if Rlt_bool (Rabs (rnd r)) (big emax) then B2R z = rnd r /\ is_finite z = true else B2SF z = binary_overflow prec emax mode_NE s) ->
  (Rabs (rnd r) >= big emax -> if s then r <= 0 else 0 <= r) -> num z /\ val z = clamp (rnd r).
Proof.
  intros H Hs. revert H. case Rlt_bool_spec; intros B H.
  - destruct H as [E F]. split; [now apply fin_num|]. rewrite fin_val by exact F. rewrite E. symmetry. apply clamp_id. apply Rabs_def2 in B. lra.
  - apply overflow_val in H. subst z. split; [reflexivity|]. specialize (Hs (Rle_ge _ _ B)). destruct s; cbn [val].
    + symmetry. apply clamp_down. assert (rnd r <= 0). { rewrite <- rnd_0. now apply rnd_le. } rewrite Rabs_left1 in B by lra. lra.
    + symmetry. apply clamp_up. assert (0 <= rnd r). { rewrite <- rnd_0 at 1. now apply rnd_le. } rewrite Rabs_pos_eq in B by lra. lra.
Qed.
Lemma sign_le x : fin x -> if Bsign x then B2R x <= 0 else 0 <= B2R x.
Proof.
  destruct x as [s|s| |s m e H]; cbn; try discriminate; intros _; destruct s; cbn; try lra.
  - apply Rlt_le. now apply F2R_lt_0.
  - apply Rlt_le. now apply F2R_gt_0.
Qed.
Lemma val_add x y : fin x -> fin y -> num (Bplus mode_NE x y) /\ val (Bplus mode_NE x y) = clamp (rnd (B2R x + B2R y)).
Proof.
  intros Fx Fy. pose proof (Bplus_correct prec emax Hp He mode_NE x y Fx Fy) as H. cbn [round_mode] in H.
  pose proof (sign_le x Fx) as Sx. pose proof (sign_le y Fy) as Sy.
  apply (val_of_result _ _ (Bsign x)).
  - unfold rnd, big. destruct (Rlt_bool _ _); [destruct H as (? & ? & _); auto|apply H].
  - intros B. fold (rnd (B2R x + B2R y)) in H. rewrite Rlt_bool_false in H by (apply Rge_le; exact B).
    destruct H as [_ E]. rewrite <- E in Sy. destruct (Bsign x); lra.
Qed.
Lemma val_sub x y : fin x -> fin y -> num (Bminus mode_NE x y) /\ val (Bminus mode_NE x y) = clamp (rnd (B2R x - B2R y)).
Proof.
  intros Fx Fy. pose proof (Bminus_correct prec emax Hp He mode_NE x y Fx Fy) as H. cbn [round_mode] in H.
  pose proof (sign_le x Fx) as Sx. pose proof (sign_le y Fy) as Sy.
  apply (val_of_result _ _ (Bsign x)).
  - unfold rnd, big. destruct (Rlt_bool _ _); [destruct H as (? & ? & _); auto|apply H].
  - intros B. fold (rnd (B2R x - B2R y)) in H. rewrite Rlt_bool_false in H by (apply Rge_le; exact B).
    destruct H as [_ E]. rewrite E in Sx. rewrite E. destruct (Bsign y); cbn in *; lra.
Qed.
Lemma xorb_sign x y : fin x -> fin y -> if xorb (Bsign x) (Bsign y) then B2R x * B2R y <= 0 else 0 <= B2R x * B2R y.
Proof. intros Fx Fy. pose proof (sign_le x Fx) as Sx. pose proof (sign_le y Fy) as Sy. destruct (Bsign x), (Bsign y); cbn in *; nra. Qed.
Lemma val_mul x y : fin x -> fin y -> num (Bmult mode_NE x y) /\ val (Bmult mode_NE x y) = clamp (rnd (B2R x * B2R y)).
Proof.
  intros Fx Fy. pose proof (Bmult_correct prec emax Hp He mode_NE x y) as H. cbn [round_mode] in H.
  apply (val_of_result _ _ (xorb (Bsign x) (Bsign y))).
  - unfold rnd, big. destruct (Rlt_bool _ _); [|exact H]. destruct H as (E & F & _). split; [exact E|]. rewrite F. unfold fin in Fx, Fy. now rewrite Fx, Fy.
  - intros _. now apply xorb_sign.
Qed.
Lemma val_div x y : fin x -> fin y -> B2R y <> 0 -> num (Bdiv mode_NE x y) /\ val (Bdiv mode_NE x y) = clamp (rnd (B2R x / B2R y)).
Proof.
  intros Fx Fy Ny. pose proof (Bdiv_correct prec emax Hp He mode_NE x y Ny) as H. cbn [round_mode] in H.
  apply (val_of_result _ _ (xorb (Bsign x) (Bsign y))).
  - unfold rnd, big. destruct (Rlt_bool _ _); [|exact H]. destruct H as (E & F & _). split; [exact E|]. rewrite F. exact Fx.
  - intros _. pose proof (xorb_sign x y Fx Fy) as S. assert (Q : B2R x / B2R y = B2R x * B2R y * / (B2R y * B2R y)) by (field; exact Ny).
    assert (P : 0 < / (B2R y * B2R y)) by (apply Rinv_0_lt_compat; nra). rewrite Q. destruct (xorb _ _); nra.
Qed.
Lemma val_sqrt x : fin x -> 0 <= B2R x -> within (Bsqrt mode_NE x) 0 (big emax) /\ fin (Bsqrt mode_NE x) /\ B2R (Bsqrt mode_NE x) = rnd (sqrt (B2R x)).
Proof.
  intros Fx Px. pose proof (Bsqrt_correct prec emax Hp He mode_NE x) as (E & F & _). cbn [round_mode] in E.
  assert (F' : fin (Bsqrt mode_NE x)).
  { unfold fin. rewrite F. destruct x as [s|s| |[] m e H]; try reflexivity; try discriminate. exfalso. assert (F2R (Float radix2 (cond_Zopp true (Z.pos m)) e) < 0) by now apply F2R_lt_0. cbn in Px, H0. cbn [B2R] in Px. lra. }
  split; [|split; [exact F'|exact E]]. split; [now apply fin_num|]. rewrite fin_val by exact F'. split.
  - rewrite E. change (0 <= rnd (sqrt (B2R x))). rewrite <- rnd_0. apply rnd_le, sqrt_pos.
  - apply Rlt_le. apply big_lt. exact F'.
Qed.
Lemma val_opp x : num x -> num (Bopp x) /\ val (Bopp x) = - val x.
Proof. intros N. split; [destruct x; auto|]. destruct x as [s|[]| |]; cbn [Bopp val negb]; try lra; [cbn; lra|discriminate N|apply (B2R_Bopp prec emax (B754_finite s m e e0))]. Qed.
Lemma fin_opp x : fin x -> fin (Bopp x). Proof. unfold fin. now rewrite is_finite_Bopp. Qed.
Lemma val_abs x : num x -> num (Babs x) /\ val (Babs x) = Rabs (val x).
Proof.
  intros N. split; [destruct x; auto|]. pose proof big_pos. destruct x as [s|[]| |]; cbn [Babs val]; try discriminate N.
  - cbn. now rewrite Rabs_R0.
  - rewrite Rabs_Ropp, Rabs_pos_eq; lra.
  - rewrite Rabs_pos_eq; lra.
  - apply (B2R_Babs prec emax (B754_finite s m e e0)).
Qed.
Lemma fin_abs x : fin x -> fin (Babs x). Proof. unfold fin. now rewrite is_finite_Babs. Qed.

(** bounds on results from bounds on exact results *)
Lemma clamp_rnd a b r : fmt a -> fmt b -> - big emax <= a -> b <= big emax -> a <= r <= b -> a <= clamp (rnd r) <= b.
Proof.
  intros Fa Fb Ba Bb H. destruct (rnd_between a b r Fa Fb H) as [H1 H2]. rewrite clamp_id; lra.
Qed.
Lemma add_within x y a b : fin x -> fin y -> fmt a -> fmt b -> - big emax <= a -> b <= big emax -> a <= B2R x + B2R y <= b -> within (Bplus mode_NE x y) a b.
Proof. intros Fx Fy Fa Fb Ba Bb H. destruct (val_add x y Fx Fy) as [N E]. split; [exact N|]. rewrite E. now apply clamp_rnd. Qed.
Lemma sub_within x y a b : fin x -> fin y -> fmt a -> fmt b -> - big emax <= a -> b <= big emax -> a <= B2R x - B2R y <= b -> within (Bminus mode_NE x y) a b.
Proof. intros Fx Fy Fa Fb Ba Bb H. destruct (val_sub x y Fx Fy) as [N E]. split; [exact N|]. rewrite E. now apply clamp_rnd. Qed.
Lemma mul_within x y a b : fin x -> fin y -> fmt a -> fmt b -> - big emax <= a -> b <= big emax -> a <= B2R x * B2R y <= b -> within (Bmult mode_NE x y) a b.
Proof. intros Fx Fy Fa Fb Ba Bb H. destruct (val_mul x y Fx Fy) as [N E]. split; [exact N|]. rewrite E. now apply clamp_rnd. Qed.
Lemma div_within x y a b : fin x -> fin y -> B2R y <> 0 -> fmt a -> fmt b -> - big emax <= a -> b <= big emax -> a <= B2R x / B2R y <= b -> within (Bdiv mode_NE x y) a b.
Proof. intros Fx Fy Ny Fa Fb Ba Bb H. destruct (val_div x y Fx Fy Ny) as [N E]. split; [exact N|]. rewrite E. now apply clamp_rnd. Qed.

(** ** constants *)
Lemma fin_one : fin (Bone (prec := prec) (emax := emax)). Proof. apply is_finite_Bone. Qed.
Lemma val_one : B2R (Bone (prec := prec) (emax := emax)) = 1. Proof. apply Bone_correct. Qed.
Lemma val_ofZ z : num (fl_ofZ prec emax z) /\ val (fl_ofZ prec emax z) = clamp (rnd (IZR z)).
Proof.
  pose proof (binary_normalize_correct prec emax Hp He mode_NE z 0 false) as H. cbv zeta in H. cbn [round_mode] in H.
  assert (E : F2R (Float radix2 z 0) = IZR z) by (unfold F2R; cbn; lra). rewrite E in H.
  apply (val_of_result _ _ (Rlt_bool (IZR z) 0)).
  - unfold rnd, big, fl_ofZ. destruct (Rlt_bool (Rabs _) _); [destruct H as (? & ? & _); auto|exact H].
  - intros _. case Rlt_bool_spec; lra.
Qed.
Lemma ofZ_exact z : fmt (IZR z) -> Rabs (IZR z) < big emax -> fin (fl_ofZ prec emax z) /\ B2R (fl_ofZ prec emax z) = IZR z.
Proof.
  intros F B. destruct (val_ofZ z) as [N E]. rewrite rnd_id, clamp_id in E; [|apply Rabs_def2 in B; lra|exact F].
  assert (Fi : fin (fl_ofZ prec emax z)) by (apply fin_iff; split; [exact N|rewrite E; exact B]).
  split; [exact Fi|]. now rewrite <- fin_val.
Qed.

(** ** the float nearest to a real (overflowing to an infinity): used for witnesses *)
Definition fl_of (r : R) : fl :=
  binary_normalize prec emax Hp He mode_NE (ZnearestE (scaled_mantissa radix2 fexp r)) (cexp radix2 fexp r) false.
Lemma val_fl_of r : num (fl_of r) /\ val (fl_of r) = clamp (rnd r).
Proof.
  pose proof (binary_normalize_correct prec emax Hp He mode_NE (ZnearestE (scaled_mantissa radix2 fexp r)) (cexp radix2 fexp r) false) as H.
  cbv zeta in H. cbn [round_mode] in H. change (F2R (Float radix2 (ZnearestE (scaled_mantissa radix2 fexp r)) (cexp radix2 fexp r))) with (rnd r) in H.
  replace (rnd r) with (rnd (rnd r)) by (apply rnd_id, fmt_rnd).
  apply (val_of_result _ _ (Rlt_bool (rnd r) 0)).
  - unfold rnd at 1, big. fold (fl_of r) in H. destruct (Rlt_bool (Rabs _) _); [destruct H as (? & ? & _); auto|exact H].
  - intros _. case Rlt_bool_spec; lra.
Qed.
Lemma fl_of_exact r : fmt r -> Rabs r < big emax -> fin (fl_of r) /\ B2R (fl_of r) = r.
Proof.
  intros F B. destruct (val_fl_of r) as [N E]. rewrite rnd_id, clamp_id in E; [|apply Rabs_def2 in B; lra|exact F].
  assert (Fi : fin (fl_of r)) by (apply fin_iff; split; [exact N|rewrite E; exact B]).
  split; [exact Fi|]. now rewrite <- fin_val.
Qed.
End Kit.

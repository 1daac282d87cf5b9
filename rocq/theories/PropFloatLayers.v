(** * Properties C99, C100: dense and convolutional layers in floating-point arithmetic *)
From Coq Require Import ZArith Reals Lra Lia List.
From Flocq Require Import Core BinarySingleNaN.
From Verif Require Import Mem Scalar MemSpec MemLemmas Lique LiqueSpec LiqueProofs Linear LinearProofs Functions FunctionSpec FunctionProofs
  Layer LayerSpec RealSpec NetSpec ConvSpec ConvProofs ConvVjp Vjp FCProofs PropFC PropConv Float FloatSpec FloatLemmas FloatLib FloatError FloatAcc PropFloatAct PropFloatSoftmax.
Import ListNotations.
Local Open Scope R_scope.

Section Layers.
Context {prec emax : Z} {Hp : Prec_gt_0 prec} {He : Prec_lt_emax prec emax} (lib : libm prec emax).
Notation fl := (fl prec emax).
#[local] Instance NF : Num fl := Num_fl prec emax lib.
Implicit Types (m : mem fl) (s : contents fl).

(** the real values of an array of floating-point numbers, and their magnitudes *)
Definition reals (v : Z -> fl) (i : Z) : R := B2R (v i).
Definition sizes (v : Z -> fl) (i : Z) : R := Rabs (B2R (v i)).

(** ** C99 *)
Lemma affine_accurate n k s (xv : Z -> fl) j : (0 <= n)%Z ->
  accurate (affine n k s xv j) (n + 2) (n + 1)
    (dense_pre n k (reals (s RB)) (reals (s (RW 0))) (reals xv) j)
    (dense_pre n k (sizes (s RB)) (sizes (s (RW 0))) (sizes xv) j)
    ((forall i, (0 <= i < n)%Z -> fin (xv i) /\ fin (s (RW 0) (i * k + j)%Z)) /\ fin (s RB j)).
Proof.
  intros Hn. unfold affine. eapply accurate_ext; [apply (accurate_affine lib xv (fun i => s (RW 0) (i * k + j)%Z) (s RB j) n Hn)|reflexivity|reflexivity| |tauto].
  unfold dense_pre, sizes. f_equal. apply zsum_ext. intros i Hi. now rewrite Rabs_mult.
Qed.
(** The outputs are the activation of computed pre-activations, whose distance from the exact x.W + B has the classical bound; they
    are finite if x, W, B are and are not too large. *)
Theorem C99_forward (L : fc) n k a m s x xv :
  fc_dims L n k -> f_act L = Some a -> (a = SoftMax -> (0 < k)%Z) -> layer_at m (LFC L) s -> argument m (LFC L) x n xv ->
  exists m' s' (pre : Z -> fl), fc_forward L x m = Ok (tt, m') /\ layer_at m' (LFC L) s' /\
    (forall j, (0 <= j < k)%Z -> s' RValue j = act_val a k pre j) /\
    (forall j, (0 <= j < k)%Z -> accurate (pre j) (n + 2) (n + 1)
       (dense_pre n k (reals (s RB)) (reals (s (RW 0))) (reals xv) j)
       (dense_pre n k (sizes (s RB)) (sizes (s (RW 0))) (sizes xv) j)
       ((forall i, (0 <= i < n)%Z -> fin (xv i) /\ fin (s (RW 0) (i * k + j)%Z)) /\ fin (s RB j))).
Proof.
  intros D Ea Hs H X. destruct (C51_forward_value L n k a m s x xv D Ea Hs H X) as (m' & s' & E & A & V & _).
  exists m', s', (affine n k s xv). split; [exact E|]. split; [exact A|]. split; [exact V|]. intros j Hj. apply affine_accurate, D.
Qed.
(** The gradients: one rounding per entry for bias and weight gradients, and a dot product for the delta passed on. *)
Theorem C99_backward (L : fc) n k a m s x xv dt d full :
  fc_dims L n k -> f_act L = Some a -> (a = SoftMax -> (0 < k)%Z) -> layer_at m (LFC L) s ->
  argument m (LFC L) x n xv -> argument m (LFC L) dt k d ->
  exists m1 m2 s' (pre : Z -> fl), fc_forward L x m = Ok (tt, m1) /\ fc_backward L x dt full m1 = Ok (tt, m2) /\ layer_at m2 (LFC L) s' /\
    (forall j, (0 <= j < k)%Z -> accurate (pre j) (n + 2) (n + 1)
       (dense_pre n k (reals (s RB)) (reals (s (RW 0))) (reals xv) j)
       (dense_pre n k (sizes (s RB)) (sizes (s (RW 0))) (sizes xv) j)
       ((forall i, (0 <= i < n)%Z -> fin (xv i) /\ fin (s (RW 0) (i * k + j)%Z)) /\ fin (s RB j))) /\
    (forall j, (0 <= j < k)%Z -> let a' := act_dval a pre j in
       accurate (s' RGradB j) 1 1 (B2R a' * B2R (d j)) (Rabs (B2R a' * B2R (d j))) (fin a' /\ fin (d j))) /\
    (forall i j, (0 <= i < n)%Z -> (0 <= j < k)%Z ->
       accurate (s' (RGradW 0) (i * k + j)%Z) 1 1 (B2R (xv i) * B2R (s' RGradB j)) (Rabs (B2R (xv i) * B2R (s' RGradB j))) (fin (xv i) /\ fin (s' RGradB j))) /\
    (full = true -> forall i, (0 <= i < n)%Z ->
       accurate (s' RDelta i) (k + 1) k (rsum k (fun j => B2R (s (RW 0) (i * k + j)%Z) * B2R (s' RGradB j)))
         (rsum k (fun j => Rabs (B2R (s (RW 0) (i * k + j)%Z) * B2R (s' RGradB j))))
         (forall j, (0 <= j < k)%Z -> fin (s (RW 0) (i * k + j)%Z) /\ fin (s' RGradB j))).
Proof.
  intros D Ea Hs H X Xd. destruct (fc_round L n k a m s x xv dt d full D Ea Hs H X Xd) as (m1 & m2 & s' & E1 & E2 & A & GB & GW & GD & _).
  exists m1, m2, s', (affine n k s xv). do 3 (split; [assumption|]). split; [intros j Hj; apply affine_accurate, D|]. split; [|split].
  - intros j Hj. cbv zeta. rewrite GB by exact Hj. apply (accurate_mul lib).
  - intros i j Hi Hj. rewrite GW by assumption. apply (accurate_mul lib).
  - intros Ef i Hi. rewrite (GD Ef i Hi). apply (accurate_dot lib (fun j => s (RW 0) (i * k + j)%Z) (s' RGradB)), D.
Qed.
(** With every activation but SELU and SoftPlus, finite parameters and inputs that are not too large give finite outputs. *)
Theorem C99_forward_finite (L : fc) n k a m s x xv :
  (24 <= prec)%Z -> (64 <= emax)%Z -> (prec + 3 <= emax)%Z -> libm_ok lib -> a <> Scalar SELU -> a <> Scalar SoftPlus ->
  fc_dims L n k -> f_act L = Some a -> (a = SoftMax -> (0 < k)%Z) -> layer_at m (LFC L) s -> argument m (LFC L) x n xv ->
  (forall i, (0 <= i < n)%Z -> fin (xv i)) -> (forall o, (0 <= o < n * k)%Z -> fin (s (RW 0) o)) -> (forall j, (0 <= j < k)%Z -> fin (s RB j)) ->
  (forall j, (0 <= j < k)%Z -> let A := dense_pre n k (sizes (s RB)) (sizes (s (RW 0))) (sizes xv) j in
     A + roundings prec emax (n + 2) (n + 1) A < big emax) ->
  exists m' s', fc_forward L x m = Ok (tt, m') /\ layer_at m' (LFC L) s' /\ forall j, (0 <= j < k)%Z -> fin (s' RValue j).
Proof.
  intros P24 E64 PM LO N1 N2 D Ea Hs H X Fx FW FB Bd. destruct (C99_forward L n k a m s x xv D Ea Hs H X) as (m' & s' & pre & E & A & V & P).
  exists m', s'. split; [exact E|]. split; [exact A|].
  assert (Fp : forall j, (0 <= j < k)%Z -> fin (pre j)).
  { intros j Hj. apply (P j Hj); [|exact (Bd j Hj)]. split; [|auto]. intros i Hi. split; [auto|]. apply FW. nia. }
  intros j Hj. rewrite V by exact Hj. destruct a as [a|]; cbn [act_val] in *.
  - apply (scalar_f_spec P24 E64 lib LO a (pre j) (Fp j Hj)); congruence.
  - apply (softmax_ok PM lib LO pre k ltac:(lia) Fp); exact Hj.
Qed.

(** ** C100 *)
Section Conv.
Context (g : geometry) (G : geometry_ok g).
Lemma gd : (0 <= g_d g)%Z. Proof. apply G. Qed.
Lemma gfh : (0 <= g_fh g)%Z. Proof. apply G. Qed.
Lemma gfw : (0 <= g_fw g)%Z. Proof. apply G. Qed.
Lemma gf : (0 <= g_f g)%Z. Proof. destruct G. lia. Qed.
Lemma gsh : (0 <= spread_h g)%Z. Proof. pose proof (spread_h_pos g G). lia. Qed.
Lemma gsw : (0 <= spread_w g)%Z. Proof. pose proof (spread_w_pos g G). lia. Qed.
Lemma all_zero n (f : Z -> R) : (forall i, (0 <= i < n)%Z -> f i = 0) -> 0 = rsum n f. Proof. intros H. symmetry. now apply rsum_all0. Qed.

(** one dot product over [n] terms that is skipped unless [c] *)
Lemma accu_cond_dot (c : bool) n (p q : Z -> fl) : (0 <= n)%Z ->
  accu (fun t : fl => if c then zfold n (fun i t => add t (mul (p i) (q i))) t else t) n
    (rsum n (fun i => if c then B2R (p i) * B2R (q i) else 0)) (rsum n (fun i => if c then Rabs (B2R (p i)) * Rabs (B2R (q i)) else 0))
    (c = true -> forall i, (0 <= i < n)%Z -> fin (p i) /\ fin (q i)).
Proof.
  intros Hn. destruct c.
  - eapply accu_ext; [eapply accu_weaken; [apply (accu_fold n (fun i t => add t (mul (p i) (q i))) 1 _ _ _ Hn ltac:(lia) (fun i _ => accu_mac lib (p i) (q i)))|lia|]|reflexivity|reflexivity|].
    + tauto.
    + apply zsum_ext. intros. now rewrite Rabs_mult.
  - eapply accu_ext; [eapply accu_weaken; [apply (accu_skip n Hn)|lia|]|reflexivity| |].
    + split; [discriminate|auto].
    + symmetry. now apply all_zero.
    + symmetry. now apply all_zero.
Qed.

Lemma accu_fold2 n n' (h : Z -> Z -> fl -> fl) k e a (ok : Z -> Z -> Prop) : (0 <= n)%Z -> (0 <= n')%Z -> (0 <= k)%Z ->
  (forall i j, accu (h i j) k (e i j) (a i j) (ok i j)) ->
  accu (zfold n (fun i => zfold n' (h i))) (n * (n' * k)) (rsum n (fun i => rsum n' (e i))) (rsum n (fun i => rsum n' (a i)))
    (forall i, (0 <= i < n)%Z -> forall j, (0 <= j < n')%Z -> ok i j).
Proof.
  intros Hn Hn' Hk H. apply accu_fold; [exact Hn|nia|]. intros i _. apply accu_fold; auto.
Qed.

(** each loop of the layer against the same loop in exact arithmetic, on the values and on the magnitudes *)
Lemma conv_val_accurate (B : Z -> fl) (W : Z -> Z -> fl) (x : Z -> fl) f y z :
  let N := (g_fh g * (g_fw g * g_d g))%Z in
  accurate (conv_val g B W x f y z) (N + 1) N
    (correlate_at g (reals B) (fun f => reals (W f)) (reals x) f y z) (correlate_at g (sizes B) (fun f => sizes (W f)) (sizes x) f y z)
    (fin (B f) /\ forall i, (0 <= i < g_fh g)%Z -> forall j, (0 <= j < g_fw g)%Z -> in_box (g_h g) (g_w g) (g_vs g * y + i - g_p g) (g_hs g * z + j - g_p g) = true ->
       forall c, (0 <= c < g_d g)%Z -> fin (x (at3 (g_h g) (g_w g) c (g_vs g * y + i - g_p g) (g_hs g * z + j - g_p g))) /\ fin (W f (at3 (g_fh g) (g_fw g) c i j))).
Proof.
  intros N. pose proof gd as H1. pose proof gfh as H2. pose proof gfw as H3. unfold conv_val. cbv zeta.
  match goal with |- accurate (zfold _ (fun i0 => zfold _ (@?h i0)) _) _ _ _ _ _ =>
    pose proof (accu_fold2 (g_fh g) (g_fw g) h (g_d g) _ _ _ H2 H3 H1 (fun i j =>
      accu_cond_dot (in_box (g_h g) (g_w g) (g_vs g * y + i - g_p g) (g_hs g * z + j - g_p g)) (g_d g) (fun c => x (at3 (g_h g) (g_w g) c (g_vs g * y + i - g_p g) (g_hs g * z + j - g_p g))) (fun c => W f (at3 (g_fh g) (g_fw g) c i j)) H1)) as Q end.
  eapply accurate_ext; [apply (accu_accurate _ _ _ _ _ (B f) Q)|reflexivity| | |reflexivity];
  unfold correlate_at, padded, reals, sizes; f_equal; apply zsum_ext; intros i Hi; apply zsum_ext; intros j Hj; apply zsum_ext; intros c Hc; destruct in_box; reflexivity || ring.
Qed.
Lemma gradb_val_accurate (b : Z -> Z -> Z -> fl) f (old : fl) :
  let N := (spread_h g * spread_w g)%Z in
  accurate (gradb_val g b f old) (N + 1) N (gradb_val g (fun f r q => B2R (b f r q)) f (B2R old)) (gradb_val g (fun f r q => Rabs (B2R (b f r q))) f (Rabs (B2R old)))
    (fin old /\ forall r, (0 <= r < spread_h g)%Z -> forall q, (0 <= q < spread_w g)%Z -> fin (b f r q)).
Proof.
  intros N. pose proof gsh as H1. pose proof gsw as H2. rewrite !gradb_val_R. unfold gradb_val.
  pose proof (accu_fold2 (spread_h g) (spread_w g) (fun r q acc => add acc (b f r q)) 1 _ _ _ H1 H2 ltac:(lia) (fun r q => accu_add lib (b f r q))) as Q.
  rewrite Z.mul_1_r in Q. exact (accu_accurate _ _ _ _ _ old Q).
Qed.
Lemma accu_cond_mac (c : bool) (p q : fl) : accu (fun t : fl => if c then add t (mul p q) else t) 1
   (B2R p * (if c then B2R q else 0)) (Rabs (B2R p) * (if c then Rabs (B2R q) else 0)) (c = true -> fin p /\ fin q).
Proof.
  destruct c.
  - eapply accu_ext; [eapply accu_weaken; [apply (accu_mac lib p q)|lia|]|reflexivity|reflexivity|now rewrite Rabs_mult]. tauto.
  - eapply accu_ext; [eapply accu_weaken; [apply (accu_skip 1); lia|lia|]|reflexivity|ring|ring]. split; [discriminate|auto].
Qed.
Lemma gradw_val_accurate (b : Z -> Z -> Z -> fl) (x : Z -> fl) f c i j (old : fl) :
  let N := (spread_h g * spread_w g)%Z in
  accurate (gradw_val g b x f c i j old) (N + 1) N
    (gradw_val g (fun f r q => B2R (b f r q)) (reals x) f c i j (B2R old)) (gradw_val g (fun f r q => Rabs (B2R (b f r q))) (sizes x) f c i j (Rabs (B2R old)))
    (fin old /\ forall r, (0 <= r < spread_h g)%Z -> forall q, (0 <= q < spread_w g)%Z -> in_box (g_h g) (g_w g) (i + r - g_p g) (j + q - g_p g) = true ->
       fin (b f r q) /\ fin (x (at3 (g_h g) (g_w g) c (i + r - g_p g) (j + q - g_p g)))).
Proof.
  intros N. pose proof gsh as H1. pose proof gsw as H2. rewrite !gradw_val_R. unfold gradw_val.
  match goal with |- accurate (zfold _ (fun i0 => zfold _ (@?h i0)) _) _ _ _ _ _ =>
    pose proof (accu_fold2 (spread_h g) (spread_w g) h (1) _ _ _ H1 H2 ltac:(lia) (fun r q =>
      accu_cond_mac (in_box (g_h g) (g_w g) (i + r - g_p g) (j + q - g_p g)) (b f r q) (x (at3 (g_h g) (g_w g) c (i + r - g_p g) (j + q - g_p g))) )) as Q end.
  rewrite Z.mul_1_r in Q. exact (accu_accurate _ _ _ _ _ old Q).
Qed.
Lemma cdelta_val_accurate (W : Z -> Z -> fl) (b : Z -> Z -> Z -> fl) c y z :
  let N := (g_fh g * (g_fw g * g_f g))%Z in
  accurate (cdelta_val g W b c y z) (N + 1) N
    (cdelta_val g (fun f => reals (W f)) (fun f r q => B2R (b f r q)) c y z) (cdelta_val g (fun f => sizes (W f)) (fun f r q => Rabs (B2R (b f r q))) c y z)
    (forall i, (0 <= i < g_fh g)%Z -> forall j, (0 <= j < g_fw g)%Z -> in_box (spread_h g) (spread_w g) (y + i - (g_fh g - 1) + g_p g) (z + j - (g_fw g - 1) + g_p g) = true ->
       forall f, (0 <= f < g_f g)%Z -> fin (W f (at3 (g_fh g) (g_fw g) c (g_fh g - 1 - i) (g_fw g - 1 - j))) /\ fin (b f (y + i - (g_fh g - 1) + g_p g)%Z (z + j - (g_fw g - 1) + g_p g)%Z)).
Proof.
  intros N. pose proof gf as H1. pose proof gfh as H2. pose proof gfw as H3. unfold cdelta_val. cbv zeta.
  match goal with |- accurate (zfold _ (fun i0 => zfold _ (@?h i0)) _) _ _ _ _ _ =>
    pose proof (accu_fold2 (g_fh g) (g_fw g) h (g_f g) _ _ _ H2 H3 H1 (fun i j =>
      accu_cond_dot (in_box (spread_h g) (spread_w g) (y + i - (g_fh g - 1) + g_p g) (z + j - (g_fw g - 1) + g_p g)) (g_f g) (fun f => W f (at3 (g_fh g) (g_fw g) c (g_fh g - 1 - i) (g_fw g - 1 - j)))
        (fun f => b f (y + i - (g_fh g - 1) + g_p g)%Z (z + j - (g_fw g - 1) + g_p g)%Z) H1)) as Q end.
  eapply accurate_ext; [apply (accu_accurate _ _ _ _ _ zero Q)|reflexivity| | |].
  - change (B2R zero) with (@zero R Num_R). apply zfold_rsum'. intros i acc Hi. apply zfold_rsum'. intros j acc' Hj. destruct in_box; [apply zfold_rsum'; reflexivity|]. rewrite rsum_all0 by auto. now rewrite Rplus_0_r.
  - change (B2R zero) with 0. rewrite Rabs_R0. change 0 with (@zero R Num_R) at 1. apply zfold_rsum'. intros i acc Hi. apply zfold_rsum'. intros j acc' Hj. destruct in_box; [apply zfold_rsum'; reflexivity|]. rewrite rsum_all0 by auto. now rewrite Rplus_0_r.
  - split; [tauto|]. intros O. split; [reflexivity|exact O].
Qed.

Lemma at3_lt a b c i j k : (0 <= i < a)%Z -> (0 <= j < b)%Z -> (0 <= k < c)%Z -> (0 <= at3 b c i j k < a * b * c)%Z.
Proof. intros Hi Hj Hk. unfold at3. assert (0 <= i * b + j < a * b)%Z by nia. set (t := (i * b + j)%Z) in *. nia. Qed.
Lemma flat3_split a b c o : (0 <= a)%Z -> (0 <= b)%Z -> (0 <= c)%Z -> (0 <= o < a * b * c)%Z -> (0 <= o / c / b < a)%Z /\ (0 <= (o / c) mod b < b)%Z /\ (0 <= o mod c < c)%Z.
Proof.
  intros Ha Hb Hc Ho. destruct (flat_split (a * b) c o Ho ltac:(nia) Hc) as (H1 & H2 & _). destruct (flat_split a b (o / c) H1 Ha Hb) as (H3 & H4 & _). auto.
Qed.
Definition realc s : contents R := fun r => reals (s r).
Definition sizec s : contents R := fun r => sizes (s r).
Context (s : contents fl) (Z0 : off_grid_zero g s) (xv d : Z -> fl).
Context (Fx : forall o, (0 <= o < g_d g * g_h g * g_w g)%Z -> fin (xv o)) (Fd : forall o, (0 <= o < g_f g * out_h g * out_w g)%Z -> fin (d o)).
Context (FW : forall f o, (0 <= f < g_f g)%Z -> (0 <= o < g_d g * g_fh g * g_fw g)%Z -> fin (s (RW f) o)).
Lemma grid_real : off_grid_zero g (realc s) /\ off_grid_zero g (sizec s).
Proof. split; intros f r q Hf Hr Hq Hg; unfold realc, sizec, reals, sizes; rewrite Z0 by auto; [reflexivity|apply Rabs_R0]. Qed.
Lemma spread_fin f r q : (0 <= f < g_f g)%Z -> (0 <= r < spread_h g)%Z -> (0 <= q < spread_w g)%Z -> fin (spread_flat g d s (at3 (spread_h g) (spread_w g) f r q)).
Proof.
  intros Hf Hr Hq. unfold spread_flat. rewrite flat3_at by auto. unfold spread_val. assert (Hv : (0 < g_vs g)%Z) by apply G. assert (Hh : (0 < g_hs g)%Z) by apply G.
  destruct ((r mod g_vs g =? 0) && (q mod g_hs g =? 0))%Z eqn:E.
  - apply andb_prop in E as [E1 E2]. apply Z.eqb_eq in E1, E2. apply Fd, at3_lt; [exact Hf| |].
    + unfold spread_h in Hr. split; [apply Z.div_pos; lia|]. apply Z.div_lt_upper_bound; nia.
    + unfold spread_w in Hq. split; [apply Z.div_pos; lia|]. apply Z.div_lt_upper_bound; nia.
  - rewrite Z0; [reflexivity|auto|auto|auto|]. apply Bool.andb_false_iff in E as [E|E]; apply Z.eqb_neq in E; auto.
Qed.
Lemma box_range h w r q : in_box h w r q = true -> (0 <= r < h)%Z /\ (0 <= q < w)%Z.
Proof. unfold in_box. intros H. apply andb_prop in H as [H1 H2]. apply andb_prop in H1 as [A B], H2 as [C D]. apply Z.leb_le in A, C. apply Z.ltb_lt in B, D. lia. Qed.
Let s1 := conv_after_backward g xv d s.
Let sR := conv_after_backward g (reals xv) (reals d) (realc s).
Let sA := conv_after_backward g (sizes xv) (sizes d) (sizec s).
Lemma back_B f : (0 <= f < g_f g)%Z -> fin (s RGradB f) ->
  accurate (s1 RGradB f) (spread_h g * spread_w g + 1) (spread_h g * spread_w g) (sR RGradB f) (sA RGradB f) True.
Proof.
  intros Hf F. unfold s1, sR, sA, conv_after_backward. cbv zeta. rewrite !(set_role_other _ RDelta _ RGradB) by discriminate. cbn [conv_after_grads]. rewrite !(set_role_other _ RBuff _ RGradB) by discriminate.
  eapply accurate_ext; [apply gradb_val_accurate|reflexivity| | |].
  - rewrite !gradb_val_R. f_equal. apply zsum_ext. intros r _. apply zsum_ext. intros q _. unfold buff3. rewrite !set_role_same. unfold spread_flat, flat3, spread_val. destruct (_ && _)%bool; reflexivity.
  - rewrite !gradb_val_R. f_equal. apply zsum_ext. intros r _. apply zsum_ext. intros q _. unfold buff3. rewrite !set_role_same. unfold spread_flat, flat3, spread_val. destruct (_ && _)%bool; reflexivity.
  - split; [auto|]. intros _. split; [exact F|]. intros r Hr q Hq. unfold buff3. rewrite set_role_same. now apply spread_fin.
Qed.
Lemma back_W f o : (0 <= f < g_f g)%Z -> (0 <= o < g_d g * g_fh g * g_fw g)%Z -> fin (s (RGradW f) o) ->
  accurate (s1 (RGradW f) o) (spread_h g * spread_w g + 1) (spread_h g * spread_w g) (sR (RGradW f) o) (sA (RGradW f) o) True.
Proof.
  intros Hf Ho F. pose proof gd as H1. pose proof gfh as H2. pose proof gfw as H3. destruct (flat3_split _ _ _ o H1 H2 H3 Ho) as (Hc & Hi & Hj).
  unfold s1, sR, sA, conv_after_backward. cbv zeta. rewrite !(set_role_other _ RDelta _ (RGradW f)) by discriminate. cbn [conv_after_grads]. rewrite !(set_role_other _ RBuff _ (RGradW f)) by discriminate.
  eapply accurate_ext; [apply gradw_val_accurate|reflexivity| | |].
  - rewrite !gradw_val_R. f_equal. apply zsum_ext. intros r _. apply zsum_ext. intros q _. unfold buff3. rewrite !set_role_same. unfold spread_flat, flat3, spread_val. destruct (_ && _)%bool; reflexivity.
  - rewrite !gradw_val_R. f_equal. apply zsum_ext. intros r _. apply zsum_ext. intros q _. unfold buff3. rewrite !set_role_same. unfold spread_flat, flat3, spread_val. destruct (_ && _)%bool; reflexivity.
  - split; [auto|]. intros _. split; [exact F|]. intros r Hr q Hq Hb. unfold buff3. rewrite set_role_same. split; [now apply spread_fin|]. apply box_range in Hb. apply Fx, at3_lt; tauto.
Qed.
Lemma back_D o : (0 <= o < g_d g * g_h g * g_w g)%Z ->
  accurate (s1 RDelta o) (g_fh g * (g_fw g * g_f g) + 1) (g_fh g * (g_fw g * g_f g)) (sR RDelta o) (sA RDelta o) True.
Proof.
  intros Ho. assert (H2 : (0 <= g_h g)%Z) by apply G. assert (H3 : (0 <= g_w g)%Z) by apply G. destruct (flat3_split _ _ _ o gd H2 H3 Ho) as (Hc & Hi & Hj).
  unfold s1, sR, sA, conv_after_backward. cbv zeta. rewrite !set_role_same. unfold cdelta_flat. unfold flat3 at 1 2 3.
  eapply accurate_ext; [apply cdelta_val_accurate|reflexivity| | |].
  - rewrite !cdelta_val_R. apply sum3_ext. intros i j k Hi' Hj' Hk. unfold boxed. f_equal. destruct in_box; [|reflexivity]. unfold buff3. cbn [conv_after_grads]. rewrite !set_role_same. unfold spread_flat, flat3, spread_val. destruct (_ && _)%bool; reflexivity.
  - rewrite !cdelta_val_R. apply sum3_ext. intros i j k Hi' Hj' Hk. unfold boxed. f_equal. destruct in_box; [|reflexivity]. unfold buff3. cbn [conv_after_grads]. rewrite !set_role_same. unfold spread_flat, flat3, spread_val. destruct (_ && _)%bool; reflexivity.
  - split; [auto|]. intros _ i Hi' j Hj' Hb f Hf. apply box_range in Hb. cbn [conv_after_grads]. split.
    + rewrite set_role_other by discriminate. apply FW; [exact Hf|]. apply at3_lt; lia.
    + unfold buff3. cbn [conv_after_grads]. rewrite set_role_same. apply spread_fin; tauto.
Qed.
End Conv.

Theorem C100_forward (L : conv) g m s x xv :
  conv_dims L g -> layer_at m (LConv L) s -> argument3 m (LConv L) x (g_d g) (g_h g) (g_w g) xv ->
  let N := (g_fh g * (g_fw g * g_d g))%Z in
  exists m' s', conv_forward L x m = Ok (tt, m') /\ layer_at m' (LConv L) s' /\
    (forall f y z, (0 <= f < g_f g)%Z -> (0 <= y < out_h g)%Z -> (0 <= z < out_w g)%Z ->
       accurate (s' RValue (at3 (out_h g) (out_w g) f y z)) (N + 1) N
         (correlate_at g (reals (s RB)) (fun f => reals (s (RW f))) (reals xv) f y z)
         (correlate_at g (sizes (s RB)) (fun f => sizes (s (RW f))) (sizes xv) f y z)
         (fin (s RB f) /\ forall i, (0 <= i < g_fh g)%Z -> forall j, (0 <= j < g_fw g)%Z ->
            let r := (g_vs g * y + i - g_p g)%Z in let q := (g_hs g * z + j - g_p g)%Z in
            in_box (g_h g) (g_w g) r q = true ->
            forall c, (0 <= c < g_d g)%Z -> fin (xv (at3 (g_h g) (g_w g) c r q)) /\ fin (s (RW f) (at3 (g_fh g) (g_fw g) c i j)))).
Proof.
  intros D H X N. destruct (C56_forward_value L g m s x xv D H X) as (m' & s' & E & A & V & _). exists m', s'. do 2 (split; [assumption|]).
  intros f y z Hf Hy Hz. rewrite V by auto. apply conv_val_accurate, D.
Qed.
(** The computed gradients against the exact partial derivatives of the weighted output, the error measured by the same derivatives
    for the magnitudes of all numbers. *)
Theorem C100_backward (L : conv) g m s x xv dt d :
  conv_dims L g -> layer_at m (LConv L) s -> off_grid_zero g s ->
  argument3 m (LConv L) x (g_d g) (g_h g) (g_w g) xv -> argument3 m (LConv L) dt (g_f g) (out_h g) (out_w g) d ->
  (forall o, (0 <= o < g_d g * g_h g * g_w g)%Z -> fin (xv o)) -> (forall o, (0 <= o < g_f g * out_h g * out_w g)%Z -> fin (d o)) ->
  (forall f o, (0 <= f < g_f g)%Z -> (0 <= o < g_d g * g_fh g * g_fw g)%Z -> fin (s (RW f) o)) ->
  let W := fun f => reals (s (RW f)) in let W' := fun f => sizes (s (RW f)) in
  let n := (g_f g * out_h g * out_w g)%Z in
  let N := (spread_h g * spread_w g)%Z in let N' := (g_fh g * (g_fw g * g_f g))%Z in
  exists m' s', conv_backward L x dt m = Ok (tt, m') /\ layer_at m' (LConv L) s' /\ off_grid_zero g s' /\
    (forall f, (0 <= f < g_f g)%Z -> fin (s RGradB f) -> exists e A,
       partial (fun B => weighted n (reals d) (correlate g B W (reals xv))) (reals (s RB)) f e /\
       partial (fun B => weighted n (sizes d) (correlate g B W' (sizes xv))) (sizes (s RB)) f A /\
       accurate (s' RGradB f) (N + 1) N (B2R (s RGradB f) + e) (Rabs (B2R (s RGradB f)) + A) True) /\
    (forall f o, (0 <= f < g_f g)%Z -> (0 <= o < g_d g * g_fh g * g_fw g)%Z -> fin (s (RGradW f) o) -> exists e A,
       partial (fun Wf => weighted n (reals d) (correlate g (reals (s RB)) (with_filter W f Wf) (reals xv))) (W f) o e /\
       partial (fun Wf => weighted n (sizes d) (correlate g (sizes (s RB)) (with_filter W' f Wf) (sizes xv))) (W' f) o A /\
       accurate (s' (RGradW f) o) (N + 1) N (B2R (s (RGradW f) o) + e) (Rabs (B2R (s (RGradW f) o)) + A) True) /\
    (forall o, (0 <= o < g_d g * g_h g * g_w g)%Z -> exists e A,
       partial (fun x => weighted n (reals d) (correlate g (reals (s RB)) W x)) (reals xv) o e /\
       partial (fun x => weighted n (sizes d) (correlate g (sizes (s RB)) W' x)) (sizes xv) o A /\
       accurate (s' RDelta o) (N' + 1) N' e A True).
Proof.
  intros D H Z0 X Xd Fx Fd FW W W' n N N'. destruct (conv_backward_run L g m s x xv dt d D H X Xd) as (m' & E & A & _). pose proof (proj1 D) as G.
  exists m', (conv_after_backward g xv d s). do 2 (split; [assumption|]). split; [now apply off_grid_backward|].
  destruct (grid_real g s Z0) as [ZR ZA].
  destruct (step_partial g (realc s) (reals xv) (reals d) G ZR) as (P1 & P2 & P3). destruct (step_partial g (sizec s) (sizes xv) (sizes d) G ZA) as (Q1 & Q2 & Q3).
  split; [|split].
  - intros f Hf F. eexists _, _. split; [exact (P1 f Hf)|]. split; [exact (Q1 f Hf)|].
    eapply accurate_ext; [apply (back_B g G s Z0 xv d Fd f Hf F)|reflexivity| | |tauto]; unfold realc, sizec, reals, sizes; ring.
  - intros f o Hf Ho F. eexists _, _. split; [exact (P2 f o Hf Ho)|]. split; [exact (Q2 f o Hf Ho)|].
    eapply accurate_ext; [apply (back_W g G s Z0 xv d Fx Fd f o Hf Ho F)|reflexivity| | |tauto]; unfold realc, sizec, reals, sizes; ring.
  - intros o Ho. eexists _, _. split; [exact (P3 o Ho)|]. split; [exact (Q3 o Ho)|]. exact (back_D g G s Z0 xv d Fd FW o Ho).
Qed.
End Layers.

(** ** The hypotheses can be met: a dense layer and a convolution in double precision *)
Module Examples.
#[local] Instance Hp53 : Prec_gt_0 53 := eq_refl.
#[local] Instance He53 : Prec_lt_emax 53 1024 := eq_refl.
Notation double := (fl 53 1024).
Definition lib := cr_lib (prec := 53) (emax := 1024).
#[local] Instance ND : Num double := Num_fl 53 1024 lib.
Lemma lib_ok : libm_ok lib. Proof. now apply cr_lib_ok. Qed.
Definition pw (k : Z) : double := fl_of (bpow radix2 k).
Lemma pw_ok k : (-1074 <= k < 1024)%Z -> fin (pw k) /\ B2R (pw k) = bpow radix2 k.
Proof. intros H. apply fl_of_exact; [apply fmt_bpow; lia|]. rewrite Rabs_pos_eq by apply bpow_ge_0. apply bpow_lt. lia. Qed.
(** dense: two inputs 2^3, 2^-2, one output, weights 2^10, 2^5, bias 2; tensors as in PropFC.Examples *)
Definition blk (l : list double) : option (list (option double)) := Some (map Some l).
Definition o := (zero : double).
Definition m0 : mem double :=
  [blk [pw 1]; blk [pw 10; pw 5]; blk [o]; blk [o]; blk [o]; blk [o; o]; blk [o]; blk [o; o]; blk [o; o]; blk [pw 3; pw (-2)]; blk [pw 0]].
Definition s0 : contents double := fun r i => match r with RB => pw 1 | RW _ => nth (Z.to_nat i) [pw 10; pw 5] o | _ => o end.
Definition xv (i : Z) : double := nth (Z.to_nat i) [pw 3; pw (-2)] o.
Notation L0 := PropFC.Examples.L0. Notation tv := PropFC.Examples.tv.
Lemma L0_at a : layer_at m0 (LFC (L0 a)) s0.
Proof.
  split.
  - intros r t E. destruct r as [|[]| | | |[]| | | |]; cbn in E; try discriminate; injection E as <-;
    (split; [split; [reflexivity|]; eexists; split; [reflexivity|]; eexists; split; reflexivity|]);
    intros i Hi; change (t_size _) with 1%Z in Hi || change (t_size _) with 2%Z in Hi;
    (assert (i = 0 \/ i = 1)%Z as [-> | ->] by lia); try lia; reflexivity.
  - intros r r' t t' E E' Hne. destruct r as [|[]| | | |[]| | | |]; cbn in E; try discriminate; injection E as <-;
    destruct r' as [|[]| | | |[]| | | |]; cbn in E'; try discriminate; injection E' as <-; cbn; congruence.
Qed.
Lemma in_arg a : argument m0 (LFC (L0 a)) (tv 9 2) 2 xv.
Proof.
  split; [reflexivity|]. split; [apply (holds_list m0 9 [pw 3; pw (-2)] o); reflexivity|].
  intros (r & t & E & Eb). destruct r as [|[]| | | |[]| | | |]; cbn in E; try discriminate; injection E as <-; discriminate Eb.
Qed.
Lemma size : dense_pre 2 1 (sizes (s0 RB)) (sizes (s0 (RW 0))) (sizes xv) 0 = bpow radix2 13 + bpow radix2 3 + 2.
Proof.
  unfold dense_pre, RealSpec.rsum. change 2%Z with (0 + 1 + 1)%Z. rewrite !zsum_S, zsum_0 by lia. unfold sizes. cbn [add zero Num_R].
  change (xv 0) with (pw 3). change (xv (0 + 1)) with (pw (-2)). change (s0 (RW 0) (0 * 1 + 0)%Z) with (pw 10). change (s0 (RW 0) ((0 + 1) * 1 + 0)%Z) with (pw 5). change (s0 RB 0%Z) with (pw 1).
  rewrite (proj2 (pw_ok 3 ltac:(lia))), (proj2 (pw_ok 10 ltac:(lia))), (proj2 (pw_ok 5 ltac:(lia))), (proj2 (pw_ok (-2) ltac:(lia))), (proj2 (pw_ok 1 ltac:(lia))), !Rabs_pos_eq by apply bpow_ge_0.
  rewrite <- !bpow_plus. change (3 + 10)%Z with 13%Z. change (-2 + 5)%Z with 3%Z. change (bpow radix2 1) with 2. change (IZR (0 + 1 + 1)) with 2. ring.
Qed.
Lemma small : bpow radix2 13 + bpow radix2 3 + 2 + roundings 53 1024 4 3 (bpow radix2 13 + bpow radix2 3 + 2) < big 1024.
Proof.
  change (bpow radix2 13) with 8192. change (bpow radix2 3) with 8. unfold roundings. change (Z.to_nat 4) with 4%nat.
  assert (U1 : uro 53 <= / 1024) by (unfold uro; change (/ 1024) with (bpow radix2 (-10)); apply bpow_le; lia). pose proof (u_pos (prec := 53)) as U0.
  assert (E1 : eta 53 1024 <= 1) by (unfold eta; change 1 with (bpow radix2 0); apply bpow_le; lia). pose proof (eta_pos (prec := 53) (emax := 1024)) as E0.
  assert (P4 : (1 + uro 53) ^ 4 <= 1 + / 4). { apply Rle_trans with ((1 + / 1024) ^ 4); [apply pow_incr; lra|]. cbn [pow]. lra. }
  assert (P1 : 1 <= (1 + uro 53) ^ 4) by apply one_le_pow. assert (B : 65536 < big 1024) by (change 65536 with (bpow radix2 16); apply bpow_lt; lia).
  set (p4 := (1 + uro 53) ^ 4) in *. clearbody p4. generalize dependent (eta 53 1024). intros e E1 E0. assert (3 * e * p4 <= 3 * 1 * (1 + / 4)) by nra. lra.
Qed.
Example C99_applies : exists m' s', fc_forward (L0 (Scalar GELU)) (tv 9 2) m0 = Ok (tt, m') /\ layer_at m' (LFC (L0 (Scalar GELU))) s' /\ fin (s' RValue 0%Z).
Proof.
  destruct (C99_forward_finite (prec := 53) (emax := 1024) lib (L0 (Scalar GELU)) 2 1 (Scalar GELU) m0 s0 (tv 9 2) xv) as (m' & s' & E & A & F); try lia; try discriminate.
  - exact lib_ok.
  - apply PropFC.Examples.L0_dims.
  - reflexivity.
  - apply L0_at.
  - apply in_arg.
  - intros i Hi. assert (i = 0 \/ i = 1)%Z as [-> | ->] by lia; apply pw_ok; lia.
  - intros i Hi. assert (i = 0 \/ i = 1)%Z as [-> | ->] by lia; apply pw_ok; lia.
  - intros i Hi. apply pw_ok; lia.
  - intros j Hj. assert (j = 0%Z) as -> by lia. cbv zeta. rewrite size. exact small.
  - exists m', s'. split; [exact E|]. split; [exact A|]. apply F. lia.
Qed.
(** convolution: a new layer (stride 2, padding 1), input and delta powers of two *)
Notation g0 := PropConv.Examples.g0. Notation tx := PropConv.Examples.tx. Notation td := PropConv.Examples.td.
Definition cxs : list double := [pw 1; pw 2; pw 3; pw 4; pw 5; pw 6; pw 7; pw 8; pw 9].
Definition cds : list double := [pw 0; pw (-1); pw (-2); pw (-3); pw 0; pw 1; pw 2; pw 3].
Definition cm : mem double := [blk cxs; blk cds].
Definition cx (i : Z) : double := nth (Z.to_nat i) cxs o.
Definition cd (i : Z) : double := nth (Z.to_nat i) cds o.
Lemma situation : exists L m, conv_dims L g0 /\ layer_at m (LConv L) (fun _ _ => o) /\ off_grid_zero g0 (fun _ _ => o) /\
  argument3 m (LConv L) tx 1 3 3 cx /\ argument3 m (LConv L) td 2 2 2 cd.
Proof.
  destruct (C55_construction (T := double) cm 1 3 3 2 2 2 1 2 2 PropConv.Examples.g0_ok) as (L & m & E & Eo & D & A & Z & P & F).
  exists L, m. split; [exact D|]. split; [exact A|]. split; [exact Z|].
  assert (K : forall b n f, (b < 2)%nat -> holds cm (Ptr b 0) n f -> holds m (Ptr b 0) n f).
  { intros b n f Hb Hh i Hi. eapply keeps_cell; [exact P|intros []|]. exact (Hh i Hi). }
  assert (O : forall b, (b < 2)%nat -> outside (LConv L) (Ptr b 0)).
  { intros b Hb Q. apply F in Q. cbn in Q. lia. }
  split; (split; [split; [reflexivity|]; cbn; repeat split; lia|]); split; try (apply O; lia); apply K; try lia.
  - apply (holds_list cm 0 cxs o). reflexivity.
  - apply (holds_list cm 1 cds o). reflexivity.
Qed.
Lemma nth_fin (l : list double) i : (forall v, In v l -> fin v) -> fin (nth i l o).
Proof. intros H. destruct (nth_in_or_default i l o) as [Q| ->]; [now apply H|reflexivity]. Qed.
Example C100_applies : exists L (m' : mem double) s' e A, layer_at m' (LConv L) s' /\
  partial (fun x => weighted 8 (reals cd) (correlate g0 (fun _ => 0) (fun _ _ => 0) x)) (reals cx) 4 e /\
  accurate (s' RDelta 4%Z) 9 8 e A True.
Proof.
  destruct situation as (L & m & D & H & Z & X & Xd).
  destruct (C100_backward (prec := 53) (emax := 1024) lib L g0 m _ tx cx td cd D H Z X Xd) as (m' & s' & E & A & _ & _ & _ & P).
  - intros i _. apply nth_fin. intros v Hv. cbn in Hv. repeat destruct Hv as [<-|Hv]; try tauto; apply pw_ok; lia.
  - intros i _. apply nth_fin. intros v Hv. cbn in Hv. repeat destruct Hv as [<-|Hv]; try tauto; apply pw_ok; lia.
  - intros; reflexivity.
  - destruct (P 4%Z) as (e & a & Q1 & Q2 & Q3); [cbn; lia|]. exists L, m', s', e, a. split; [exact A|]. split; [exact Q1|exact Q3].
Qed.
End Examples.
Print Assumptions C99_forward.
Print Assumptions C99_backward.
Print Assumptions C99_forward_finite.
Print Assumptions C100_forward.
Print Assumptions C100_backward.

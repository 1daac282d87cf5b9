(** * Properties C115, C116: the predictions of a network in floating-point arithmetic *)
From Coq Require Import ZArith QArith Reals Lra Lia List.
From Flocq Require Import Core BinarySingleNaN.
From Verif Require Import Mem Scalar MemSpec MemLemmas Lique LiqueSpec LiqueProofs Linear LinearProofs RSum Functions FunctionSpec FunctionProofs
  Layer LayerSpec RealSpec NetSpec ConvSpec ConvProofs PoolSpec PoolProofs PropPool LossProofs Net NetPlan NetProofs PropNet NetReal NetGrad Tool Checker PropChecker
  Float FloatSpec FloatLemmas FloatLib FloatError FloatAcc FloatAct PropFloatAct PropFloatSoftmax PropFloatLayers FloatNetSpec FloatNetAct FloatNetSoft.
Import ListNotations.
Local Open Scope R_scope.

(** ** sums *)
Lemma sum_close n (f g h : Z -> R) : (0 <= n)%Z -> (forall i, (0 <= i < n)%Z -> Rabs (f i - g i) <= h i) -> Rabs (RealSpec.rsum n f - RealSpec.rsum n g) <= RealSpec.rsum n h.
Proof.
  intros Hn H. unfold RealSpec.rsum. rewrite <- RSum.zsum_minus. eapply Rle_trans; [apply (rsum_abs_le n (fun i => f i - g i) Hn)|]. now apply RSum.zsum_le.
Qed.
Lemma prod_close a b w e : Rabs (a - b) <= e -> Rabs (a * w - b * w) <= e * Rabs w.
Proof. intros H. rewrite <- Rmult_minus_distr_r, Rabs_mult. apply Rmult_le_compat_r; [apply Rabs_pos|exact H]. Qed.
Lemma dense_pre_close n k B W x y e j : (0 <= n)%Z -> (forall i, (0 <= i < n)%Z -> Rabs (x i - y i) <= e i) ->
  Rabs (dense_pre n k B W x j - dense_pre n k B W y j) <= dense_pre n k (fun _ => 0) (fun i => Rabs (W i)) e j.
Proof.
  intros Hn H. unfold dense_pre. rewrite Rplus_0_r. replace (_ + _ - _) with (RealSpec.rsum n (fun i => x i * W (i * k + j)%Z) - RealSpec.rsum n (fun i => y i * W (i * k + j)%Z)) by ring.
  apply sum_close; [exact Hn|]. intros i Hi. now apply prod_close, H.
Qed.
Lemma dense_pre_mono n k B W x y j : (forall i, (0 <= i < n)%Z -> 0 <= x i <= y i) ->
  0 <= dense_pre n k (fun i => Rabs (B i)) (fun i => Rabs (W i)) x j <= dense_pre n k (fun i => Rabs (B i)) (fun i => Rabs (W i)) y j.
Proof.
  intros H. unfold dense_pre. pose proof (Rabs_pos (B j)).
  assert (0 <= RealSpec.rsum n (fun i => x i * Rabs (W (i * k + j)%Z))). { apply RSum.zsum_nonneg. intros i Hi. apply Rmult_le_pos; [now apply H|apply Rabs_pos]. }
  assert (RealSpec.rsum n (fun i => x i * Rabs (W (i * k + j)%Z)) <= RealSpec.rsum n (fun i => y i * Rabs (W (i * k + j)%Z))). { apply RSum.zsum_le. intros i Hi. apply Rmult_le_compat_r; [apply Rabs_pos|now apply H]. }
  lra.
Qed.
Lemma dense_pre_abs n k B W x j : (0 <= n)%Z -> Rabs (dense_pre n k B W x j) <= dense_pre n k (fun i => Rabs (B i)) (fun i => Rabs (W i)) (fun i => Rabs (x i)) j.
Proof.
  intros Hn. unfold dense_pre. eapply Rle_trans; [apply Rabs_triang|]. apply Rplus_le_compat_r. eapply Rle_trans; [apply (rsum_abs_le n (fun i => x i * W (i * k + j)%Z) Hn)|].
  apply RSum.zsum_le. intros. rewrite Rabs_mult. apply Rle_refl.
Qed.

Section Corr.
Context (g : geometry) (G : geometry_ok g).
Let h2 := gfh g G. Let h3 := gfw g G. Let h1 := gd g G.
Lemma correlate_close B W x y e f r q : (forall i, (0 <= i < g_d g * g_h g * g_w g)%Z -> Rabs (x i - y i) <= e i) ->
  Rabs (correlate_at g B W x f r q - correlate_at g B W y f r q) <= correlate_at g (fun _ => 0) (fun f i => Rabs (W f i)) e f r q.
Proof.
  intros H. unfold correlate_at. rewrite Rplus_0_l. match goal with |- Rabs (?b + ?s - (?b + ?t)) <= _ => replace (b + s - (b + t)) with (s - t) by ring end.
  apply sum_close; [exact h2|]. intros i Hi. apply sum_close; [exact h3|]. intros j Hj. apply sum_close; [exact h1|]. intros c Hc. apply prod_close.
  unfold padded. destruct in_box eqn:Eb; [|rewrite Rminus_0_r, Rabs_R0; lra]. apply box_range in Eb. apply H, at3_lt; tauto.
Qed.
Lemma correlate_mono B W x y f r q : (forall i, (0 <= i < g_d g * g_h g * g_w g)%Z -> 0 <= x i <= y i) ->
  0 <= correlate_at g (fun i => Rabs (B i)) (fun f i => Rabs (W f i)) x f r q <= correlate_at g (fun i => Rabs (B i)) (fun f i => Rabs (W f i)) y f r q.
Proof.
  intros H. assert (P : forall c i j, (0 <= c < g_d g)%Z -> 0 <= padded (g_h g) (g_w g) x c i j <= padded (g_h g) (g_w g) y c i j).
  { intros c i j Hc. unfold padded. destruct in_box eqn:Eb; [|lra]. apply box_range in Eb. apply H, at3_lt; tauto. }
  unfold correlate_at. pose proof (Rabs_pos (B f)). split.
  - apply Rplus_le_le_0_compat; [lra|]. apply RSum.zsum_nonneg. intros i Hi. apply RSum.zsum_nonneg. intros j Hj. apply RSum.zsum_nonneg. intros c Hc. apply Rmult_le_pos; [now apply P|apply Rabs_pos].
  - apply Rplus_le_compat_l. apply RSum.zsum_le. intros i Hi. apply RSum.zsum_le. intros j Hj. apply RSum.zsum_le. intros c Hc. apply Rmult_le_compat_r; [apply Rabs_pos|now apply P].
Qed.
Lemma correlate_abs B W x f r q : Rabs (correlate_at g B W x f r q) <= correlate_at g (fun i => Rabs (B i)) (fun f i => Rabs (W f i)) (fun i => Rabs (x i)) f r q.
Proof.
  assert (A : forall n (a b : Z -> R), (0 <= n)%Z -> (forall i, (0 <= i < n)%Z -> Rabs (a i) <= b i) -> Rabs (RealSpec.rsum n a) <= RealSpec.rsum n b).
  { intros n a b Hn H. eapply Rle_trans; [apply (rsum_abs_le n a Hn)|]. now apply RSum.zsum_le. }
  unfold correlate_at. eapply Rle_trans; [apply Rabs_triang|]. apply Rplus_le_compat_l. apply A; [exact h2|]. intros i Hi. apply A; [exact h3|]. intros j Hj. apply A; [exact h1|]. intros c Hc.
  rewrite Rabs_mult. apply Rmult_le_compat_r; [apply Rabs_pos|]. unfold padded. destruct in_box; [lra|rewrite Rabs_R0; lra].
Qed.
End Corr.

(** ** windows *)
Lemma window_in q c y z i j : tiling_ok q -> (0 <= c < q_d q)%Z -> (0 <= y < q_oh q)%Z -> (0 <= z < q_ow q)%Z ->
  (y * q_vs q <= i < (y + 1) * q_vs q)%Z -> (z * q_hs q <= j < (z + 1) * q_hs q)%Z -> (0 <= at3 (q_h q) (q_w q) c i j < q_d q * q_h q * q_w q)%Z.
Proof.
  intros Q Hc Hy Hz Hi Hj. apply at3_lt; [exact Hc| |]; unfold q_h, q_w; destruct Q as (_ & _ & _ & V & H & _); nia.
Qed.
Lemma window_close q x y e c a b : tiling_ok q -> (0 <= c < q_d q)%Z -> (0 <= a < q_oh q)%Z -> (0 <= b < q_ow q)%Z ->
  (forall i, (0 <= i < q_d q * q_h q * q_w q)%Z -> Rabs (x i - y i) <= e i) -> Rabs (window_max q x c a b - window_max q y c a b) <= window_max q e c a b.
Proof.
  intros Q Hc Ha Hb H. destruct (window_max_greatest q x c a b Q) as [(i & j & Hi & Hj & Ex) Gx]. destruct (window_max_greatest q y c a b Q) as [(i' & j' & Hi' & Hj' & Ey) Gy]. destruct (window_max_greatest q e c a b Q) as [_ Ge].
  specialize (Gx i' j' Hi' Hj'). specialize (Gy i j Hi Hj). pose proof (Ge i j Hi Hj) as E1. pose proof (Ge i' j' Hi' Hj') as E2.
  pose proof (H _ (window_in q c a b i j Q Hc Ha Hb Hi Hj)) as H1. pose proof (H _ (window_in q c a b i' j' Q Hc Ha Hb Hi' Hj')) as H2. rewrite Ex in *. rewrite Ey in *.
  apply Rabs_le_inv in H1, H2. apply Rabs_le. lra.
Qed.
Lemma window_abs q x e c a b : tiling_ok q -> (0 <= c < q_d q)%Z -> (0 <= a < q_oh q)%Z -> (0 <= b < q_ow q)%Z ->
  (forall i, (0 <= i < q_d q * q_h q * q_w q)%Z -> Rabs (x i) <= e i) -> Rabs (window_max q x c a b) <= window_max q e c a b.
Proof.
  intros Q Hc Ha Hb H. destruct (window_max_greatest q x c a b Q) as [(i & j & Hi & Hj & Ex) _]. destruct (window_max_greatest q e c a b Q) as [_ Ge].
  pose proof (Ge i j Hi Hj) as E1. rewrite Ex. eapply Rle_trans; [apply H, (window_in q c a b i j Q Hc Ha Hb Hi Hj)|exact E1].
Qed.
Lemma zfold_rel {A B} (P : A -> B -> Prop) n f g a b : (forall i a b, (0 <= i < n)%Z -> P a b -> P (f i a) (g i b)) -> P a b -> P (zfold n f a) (zfold n g b).
Proof.
  intros H H0. unfold zfold. assert (L : (Z.of_nat (Z.to_nat n) <= n \/ Z.to_nat n = 0%nat)%Z) by lia. revert L. induction (Z.to_nat n) as [|k IH]; intros L; [exact H0|].
  cbn [gfold]. apply H; [lia|]. apply IH. left. lia.
Qed.

Section Net.
Context {prec emax : Z} {Hp : Prec_gt_0 prec} {He : Prec_lt_emax prec emax} (P24 : (24 <= prec)%Z) (E64 : (64 <= emax)%Z) (PM : (prec + 3 <= emax)%Z).
Context (lib : libm prec emax) (LO : libm_ok lib) (c : R) (AC : libm_accurate lib c).
Notation fl := (fl prec emax).
Notation u := (uro prec).
Notation eta := (eta prec emax).
#[local] Instance NF : Num fl := Num_fl prec emax lib.

Lemma window_exact q (x : Z -> fl) ch a b : tiling_ok q -> (0 <= ch < q_d q)%Z -> (0 <= a < q_oh q)%Z -> (0 <= b < q_ow q)%Z ->
  (forall i, (0 <= i < q_d q * q_h q * q_w q)%Z -> fin (x i)) -> fin (window_max q x ch a b) /\ B2R (window_max q x ch a b) = window_max q (reals x) ch a b.
Proof.
  intros Q Hc Ha Hb F. rewrite !scan_max. assert (V : (0 < q_vs q)%Z /\ (0 < q_hs q)%Z) by (destruct Q; tauto). destruct V as [V W].
  apply (zfold_rel (fun (p : fl) (r : R) => fin p /\ B2R p = r)).
  - intros i p r Hi Pr. apply (zfold_rel (fun (p : fl) (r : R) => fin p /\ B2R p = r)); [|exact Pr]. clear p r Pr. intros j p r Hj [Fp <-].
    pose proof (F _ (window_in q ch a b (a * q_vs q + i) (b * q_hs q + j) Q Hc Ha Hb ltac:(lia) ltac:(lia))) as Fx. set (k := at3 _ _ _ _ _) in *.
    cbn [ltb NF Num_fl Num_R]. unfold Rltb, reals. destruct (Bltb p (x k)) eqn:L.
    + apply val_ltb in L; auto using fin_num. rewrite !fin_val in L by auto. destruct Rlt_dec; [auto|lra].
    + apply val_ltb_false in L; auto using fin_num. rewrite !fin_val in L by auto. destruct Rlt_dec; [lra|auto].
  - split; [|reflexivity]. apply F. apply (window_in q ch a b); auto; lia.
Qed.

(** ** an activation on pre-activations known up to [d], of magnitude at most [p] *)
Lemma act_step a k (pre : Z -> fl) (z d p : Z -> R) o : act_covered (prec := prec) a k -> (0 <= o < k)%Z ->
  (forall o, (0 <= o < k)%Z -> fin (pre o) /\ Rabs (B2R (pre o) - z o) <= d o /\ Rabs (B2R (pre o)) <= p o) ->
  fin (act_val a k pre o) /\ Rabs (B2R (act_val a k pre o) - act_val (NT := Num_R) a k z o) <= act_drift (prec := prec) (emax := emax) c a k d p o.
Proof.
  intros C Ho H. destruct a as [a|]; cbn [act_covered act_drift] in *.
  - destruct (H o Ho) as (F & D & Q). cbn [act_val]. rewrite act_std. split; [apply (scalar_f_spec P24 E64 lib LO a (pre o) F); apply C|].
    replace (_ - _) with (B2R (scalar_f a (pre o)) - std_act a (B2R (pre o)) + (std_act a (B2R (pre o)) - std_act a (z o))) by ring.
    eapply Rle_trans; [apply Rabs_triang|]. pose proof (act_acc P24 E64 PM lib LO c AC a (pre o) C F) as X. pose proof (lip_act a (B2R (pre o)) (z o) C) as Y.
    pose proof (noise_mono (prec := prec) (emax := emax) P24 E64 lib c AC a _ _ C (conj (Rabs_pos _) Q)) as M. pose proof (Rmult_le_compat_l _ _ _ (gain_pos a) D). unfold FloatNetAct.NF, NF in *. lra.
  - destruct C as [K C]. rewrite softmax_std by exact K. assert (F : forall j, (0 <= j < k)%Z -> fin (pre j)) by (intros; now apply H).
    split; [apply (softmax_ok PM lib LO pre k K F); exact Ho|]. pose proof (soft_acc P24 E64 PM lib LO c AC pre k o Ho C F) as X.
    assert (Y : Rabs (std_softmax k (fun j => B2R (pre j)) o - std_softmax k z o) <= exp (2 * vmax k d) - 1).
    { apply lip_soft; [exact Ho|]. intros j Hj. eapply Rle_trans; [now apply H|now apply vmax_ge]. }
    match goal with |- Rabs (?a - ?b) <= _ => replace (a - b) with (a - std_softmax k (fun j => B2R (pre j)) o + (std_softmax k (fun j => B2R (pre j)) o - b)) by ring end.
    eapply Rle_trans; [apply Rabs_triang|]. unfold FloatNetSoft.NF, NF in *. lra.
Qed.
(** ** one layer *)
Lemma near (x : Z -> fl) (xr e : Z -> R) i : Rabs (B2R (x i) - xr i) <= e i -> Rabs (B2R (x i)) <= Rabs (xr i) + e i.
Proof. intros H. replace (B2R (x i)) with (xr i + (B2R (x i) - xr i)) by ring. eapply Rle_trans; [apply Rabs_triang|]. lra. Qed.
Lemma real_layer_act p (s : contents R) x o : (0 <= o < out_count p)%Z -> real_layer p s x o =
  match p with
  | PDense a n k => act_val (NT := Num_R) a k (dense_pre n k (s RB) (s (RW 0)) x) o
  | PConv g => correlate g (s RB) (fun f => s (RW f)) x o
  | PPool a q => pool_out a q x o
  end.
Proof.
  intros Ho. destruct p as [a n k|g|a q]; try reflexivity. cbn [real_layer out_count] in *. destruct a as [a|]; [unfold dense; cbn [act_val]; now rewrite act_std|]. rewrite softmax_std by lia. reflexivity.
Qed.
Lemma layer_step (d : node fl) (xv : Z -> fl) (xr e : Z -> R) :
  let p := n_plan d in let s := fun r i => B2R (n_data d r i) in
  fits (n_layer d) p -> sound_layer d ->
  (forall i, (0 <= i < in_count p)%Z -> fin (xv i) /\ Rabs (B2R (xv i) - xr i) <= e i) ->
  match p with PDense a _ _ | PPool a _ => act_covered (prec := prec) a (out_count p) | PConv _ => True end ->
  (forall o, (0 <= o < out_count p)%Z -> let A := magnitude p s xr e o in A + rounds (prec := prec) (emax := emax) p A < big emax) ->
  forall o, (0 <= o < out_count p)%Z -> fin (node_out d xv o) /\ Rabs (B2R (node_out d xv o) - real_layer p s xr o) <= layer_drift (prec := prec) (emax := emax) c p s xr e o.
Proof.
  intros p s Ft S X Cv Bd o Ho. assert (Fx : forall i, (0 <= i < in_count p)%Z -> fin (xv i)) by (intros; now apply X).
  assert (Nr : forall i, (0 <= i < in_count p)%Z -> 0 <= Rabs (B2R (xv i)) <= Rabs (xr i) + e i). { intros i Hi. split; [apply Rabs_pos|]. apply near. now apply X. }
  rewrite real_layer_act by exact Ho. unfold node_out, sound_layer in *. fold p in S |- *. destruct p as [a n k|g|a q] eqn:Ep; cbn [out_count in_count magnitude rounds layer_drift spread] in *.
  - (* dense *)
    assert (Hn : (0 <= n)%Z) by (destruct (n_layer d); cbn in Ft; try contradiction; apply Ft). destruct S as [SW SB].
    unfold dense_out. apply act_step; [exact Cv|exact Ho|]. clear o Ho. intros o Ho. specialize (Bd o Ho).
    set (A := dense_pre n k (fun i => Rabs (s RB i)) (fun i => Rabs (s (RW 0) i)) (fun i => Rabs (xr i) + e i) o) in *.
    destruct (affine_accurate lib n k (n_data d) xv o Hn) as [Q1 Q2]. set (A' := dense_pre n k (sizes (n_data d RB)) (sizes (n_data d (RW 0))) (sizes xv) o) in *.
    assert (AA : 0 <= A' <= A) by (apply (dense_pre_mono n k (s RB) (s (RW 0)) (sizes xv)); exact Nr).
    pose proof (roundings_mono (prec := prec) (emax := emax) (n + 2) (n + 1) A' (n + 2) (n + 1) A ltac:(lia) ltac:(lia) AA) as RM.
    unfold PropFC.affine in Q1, Q2. unfold PropFloatLayers.NF, NF in *. set (pre := @add fl _ _ _) in *.
    assert (F : fin pre). { apply Q2; [|lra]. split; [|auto]. intros i Hi. split; [auto|]. apply SW. nia. }
    destruct (Q1 F) as [_ Er]. set (ex := dense_pre n k (reals _) _ _ o) in *. split; [exact F|].
    assert (C1 : Rabs (ex - dense_pre n k (s RB) (s (RW 0)) xr o) <= dense_pre n k (fun _ => 0) (fun i => Rabs (s (RW 0) i)) e o).
    { apply (dense_pre_close n k (s RB) (s (RW 0)) (reals xv)); [exact Hn|]. intros. now apply X. }
    assert (C2 : Rabs ex <= A') by (apply (dense_pre_abs n k (reals (n_data d RB)) (reals (n_data d (RW 0))) (reals xv) o Hn)).
    split.
    + replace (_ - _) with (B2R pre - ex + (ex - dense_pre n k (s RB) (s (RW 0)) xr o)) by ring. eapply Rle_trans; [apply Rabs_triang|]. lra.
    + replace (B2R pre) with (B2R pre - ex + ex) by ring. eapply Rle_trans; [apply Rabs_triang|]. lra.
  - (* convolution *)
    assert (G : geometry_ok g) by (destruct (n_layer d); cbn in Ft; try contradiction; apply Ft). destruct S as [SW SB].
    assert (O3 : (0 <= g_f g)%Z /\ (0 <= out_h g)%Z /\ (0 <= out_w g)%Z) by (pose proof (gf g G); pose proof (out_h_pos g G); pose proof (out_w_pos g G); lia).
    destruct O3 as (O1 & O2 & O3). destruct (flat3_split (g_f g) (out_h g) (out_w g) o O1 O2 O3 Ho) as (R1 & R2 & R3).
    specialize (Bd o Ho). unfold conv_out, correlate in *. set (f := (o / out_w g / out_h g)%Z) in *. set (y := ((o / out_w g) mod out_h g)%Z) in *. set (z := (o mod out_w g)%Z) in *.
    set (A := correlate_at g (fun i => Rabs (s RB i)) (fun f i => Rabs (s (RW f) i)) (fun i => Rabs (xr i) + e i) f y z) in *.
    destruct (conv_val_accurate lib g G (n_data d RB) (fun f => n_data d (RW f)) xv f y z) as [Q1 Q2]. set (N := (g_fh g * (g_fw g * g_d g))%Z) in *.
    assert (N0 : (0 <= N)%Z) by (pose proof (gfh g G); pose proof (gfw g G); pose proof (gd g G); unfold N; nia).
    set (A' := correlate_at g (sizes (n_data d RB)) (fun f => sizes (n_data d (RW f))) (sizes xv) f y z) in *.
    assert (AA : 0 <= A' <= A) by (apply (correlate_mono g (s RB) (fun f => s (RW f)) (sizes xv)); exact Nr).
    pose proof (roundings_mono (prec := prec) (emax := emax) (N + 1) N A' (N + 1) N A ltac:(lia) ltac:(lia) AA) as RM.
    unfold PropFloatLayers.NF, NF in *. set (pre := conv_val (NT := Num_fl prec emax lib) _ _ _ _ _ _ _) in *.
    assert (F : fin pre).
    { apply Q2; [|lra]. split; [now apply SB|]. intros i Hi j Hj Eb ch Hch. apply box_range in Eb. split; [apply Fx, at3_lt; tauto|]. apply SW; [exact R1|]. now apply at3_lt. }
    destruct (Q1 F) as [_ Er]. set (ex := correlate_at g (reals (n_data d RB)) (fun f => reals (n_data d (RW f))) (reals xv) f y z) in *. split; [exact F|].
    assert (C1 : Rabs (ex - correlate_at g (s RB) (fun f => s (RW f)) xr f y z) <= correlate_at g (fun _ => 0) (fun f i => Rabs (s (RW f) i)) e f y z).
    { apply (correlate_close g G (s RB) (fun f => s (RW f)) (reals xv)). intros. now apply X. }
    replace (_ - _) with (B2R pre - ex + (ex - correlate_at g (s RB) (fun f => s (RW f)) xr f y z)) by ring. eapply Rle_trans; [apply Rabs_triang|]. lra.
  - (* pooling *)
    assert (Q : tiling_ok q) by (destruct (n_layer d); cbn in Ft; try contradiction; apply Ft).
    assert (Eo : node_out d xv = pool_out a q xv). { unfold node_out. change (n_plan d) with p. rewrite Ep. destruct (n_layer d); try reflexivity. exfalso. apply S. exact I. }
    unfold node_out in Eo. change (n_plan d) with p in Eo. rewrite Ep in Eo. cbn [out_count] in Eo. rewrite Eo. clear Eo. unfold pool_out. cbn [out_count].
    apply act_step; [exact Cv|exact Ho|]. clear o Ho. intros o Ho. assert (O2 : (0 <= q_d q)%Z /\ (0 <= q_oh q)%Z /\ (0 <= q_ow q)%Z) by (destruct Q; tauto).
    destruct O2 as (O1 & O2 & O3). destruct (flat3_split (q_d q) (q_oh q) (q_ow q) o O1 O2 O3 Ho) as (R1 & R2 & R3).
    destruct (window_exact q xv _ _ _ Q R1 R2 R3 Fx) as [F E]. split; [exact F|]. rewrite E, !Rplus_0_r. split.
    + apply window_close; auto. intros. now apply X.
    + apply window_abs; auto. intros. now apply Nr.
Qed.

(** ** the network *)
Definition out_shape (s : shape) (ps : list plan) : shape := fold_left (fun _ p => p_out p) ps s.
Lemma net_step (l : list (node fl)) : forall (s : shape) (xv : Z -> fl) (xr e : Z -> R),
  Forall (fun d => fits (n_layer d) (n_plan d)) l -> wired s (plans l) -> Forall sound_layer l ->
  (forall i, (0 <= i < s_size s)%Z -> fin (xv i) /\ Rabs (B2R (xv i) - xr i) <= e i) -> safe (prec := prec) (emax := emax) c (exact l) xr e ->
  forall o, (0 <= o < s_size (out_shape s (plans l)))%Z ->
    fin (net_out l xv o) /\ Rabs (B2R (net_out l xv o) - real_net (exact l) xr o) <= drift (prec := prec) (emax := emax) c (exact l) xr e o.
Proof.
  induction l as [|d l IH]; intros s xv xr e Ft W S X Sf o Ho; [exact (X o Ho)|].
  apply Forall_cons_iff in Ft as [Fd Ft]. apply Forall_cons_iff in S as [Sd S]. destruct W as [W1 W2]. destruct Sf as (Cv & Bd & Sf).
  destruct (fits_counts _ _ Fd) as (_ & Eo & _). pose proof (feeds_count _ _ _ Fd W1) as Ei. rewrite Ei in X.
  exact (IH (p_out (n_plan d)) (node_out d xv) (real_layer (n_plan d) (fun r i => B2R (n_data d r i)) xr) (layer_drift c (n_plan d) (fun r i => B2R (n_data d r i)) xr e)
    Ft W2 S ltac:(rewrite Eo; exact (layer_step d xv xr e Fd Sd X Cv Bd)) Sf o Ho).
Qed.
Lemma out_last : forall (ps : list plan) s p, nth_error ps (length ps - 1) = Some p -> out_shape s ps = p_out p.
Proof.
  intros ps s p. destruct ps as [|q ps] using rev_ind; [discriminate|]. rewrite app_length. cbn [length]. replace (length ps + 1 - 1)%nat with (length ps) by lia. rewrite nth_error_app2, Nat.sub_diag by lia. cbn [nth_error]. intros [= ->].
  unfold out_shape. now rewrite fold_left_app.
Qed.
Theorem C115_prediction_error (m : mem fl) (l : list (node fl)) (x : tensor) (xv : Z -> fl) (xr e : Z -> R) :
  l <> [] -> (Z.of_nat (length l) < 2 ^ 64)%Z -> net_at m l -> sample_at m l x xv -> Forall sound_layer l ->
  (forall i, (0 <= i < t_size x)%Z -> fin (xv i) /\ Rabs (B2R (xv i) - xr i) <= e i) -> safe (prec := prec) (emax := emax) c (exact l) xr e ->
  exists y m' p yv, net_feedforward (layers l) x m = Ok (y, m') /\
    nth_error (plans l) (length l - 1) = Some p /\ t_shape y = p_out p /\ holds m' (t_data y) (out_count p) yv /\
    forall j, (0 <= j < out_count p)%Z -> fin (yv j) /\ Rabs (B2R (yv j) - real_net (exact l) xr j) <= drift (prec := prec) (emax := emax) c (exact l) xr e j.
Proof.
  intros Ne Hn A Sa S X Sf. destruct (C63_feedforward_is_composition m l x xv Ne Hn A Sa) as (y & m' & l' & E & _ & _ & _ & (p & Ep & Es & Hy) & _).
  exists y, m', p, (net_out l xv). do 4 (split; [assumption|]). intros j Hj.
  assert (Ft : Forall (fun d => fits (n_layer d) (n_plan d)) l) by (eapply Forall_impl; [|exact (proj1 A)]; intros ? []; assumption).
  apply (net_step l (t_shape x)); auto; [apply Sa|]. rewrite (out_last _ _ p) by (unfold plans in *; now rewrite map_length).
  unfold plans in Ep. rewrite nth_error_map in Ep. destruct (nth_error l (length l - 1)) as [d|] eqn:Ed; [|discriminate]. cbn in Ep. injection Ep as <-.
  rewrite Forall_forall in Ft. destruct (fits_counts _ _ (Ft d (nth_error_In _ _ Ed))) as (_ & -> & _). exact Hj.
Qed.

(** ** C116 *)
(** the index found is the one whose value is strictly greater than all others *)
Lemma argmax_strict (p : ptr) k (f : Z -> fl) (m : mem fl) j0 : (0 <= j0 < k)%Z -> holds m p k f -> (forall j, (0 <= j < k)%Z -> fin (f j)) ->
  (forall j, (0 <= j < k)%Z -> j <> j0 -> B2R (f j) < B2R (f j0)) -> tl_argmax p k m = Ok (j0, m).
Proof.
  intros Hj Hf F G. unfold tl_argmax, tl_search. destruct (Z.eqb_spec k 0); [lia|].
  match goal with |- mfold ?a ?b ?body ?s m = _ =>
    assert (W : wp (mfold a b body s) m (fun r m' => m' = m /\ r = j0)) end.
  { apply (wp_mfold _ 1 k _ (fun i r m' => m' = m /\ (0 <= r < i)%Z /\ ((j0 < i)%Z -> r = j0))); [lia| | |].
    - split; [reflexivity|]. split; [lia|]. intros. lia.
    - intros i r m' Hi (-> & Hr & Er). eapply wp_bind, wp_load; [apply Hf; lia|]. eapply wp_bind, wp_load; [apply Hf; lia|]. apply wp_ret. split; [reflexivity|].
      unfold is_less. cbn [ltb NF Num_fl]. destruct (Bltb (f r) (f i)) eqn:L.
      + apply val_ltb in L; try (apply fin_num, F; lia). rewrite !fin_val in L by (apply F; lia). split; [lia|]. intros. destruct (Z.eq_dec i j0) as [|N]; [assumption|].
        exfalso. rewrite (Er ltac:(lia)) in L. specialize (G i ltac:(lia) N). lra.
      + apply val_ltb_false in L; try (apply fin_num, F; lia). rewrite !fin_val in L by (apply F; lia). split; [lia|]. intros. destruct (Z.eq_dec i j0) as [->|N]; [|apply Er; lia].
        destruct (Z.eq_dec r j0) as [|N]; [assumption|]. specialize (G r ltac:(lia) N). lra.
    - intros r m' (-> & Hr & Er). split; [reflexivity|]. apply Er. lia. }
  apply wp_elim in W as (r & m' & -> & -> & ->). reflexivity.
Qed.
(** [j0] is the answer of the exact network, by more than the errors of the two outputs compared *)
Definition clear_winner (l : model) (xr e : Z -> R) (k j0 : Z) : Prop :=
  (0 <= j0 < k)%Z /\ forall j, (0 <= j < k)%Z -> j <> j0 ->
    real_net l xr j + drift (prec := prec) (emax := emax) c l xr e j + drift (prec := prec) (emax := emax) c l xr e j0 < real_net l xr j0.
Theorem C116_same_class (m : mem fl) (l : list (node fl)) (x : tensor) (xv : Z -> fl) (xr e : Z -> R) :
  l <> [] -> (Z.of_nat (length l) < 2 ^ 64)%Z -> net_at m l -> sample_at m l x xv -> Forall sound_layer l ->
  (forall i, (0 <= i < t_size x)%Z -> fin (xv i) /\ Rabs (B2R (xv i) - xr i) <= e i) -> safe (prec := prec) (emax := emax) c (exact l) xr e ->
  exists y m' p, net_feedforward (layers l) x m = Ok (y, m') /\ nth_error (plans l) (length l - 1) = Some p /\ t_shape y = p_out p /\
    forall j0, clear_winner (exact l) xr e (t_size y) j0 -> tl_argmax (t_data y) (t_size y) m' = Ok (j0, m').
Proof.
  intros Ne Hn A Sa S X Sf. destruct (C115_prediction_error m l x xv xr e Ne Hn A Sa S X Sf) as (y & m' & p & yv & E & Ep & Es & Hy & Q). exists y, m', p. split; [exact E|]. split; [exact Ep|]. split; [exact Es|].
  assert (Sz : t_size y = out_count p).
  { unfold t_size. rewrite Es. unfold plans in Ep. rewrite nth_error_map in Ep. destruct (nth_error l (length l - 1)) as [d|] eqn:Ed; [|discriminate]. cbn in Ep. injection Ep as <-.
    pose proof (proj1 A) as Ft. rewrite Forall_forall in Ft. now destruct (fits_counts _ _ (proj1 (Ft d (nth_error_In _ _ Ed)))) as (_ & -> & _). }
  rewrite Sz. intros j0 [H0 W]. apply argmax_strict with (f := yv); auto; [intros; now apply Q|]. intros j Hj N.
  specialize (W j Hj N). destruct (Q j Hj) as [_ Q1]. destruct (Q j0 H0) as [_ Q2]. apply Rabs_le_inv in Q1, Q2. lra.
Qed.

(** the index found by the accuracy checker, on any numbers *)
Definition found (k : Z) (f : Z -> fl) : Z := zfold (k - 1) (fun j best => if ltb (f best) (f (j + 1)%Z) then (j + 1)%Z else best) 0%Z.
Lemma guide_max_found (m : mem fl) k p (f : Z -> fl) : (0 < k)%Z -> holds m p k f -> guide_max k p m = Ok (found k f, m).
Proof.
  intros Hk H. assert (W : wp (guide_max k p) m (fun i m' => m' = m /\ i = found k f)).
  { unfold guide_max. apply (wp_mfold _ 1 k _ (fun j i m' => m' = m /\ (0 <= i < j)%Z /\ i = found j f)); [lia| | |].
    - split; [reflexivity|]. split; [lia|reflexivity].
    - intros j best m' Hj (-> & Hb & Eb). eapply wp_bind, wp_load; [apply H; lia|]. eapply wp_bind, wp_load; [apply H; lia|].
      apply wp_ret. split; [reflexivity|]. unfold found. replace (j + 1 - 1)%Z with (j - 1 + 1)%Z by lia. rewrite zfold_S by lia. replace (j - 1 + 1)%Z with j by lia. fold (found j f). rewrite <- Eb. destruct ltb; split; lia.
    - intros r m' (-> & _ & ->). auto. }
  apply wp_elim in W as (i & m' & E & -> & ->). exact E.
Qed.
Lemma found_argmax k (f : Z -> fl) : (0 < k)%Z -> (forall j, (0 <= j < k)%Z -> fin (f j)) -> found k f = argmax k (reals f).
Proof.
  intros Hk F. unfold found, argmax. assert (G : forall j, (0 <= j)%Z -> (j < k)%Z ->
    let a := zfold j (fun j best => if ltb (f best) (f (j + 1)%Z) then (j + 1)%Z else best) 0%Z in (0 <= a <= j)%Z /\ a = zfold j (fun j best => if Rltb (reals f best) (reals f (j + 1)%Z) then (j + 1)%Z else best) 0%Z).
  { cbv zeta. apply (natlike_ind (fun j => (j < k)%Z -> (_ <= _ <= _)%Z /\ _ = _)); [intros _; rewrite !zfold_0; cbn; lia|]. intros j Hj IH Hk'. unfold Z.succ in *. rewrite !zfold_S by lia. destruct (IH ltac:(lia)) as [R1 E1]. rewrite <- E1. set (a := zfold j _ 0%Z) in *.
    cbn [ltb NF Num_fl]. unfold Rltb, reals. assert (Fa : fin (f a)) by (apply F; lia). assert (Fj : fin (f (j + 1)%Z)) by (apply F; lia). destruct (Bltb (f a) (f (j + 1)%Z)) eqn:L.
    - apply val_ltb in L; auto using fin_num. rewrite !fin_val in L by auto. destruct Rlt_dec; [lia|lra].
    - apply val_ltb_false in L; auto using fin_num. rewrite !fin_val in L by auto. destruct Rlt_dec; [lra|lia]. }
  apply G; lia.
Qed.
(** The accuracy counted by the checker is that of the exact network, if each of its answers is clear. *)
Theorem C116_same_accuracy (m : mem fl) (l : list (node fl)) n k idata odata (xs ys : Z -> Z -> fl) (xr e : Z -> Z -> R) (win : Z -> Z) :
  l <> [] -> (Z.of_nat (length l) < 2 ^ 64)%Z -> net_at m l -> has_outputs l k -> data_at m l n k idata odata xs ys -> (0 < k)%Z -> Forall sound_layer l ->
  (forall i, (0 <= i < n)%Z -> forall j, (0 <= j < k)%Z -> fin (ys i j)) ->
  (forall i, (0 <= i < n)%Z -> forall j, (0 <= j < match plans l with p :: _ => in_count p | [] => 0%Z end)%Z -> fin (xs i j) /\ Rabs (B2R (xs i j) - xr i j) <= e i j) ->
  (forall i, (0 <= i < n)%Z -> safe (prec := prec) (emax := emax) c (exact l) (xr i) (e i) /\ clear_winner (exact l) (xr i) (e i) k (win i)) ->
  exists (hits : list Z) m', NoDup hits /\
    (forall i, In i hits <-> (0 <= i < n)%Z /\ exists j, PropChecker.first_max k (reals (ys i)) j /\ PropChecker.first_max k (real_net (exact l) (xr i)) j) /\
    acc_normal (layers l) idata odata m = Ok (div (ofZ (Z.of_nat (length hits))) (ofZ n), m').
Proof.
  intros Ne Hn A Ho Hd K0 S Fy X W. pose proof Hd as [Hl Hd'].
  destruct (predict_loop Z m l n k idata odata xs ys (fun z y count => let* b := guide_normal z y in ret (if b : bool then (count + 1)%Z else count))
    (fun t p c => if (found k t =? found k p)%Z then (c + 1)%Z else c) 0%Z Ne Hn A Ho Hd) as (m' & l' & E & _).
  { intros z y a mm zv yv Tz Hz Hy. unfold guide_normal, bind, ret. rewrite Tz, (guide_max_found mm k _ zv K0 Hz), (guide_max_found mm k _ yv K0 Hy). reflexivity. }
  destruct (count_list (fun i => found k (ys i) =? found k (net_out l (xs i)))%Z n 0 ltac:(lia)) as (hits & Nd & Hin & Ec). exists hits, m'. split; [exact Nd|]. split.
  - intros i. rewrite Hin. assert (Q : (0 <= i < n)%Z -> (found k (ys i) =? found k (net_out l (xs i)))%Z = true <-> exists j, PropChecker.first_max k (reals (ys i)) j /\ PropChecker.first_max k (real_net (exact l) (xr i)) j); [|tauto].
    intros Hi. destruct (W i Hi) as [Sf [R0 Cw]]. destruct (Hd' i Hi) as (x & y & _ & _ & Sx & _).
    assert (Nx : forall j, (0 <= j < k)%Z -> fin (net_out l (xs i) j) /\ Rabs (B2R (net_out l (xs i) j) - real_net (exact l) (xr i) j) <= drift (prec := prec) (emax := emax) c (exact l) (xr i) (e i) j).
    { intros j Hj. assert (Ft : Forall (fun d => fits (n_layer d) (n_plan d)) l) by (eapply Forall_impl; [|exact (proj1 A)]; intros ? []; assumption).
      destruct Ho as (p & Ep & Eo). apply (net_step l (t_shape x)); auto; [apply Sx| |].
      - intros j' Hj'. apply X; [exact Hi|]. destruct l as [|d l0]; [congruence|]. cbn [plans map]. apply Forall_cons_iff in Ft as [Fd _]. destruct Sx as [[W1 _] _]. now rewrite <- (feeds_count _ _ _ Fd W1).
      - rewrite (out_last _ _ p) by (unfold plans in *; now rewrite map_length). unfold plans in Ep. rewrite nth_error_map in Ep. destruct (nth_error l (length l - 1)) as [d|] eqn:Ed; [|discriminate]. cbn in Ep. injection Ep as <-.
        rewrite Forall_forall in Ft. destruct (fits_counts _ _ (Ft d (nth_error_In _ _ Ed))) as (_ & -> & _). now rewrite Eo. }
    assert (F1 : PropChecker.first_max k (reals (net_out l (xs i))) (win i)).
    { assert (Z1 : forall j, (0 <= j < k)%Z -> j <> win i -> reals (net_out l (xs i)) j < reals (net_out l (xs i)) (win i)).
      { intros j Hj N. specialize (Cw j Hj N). destruct (Nx j Hj) as [_ Q1]. destruct (Nx (win i) R0) as [_ Q2]. apply Rabs_le_inv in Q1, Q2. unfold reals. lra. }
      split; [exact R0|]. split; intros j Hj; [destruct (Z.eq_dec j (win i)) as [->|N]; [lra|left; now apply Z1]|apply Z1; lia]. }
    assert (F2 : PropChecker.first_max k (real_net (exact l) (xr i)) (win i)).
    { assert (Z1 : forall j, (0 <= j < k)%Z -> j <> win i -> real_net (exact l) (xr i) j < real_net (exact l) (xr i) (win i)).
      { intros j Hj N. specialize (Cw j Hj N). destruct (Nx j Hj) as [_ Q1]. destruct (Nx (win i) R0) as [_ Q2]. pose proof (Rabs_pos (B2R (net_out l (xs i) j) - real_net (exact l) (xr i) j)). pose proof (Rabs_pos (B2R (net_out l (xs i) (win i)) - real_net (exact l) (xr i) (win i))). lra. }
      split; [exact R0|]. split; intros j Hj; [destruct (Z.eq_dec j (win i)) as [->|N]; [lra|left; now apply Z1]|apply Z1; lia]. }
    rewrite Z.eqb_eq, (found_argmax k (ys i)), (found_argmax k (net_out l (xs i))) by (auto; intros; now apply Nx).
    rewrite (first_max_unique k _ _ _ (argmax_first k (reals (net_out l (xs i))) K0) F1). split.
    + intros Eq. exists (win i). split; [rewrite <- Eq; now apply argmax_first|exact F2].
    + intros (j & J1 & J2). rewrite (first_max_unique k _ _ _ (argmax_first k (reals (ys i)) K0) J1). exact (first_max_unique k _ _ _ J2 F2).
  - unfold acc_normal. rewrite Hl. unfold bind at 1. rewrite E, Ec, Z.add_0_l. reflexivity.
Qed.
End Net.

(** ** a correctly rounded library *)
Section Rounded.
Context {prec emax : Z} {Hp : Prec_gt_0 prec} {He : Prec_lt_emax prec emax} (P24 : (24 <= prec)%Z) (E64 : (64 <= emax)%Z) (PM : (prec + 3 <= emax)%Z).
Notation fl := (fl prec emax).
Notation u := (uro prec).
Notation eta := (eta prec emax).
Notation fl_of := (fl_of (prec := prec) (emax := emax)).
Lemma fl_of_err r : fin (fl_of r) -> Rabs (B2R (fl_of r) - r) <= u * Rabs r + eta.
Proof.
  intros F. destruct (val_fl_of (prec := prec) (emax := emax) r) as [N V]. rewrite (fin_rnd _ _ N V F). destruct (rnd_err (prec := prec) (emax := emax) r) as (d & h & D & H & ->).
  replace (r * (1 + d) + h - r) with (d * r + h) by ring. eapply Rle_trans; [apply Rabs_triang|]. rewrite Rabs_mult. pose proof (Rabs_pos r). nra.
Qed.
Theorem cr_lib_accurate : libm_accurate (cr_lib (prec := prec) (emax := emax)) (2 * u).
Proof.
  pose proof (u_small P24) as U. pose proof (eta_small (prec := prec) E64) as T. pose proof (big_gt_1 (prec := prec) (emax := emax)) as B1.
  assert (Un : forall r, Rabs r <= 1 -> Rabs (B2R (fl_of r) - r) <= 2 * u).
  { intros r R1. assert (F : fin (fl_of r)). { destruct (val_fl_of (prec := prec) (emax := emax) r) as [N V]. apply (within_fin _ (-1) 1); [|lra|lra].
      apply fl_of_within; [apply fmt_opp, (fmt_1 (prec := prec) (emax := emax))|apply (fmt_1 (prec := prec) (emax := emax))|lra|lra|now apply Rabs_le_inv]. }
    pose proof (fl_of_err r F). nra. }
  constructor; cbn [cr_lib l_exp l_expm1 l_tanh].
  - lra.
  - intros x Fx F. rewrite rounded_fin in * by exact Fx. pose proof (fl_of_err _ F) as Q. pose proof (exp_pos (B2R x)) as E. rewrite (Rabs_pos_eq (exp _)) in Q by lra. nra.
  - reflexivity.
  - intros x Fx F. rewrite rounded_fin in F by exact Fx. apply Rnot_lt_le. intros L. apply F. pose proof (exp_pos (B2R x)) as E.
    assert (Eb : big emax / 2 = bpow radix2 (emax - 1)). { unfold big. replace emax with (emax - 1 + 1)%Z at 1 by lia. rewrite bpow_plus. change (bpow radix2 1) with 2. lra. }
    apply (within_fin _ 0 (big emax / 2)); [|lra|lra]. rewrite Eb in *. apply fl_of_within; [apply fmt_0|apply fmt_bpow; lia|lra|lra|lra].
  - intros x Fx L. rewrite rounded_fin by exact Fx. apply Un. pose proof (exp_le_1 _ L). pose proof (exp_pos (B2R x)). apply Rabs_le. lra.
  - intros x Fx. rewrite rounded_fin by exact Fx. apply Un. pose proof (tanh_bounds (B2R x)). now apply Rabs_le.
Qed.
End Rounded.

Module Examples.
#[local] Existing Instance PropFloatLayers.Examples.Hp53.
#[local] Existing Instance PropFloatLayers.Examples.He53.
#[local] Existing Instance PropFloatLayers.Examples.ND.
Notation double := (fl 53 1024).
Notation lib := PropFloatLayers.Examples.lib.
Notation pw := PropFloatLayers.Examples.pw.
Notation blk := PropFloatLayers.Examples.blk.
Notation o := PropFloatLayers.Examples.o.
Notation tv := PropFC.Examples.tv.
Notation tm := PropFC.Examples.tm.
(** one input, two outputs: input 2^3, weights 2^10 and 2^5, biases 2 and 2, ReLU *)
Definition m0 : mem double :=
  [blk [pw 1; pw 1]; blk [pw 10; pw 5]; blk [o; o]; blk [o; o]; blk [o; o]; blk [o; o]; blk [o; o]; blk [o; o]; blk [o]; blk [pw 3]; blk [pw 1; pw 0]].
Definition L1 : fc :=
  mk_fc (shape3 1 1 1) (shape3 1 1 2) (tv 0 2) (tm 1 1 2) (Some (Functions.Scalar ReLU)) (tv 2 2) (tv 3 2) (tv 4 2) (tm 5 1 2) (tv 6 2) (tm 7 1 2) (tv 8 1) false.
Definition s0 : contents double := fun r i => match r with RB => pw 1 | RW _ => nth (Z.to_nat i) [pw 10; pw 5] o | _ => o end.
Definition d0 : node double := mk_node (LFC L1) (PDense (Functions.Scalar ReLU) 1 2) s0.
Definition xv (i : Z) : double := pw 3.
Definition yv (i : Z) : double := nth (Z.to_nat i) [pw 1; pw 0] o.
Lemma L1_dims : fc_dims L1 1 2.
Proof.
  unfold fc_dims. do 5 (split; [lia || reflexivity|]). split; [|split; [|reflexivity]]; intros t H; cbn in H;
    repeat destruct H as [<-|H]; try tauto; try reflexivity; unfold mat_is; cbn; repeat split; lia.
Qed.
Lemma L1_at : layer_at m0 (LFC L1) s0.
Proof.
  split.
  - intros r t E. destruct r as [|[]| | | |[]| | | |]; cbn in E; try discriminate; injection E as <-;
    (split; [split; [reflexivity|]; eexists; split; [reflexivity|]; eexists; split; reflexivity|]);
    intros i Hi; change (t_size _) with 1%Z in Hi || change (t_size _) with 2%Z in Hi;
    (assert (i = 0 \/ i = 1)%Z as [-> | ->] by lia); try lia; reflexivity.
  - intros r r' t t' E E' Hne. destruct r as [|[]| | | |[]| | | |]; cbn in E; try discriminate; injection E as <-;
    destruct r' as [|[]| | | |[]| | | |]; cbn in E'; try discriminate; injection E' as <-; cbn; congruence.
Qed.
Lemma net0_at : net_at m0 [d0].
Proof.
  split; [constructor; [|constructor]|constructor; constructor]. split; [|exact L1_at]. split; [exact L1_dims|]. split; [reflexivity|]. split; [discriminate|]. split; reflexivity.
Qed.
Lemma outside_net b : (9 <= b)%nat -> net_outside [d0] (Ptr b 0).
Proof.
  intros Hb (d & [<-|[]] & (r & t & E & Eb)). destruct r as [|[]| | | |[]| | | |]; cbn in E; try discriminate; injection E as <-; cbn in Eb; lia.
Qed.
Lemma sample0 : sample_at m0 [d0] (tv 9 1) xv.
Proof. split; [cbn; auto|]. split; [|apply outside_net; lia]. intros i Hi. change (t_size (tv 9 1)) with 1%Z in Hi. replace i with 0%Z by lia. reflexivity. Qed.
Lemma sound0 : Forall sound_layer [d0].
Proof.
  constructor; [|constructor]. split; cbn [n_data d0].
  - intros i Hi. change (1 * 2)%Z with 2%Z in Hi. assert (i = 0 \/ i = 1)%Z as [-> | ->] by lia; apply PropFloatLayers.Examples.pw_ok; lia.
  - intros i Hi. apply PropFloatLayers.Examples.pw_ok; lia.
Qed.
Definition xr (i : Z) : R := 8.
Definition e0 (i : Z) : R := 0.
Lemma in0 i : fin (xv i) /\ Rabs (B2R (xv i) - xr i) <= e0 i.
Proof. destruct (PropFloatLayers.Examples.pw_ok 3 ltac:(lia)) as [F E]. split; [exact F|]. unfold xv, xr, e0. rewrite E. change (bpow radix2 3) with 8. rewrite Rminus_eq_0, Rabs_R0. lra. Qed.
Notation sr := (fun r i => B2R (s0 r i)).
Lemma pre0 j (f : Z -> R) : (0 <= j < 2)%Z -> dense_pre 1 2 (sr RB) (sr (RW 0)) f j = f 0%Z * (if (j =? 0)%Z then 1024 else 32) + 2.
Proof.
  intros Hj. unfold dense_pre, RealSpec.rsum. change 1%Z with (0 + 1)%Z at 1. rewrite zsum_S, zsum_0 by lia. cbn [add zero Num_R]. rewrite Rplus_0_l. cbn [s0].
  rewrite (proj2 (PropFloatLayers.Examples.pw_ok 1 ltac:(lia))). change (bpow radix2 1) with 2.
  assert (j = 0 \/ j = 1)%Z as [-> | ->] by lia; cbn [Z.eqb Z.mul Z.add Z.to_nat nth Pos.to_nat Pos.iter_op]; cbn [nth Nat.add].
  - rewrite (proj2 (PropFloatLayers.Examples.pw_ok 10 ltac:(lia))). reflexivity.
  - change (Pos.to_nat 1) with 1%nat. cbn [nth]. rewrite (proj2 (PropFloatLayers.Examples.pw_ok 5 ltac:(lia))). reflexivity.
Qed.
Lemma pre0_abs j (f : Z -> R) : (0 <= j < 2)%Z -> dense_pre 1 2 (fun i => Rabs (sr RB i)) (fun i => Rabs (sr (RW 0) i)) f j = f 0%Z * (if (j =? 0)%Z then 1024 else 32) + 2.
Proof.
  intros Hj. rewrite <- pre0 by exact Hj. unfold dense_pre. cbn [s0]. f_equal; [apply zsum_ext; intros i Hi; f_equal|]; apply Rabs_pos_eq.
  - replace i with 0%Z by lia. assert (j = 0 \/ j = 1)%Z as [-> | ->] by lia; [change (0 <= B2R (pw 10)); rewrite (proj2 (PropFloatLayers.Examples.pw_ok 10 ltac:(lia)))|change (0 <= B2R (pw 5)); rewrite (proj2 (PropFloatLayers.Examples.pw_ok 5 ltac:(lia)))]; apply bpow_ge_0.
  - rewrite (proj2 (PropFloatLayers.Examples.pw_ok 1 ltac:(lia))). apply bpow_ge_0.
Qed.
Lemma small A : 0 <= A <= 8194 -> 0 <= roundings 53 1024 3 2 A <= 100.
Proof.
  intros HA. unfold roundings. change (Z.to_nat 3) with 3%nat.
  assert (U1 : uro 53 <= / 1024) by (unfold uro; change (/ 1024) with (bpow radix2 (-10)); apply bpow_le; lia). pose proof (u_pos (prec := 53)) as U0.
  assert (E1 : eta 53 1024 <= 1) by (unfold eta; change 1 with (bpow radix2 0); apply bpow_le; lia). pose proof (eta_pos (prec := 53) (emax := 1024)) as E0.
  assert (P3 : (1 + uro 53) ^ 3 <= 1 + / 256). { apply Rle_trans with ((1 + / 1024) ^ 3); [apply pow_incr; lra|]. cbn [pow]. lra. }
  assert (P1 : 1 <= (1 + uro 53) ^ 3) by apply one_le_pow. set (p3 := (1 + uro 53) ^ 3) in *. clearbody p3. generalize dependent (eta 53 1024). intros e E1 E0.
  assert (0 <= (p3 - 1) * A <= / 256 * 8194) by (split; [apply Rmult_le_pos; lra|apply Rmult_le_compat; lra]). assert (0 <= 2 * e * p3 <= 2 * 1 * (1 + / 256)) by (split; [nra|apply Rmult_le_compat; lra]). lra.
Qed.
Lemma mag0 j : (0 <= j < 2)%Z -> magnitude (PDense (Functions.Scalar ReLU) 1 2) sr xr e0 j = if (j =? 0)%Z then 8194 else 258.
Proof. intros Hj. cbn [magnitude]. rewrite pre0_abs by exact Hj. unfold xr, e0. rewrite Rabs_pos_eq by lra. destruct (j =? 0)%Z; lra. Qed.
Lemma safe0 (c : R) : safe (prec := 53) (emax := 1024) c (exact [d0]) xr e0.
Proof.
  split; [repeat split; discriminate|]. split; [|exact I]. change (n_plan d0) with (PDense (Functions.Scalar ReLU) 1 2). intros j Hj. cbv zeta. cbn [out_count] in Hj. rewrite mag0 by exact Hj. cbn [rounds].
  assert (B : 65536 < big 1024) by (change 65536 with (bpow radix2 16); apply bpow_lt; lia). destruct (j =? 0)%Z.
  - pose proof (small 8194 ltac:(lra)). cbn [Z.add Pos.add] in *. lra.
  - pose proof (small 258 ltac:(lra)). cbn [Z.add Pos.add] in *. lra.
Qed.
Lemma drift0 (c : R) j : (0 <= j < 2)%Z -> 0 <= drift (prec := 53) (emax := 1024) c (exact [d0]) xr e0 j <= 100.
Proof.
  intros Hj. change (drift c (exact [d0]) xr e0 j) with (layer_drift (prec := 53) (emax := 1024) c (PDense (Functions.Scalar ReLU) 1 2) sr xr e0 j). unfold layer_drift. cbv zeta. cbn [act_drift gain noise]. cbv zeta. rewrite mag0 by exact Hj. cbn [rounds].
  assert (Sp : spread (PDense (Functions.Scalar ReLU) 1 2) sr e0 j = 0). { cbn [spread]. unfold dense_pre, e0. rewrite Rplus_0_r. apply Vjp.rsum_all0. intros. ring. } rewrite Sp. change (1 + 2)%Z with 3%Z. change (1 + 1)%Z with 2%Z.
  destruct (j =? 0)%Z; [pose proof (small 8194 ltac:(lra))|pose proof (small 258 ltac:(lra))]; lra.
Qed.
Lemma real0 j : (0 <= j < 2)%Z -> real_net (exact [d0]) xr j = if (j =? 0)%Z then 8194 else 258.
Proof.
  intros Hj. change (real_net (exact [d0]) xr j) with (std_act ReLU (dense_pre 1 2 (sr RB) (sr (RW 0)) xr j)). rewrite pre0 by exact Hj. unfold xr. cbn [std_act]. destruct (j =? 0)%Z; apply Rmax_right + apply Rmax_left + idtac; unfold Rmax; destruct Rle_dec; lra.
Qed.
Lemma winner0 (c : R) : clear_winner (prec := 53) (emax := 1024) c (exact [d0]) xr e0 2 0.
Proof.
  split; [lia|]. intros j Hj N. rewrite !real0 by lia. pose proof (drift0 c j Hj). pose proof (drift0 c 0 ltac:(lia)). destruct (Z.eqb_spec j 0); [contradiction|]. cbn [Z.eqb]. lra.
Qed.
Lemma lib_acc : libm_accurate lib (2 * uro 53). Proof. apply cr_lib_accurate; lia. Qed.
Example C115_C116_apply : exists y m', net_feedforward [LFC L1] (tv 9 1) m0 = Ok (y, m') /\ tl_argmax (t_data y) 2 m' = Ok (0%Z, m').
Proof.
  destruct (C116_same_class (prec := 53) (emax := 1024) ltac:(lia) ltac:(lia) ltac:(lia) lib PropFloatLayers.Examples.lib_ok (2 * uro 53) lib_acc m0 [d0] (tv 9 1) xv xr e0
    ltac:(discriminate) ltac:(cbn; lia) net0_at sample0 sound0 (fun i _ => in0 i) (safe0 _)) as (y & m' & p & E & Ep & Es & W).
  exists y, m'. split; [exact E|]. cbn in Ep. injection Ep as <-. assert (Sz : t_size y = 2%Z) by (unfold t_size; rewrite Es; reflexivity). rewrite Sz in W. apply W, winner0.
Qed.
Example C116_accuracy_applies : exists (hits : list Z) m', In 0%Z hits /\ acc_normal [LFC L1] [tv 9 1] [tv 10 2] m0 = Ok (div (ofZ (Z.of_nat (length hits))) (ofZ 1), m').
Proof.
  destruct (C116_same_accuracy (prec := 53) (emax := 1024) ltac:(lia) ltac:(lia) ltac:(lia) lib PropFloatLayers.Examples.lib_ok (2 * uro 53) lib_acc m0 [d0] 1 2 [tv 9 1] [tv 10 2] (fun _ => xv) (fun _ => yv) (fun _ => xr) (fun _ => e0) (fun _ => 0%Z)
    ltac:(discriminate) ltac:(cbn; lia) net0_at) as (hits & m' & Nd & Hin & E).
  - exists (PDense (Functions.Scalar ReLU) 1 2). split; reflexivity.
  - split; [reflexivity|]. intros i Hi. replace i with 0%Z by lia. exists (tv 9 1), (tv 10 2). do 2 (split; [reflexivity|]). split; [exact sample0|]. split; [reflexivity|]. split; [|apply outside_net; lia].
    apply (holds_list m0 10 [pw 1; pw 0] o). reflexivity.
  - lia.
  - exact sound0.
  - intros i Hi j Hj. assert (j = 0 \/ j = 1)%Z as [-> | ->] by lia; apply PropFloatLayers.Examples.pw_ok; lia.
  - intros i Hi j Hj. apply in0.
  - intros i Hi. split; [apply safe0|apply winner0].
  - exists hits, m'. split; [|exact E]. apply Hin. split; [lia|]. exists 0%Z. split.
    + assert (Y : forall j, (0 <= j < 2)%Z -> reals yv j = if (j =? 0)%Z then 2 else 1).
      { intros j Hj. unfold reals, yv. assert (j = 0 \/ j = 1)%Z as [-> | ->] by lia; cbn [Z.eqb]; [change (B2R (pw 1) = 2); rewrite (proj2 (PropFloatLayers.Examples.pw_ok 1 ltac:(lia)))|change (B2R (pw 0) = 1); rewrite (proj2 (PropFloatLayers.Examples.pw_ok 0 ltac:(lia)))]; reflexivity. }
      split; [lia|]. split; intros j Hj; [|lia]. rewrite !Y by lia. cbn [Z.eqb]. destruct (j =? 0)%Z; lra.
    + split; [lia|]. split; intros j Hj; [|lia]. rewrite !real0 by lia. cbn [Z.eqb]. destruct (j =? 0)%Z; lra.
Qed.
End Examples.

Print Assumptions C115_prediction_error.
Print Assumptions C116_same_class.
Print Assumptions C116_same_accuracy.
Print Assumptions cr_lib_accurate.

(** * Training in floating-point arithmetic: magnitudes (proofs for C125) *)
From Coq Require Import ZArith QArith Reals Lra Lia Psatz Bool List.
From Flocq Require Import Core BinarySingleNaN.
From Verif Require Import Mem Scalar MemSpec MemLemmas Lique LiqueSpec LiqueProofs LinearProofs Functions FunctionSpec FunctionProofs
  Skel Bufs Optimizer OptimizerProofs Layer LayerSpec FCProofs NetPlan NetProofs NetBack Schedule Descent OptTrain Session
  Float FloatSpec FloatLemmas RSum FloatError FloatLib FloatAct FloatAcc FloatLoss FloatOpt PropFloatAct PropFloatSoftmax FloatTrainSpec.
Import ListNotations.
Local Open Scope R_scope.

Section Train.
Context {prec emax : Z} {Hp : Prec_gt_0 prec} {He : Prec_lt_emax prec emax} (P24 : (24 <= prec)%Z) (EM : (5 * prec + 8 <= emax)%Z).
Context (lib : libm prec emax) (LO : libm_ok lib).
Notation fl := (fl prec emax).
Notation rnd := (rnd (prec := prec) (emax := emax)).
Notation fmt := (fmt (prec := prec) (emax := emax)).
Notation clamp := (clamp (emax := emax)).
Notation small := (small (prec := prec) (emax := emax)).
Notation grow := (grow prec).
#[local] Instance NF : Num fl := Num_fl prec emax lib.
#[local] Existing Instance fexp_ok.
#[local] Existing Instance fexp_mono.
Implicit Types x y g w v s : fl.

(** ** sums *)
Lemma fmt_scaled (i k : Z) : (0 <= i <= 2 ^ prec)%Z -> (0 <= k)%Z -> fmt (IZR i * bpow radix2 k).
Proof.
  intros Hi Hk. destruct (Z.eq_dec i (2 ^ prec)) as [->|N].
  - change (2 ^ prec)%Z with (Zpower radix2 prec). rewrite IZR_Zpower by lia. rewrite <- bpow_plus. apply fmt_bpow. lia.
  - unfold FloatLemmas.fmt. change (generic_format radix2 (SpecFloat.fexp prec emax) (F2R (Float radix2 i k))). apply generic_format_F2R. intros Nz. unfold cexp. rewrite fexp_flt. unfold FLT_exp.
    assert (B : (mag radix2 (F2R (Float radix2 i k)) <= prec + k)%Z).
    { apply mag_le_bpow; [apply F2R_neq_0; exact Nz|]. rewrite <- F2R_Zabs. unfold F2R. cbn [Fnum Fexp]. rewrite bpow_plus. apply Rmult_lt_compat_r; [apply bpow_gt_0|]. rewrite <- IZR_Zpower by lia. apply IZR_lt. change (Zpower radix2 prec) with (2 ^ prec)%Z. lia. }
    lia.
Qed.
(** the sum of [i] of [B] terms of magnitude at most 2^k *)
Definition acc (B k i : Z) x : Prop :=
  if (Z.log2_up B <=? prec)%Z then fin x /\ Rabs (B2R x) <= IZR i * bpow radix2 k else small (prec + 1 + k) x.
Lemma acc_zero B k : acc B k 0 (B754_zero false).
Proof. unfold acc. destruct (_ <=? _)%Z; [|apply small_0]. split; [reflexivity|]. cbn [B2R]. rewrite Rabs_R0, Rmult_0_l. lra. Qed.
Lemma log2_up_bound B : (0 < B)%Z -> (B <= 2 ^ Z.log2_up B)%Z.
Proof. intros H. destruct (Z.eq_dec B 1) as [->|]; [cbn; lia|]. apply Z.log2_up_spec. lia. Qed.
Lemma acc_step B k i x y : (0 <= k)%Z -> (0 <= i < B)%Z -> (k + grow B < emax)%Z -> acc B k i x -> small k y -> acc B k (i + 1) (Bplus mode_NE x y).
Proof.
  intros Hk Hi HB. unfold acc, FloatTrainSpec.grow in *. pose proof (log2_up_bound B ltac:(lia)) as L2. destruct (Z.leb_spec (Z.log2_up B) prec) as [L|L]; intros Hx Hy.
  - destruct Hx as [Fx Hx]. destruct Hy as [Fy Hy]. destruct (val_add x y Fx Fy) as [N E].
    assert (P2 : (2 ^ Z.log2_up B <= 2 ^ prec)%Z) by (apply Z.pow_le_mono_r; lia).
    assert (Fm : fmt (IZR (i + 1) * bpow radix2 k)) by (apply fmt_scaled; lia).
    pose proof (bpow_gt_0 radix2 k) as Bk. assert (I0 : 0 <= IZR i) by (apply IZR_le; lia). rewrite plus_IZR in *.
    assert (Bnd : (IZR i + 1) * bpow radix2 k < big emax).
    { apply Rle_lt_trans with (bpow radix2 (k + Z.log2_up B)); [|apply bpow_lt; lia]. rewrite (Z.add_comm k), bpow_plus. apply Rmult_le_compat_r; [lra|].
      rewrite <- IZR_Zpower by (apply Z.log2_up_nonneg). change (Zpower radix2 (Z.log2_up B)) with (2 ^ Z.log2_up B)%Z. rewrite <- plus_IZR. apply IZR_le. lia. }
    assert (Q : Rabs (B2R x + B2R y) <= (IZR i + 1) * bpow radix2 k) by (eapply Rle_trans; [apply Rabs_triang|]; lra). apply Rabs_le_inv in Q.
    assert (W : within (Bplus mode_NE x y) (- ((IZR i + 1) * bpow radix2 k)) ((IZR i + 1) * bpow radix2 k)) by (apply add_within; auto using fmt_opp; lra).
    assert (F : fin (Bplus mode_NE x y)) by (apply (within_fin _ _ _ W); lra). split; [exact F|]. apply Rabs_le. now apply within_B2R.
  - apply (acc_a P24 EM k); auto; lia.
Qed.
Lemma acc_end B k i x : (0 <= k)%Z -> (0 <= i <= B)%Z -> acc B k i x -> small (k + grow B) x.
Proof.
  intros Hk Hi H. unfold acc, FloatTrainSpec.grow in *. destruct (Z.leb_spec (Z.log2_up B) prec) as [L|L].
  - rewrite Z.min_l by lia. destruct H as [F H]. split; [exact F|]. apply Rle_trans with (1 := H). rewrite (Z.add_comm k), bpow_plus. apply Rmult_le_compat_r; [apply bpow_ge_0|].
    rewrite <- IZR_Zpower by (apply Z.log2_up_nonneg). change (Zpower radix2 (Z.log2_up B)) with (2 ^ Z.log2_up B)%Z. apply IZR_le.
    destruct (Z.eq_dec B 0) as [->|]; [cbn; lia|]. pose proof (log2_up_bound B ltac:(lia)). lia.
  - rewrite Z.min_r by lia. replace (k + (prec + 1))%Z with (prec + 1 + k)%Z by lia. exact H.
Qed.
Lemma sum_grow k n (f : Z -> fl) : (0 <= k)%Z -> (0 <= n)%Z -> (k + grow n < emax)%Z -> (forall i, (0 <= i < n)%Z -> small k (f i)) -> small (k + grow n) (zsum n f).
Proof.
  intros Hk Hn HG Hf. assert (Q : forall i, (0 <= i)%Z -> (i <= n)%Z -> acc n k i (zsum i f)).
  { apply (natlike_ind (fun i => (i <= n)%Z -> acc n k i (zsum i f))).
    - intros _. apply acc_zero.
    - intros i Hi IH Hin. unfold Z.succ. rewrite zsum_S by exact Hi. cbn [add NF Num_fl]. apply acc_step; auto; [lia|apply IH; lia|apply Hf; lia]. }
  apply (acc_end n k n); [exact Hk|lia|apply Q; lia].
Qed.
Lemma grow_nonneg n : (0 <= grow n)%Z. Proof. unfold FloatTrainSpec.grow. pose proof (Z.log2_up_nonneg n). lia. Qed.
Lemma small_fin k x : small k x -> fin x. Proof. intros [F _]. exact F. Qed.
Lemma fin_small x : fin x -> small emax x.
Proof. intros F. split; [exact F|]. pose proof (big_lt x F). unfold big in *. apply Rabs_le. lra. Qed.
Lemma plus_small k x y : (0 <= k)%Z -> (k + 1 < emax)%Z -> small k x -> small k y -> small (k + 1) (Bplus mode_NE x y).
Proof.
  intros K L [Fx Hx] [Fy Hy]. destruct (val_add x y Fx Fy) as [N E]. apply FloatOpt.bounded; [exact N| |lia]. rewrite E. apply (clamp_abs P24 EM); [lia|].
  eapply Rle_trans; [apply Rabs_triang|]. rewrite bpow_plus. change (bpow radix2 1) with 2. lra.
Qed.
Lemma minus_small k x y : (0 <= k)%Z -> (k + 1 < emax)%Z -> small k x -> small k y -> small (k + 1) (Bminus mode_NE x y).
Proof.
  intros K L [Fx Hx] [Fy Hy]. destruct (val_sub x y Fx Fy) as [N E]. apply FloatOpt.bounded; [exact N| |lia]. rewrite E. apply (clamp_abs P24 EM); [lia|].
  unfold Rminus. eapply Rle_trans; [apply Rabs_triang|]. rewrite Rabs_Ropp, bpow_plus. change (bpow radix2 1) with 2. lra.
Qed.
Lemma small_one : small 0 (Bone : fl).
Proof. split; [apply fin_one|]. rewrite val_one, Rabs_R1. cbn. lra. Qed.

(** ** activations *)
Lemma minmax_small z x y : small z x -> within y (Rmin 0 (B2R x)) (Rmax 0 (B2R x)) -> small z y.
Proof.
  intros [F H] W. pose proof (minmax_fin x y F W) as Fy. split; [exact Fy|]. pose proof (within_B2R _ _ _ Fy W) as Q. apply Rle_trans with (2 := H).
  pose proof (Rabs_pos (B2R x)). unfold Rmin, Rmax in Q. destruct (Rle_dec 0 (B2R x)).
  - rewrite (Rabs_pos_eq (B2R x)) by lra. rewrite Rabs_pos_eq; lra.
  - rewrite (Rabs_left1 (B2R x)) by lra. rewrite Rabs_left1; lra.
Qed.
Lemma unit_upto x : within x (-1) 1 -> small 0 x.
Proof. intros W. pose proof (sym_fin x W) as F. split; [exact F|]. apply Rabs_le. cbn [bpow]. now apply within_B2R. Qed.
Lemma two_upto z x : (0 <= z)%Z -> (z + 1 < emax)%Z -> within x (-2) 2 -> small (z + 1) x.
Proof.
  intros Hz L W. assert (F : fin x) by (apply (neg2_fin (FloatOpt.E64 P24 EM)); exact W). split; [exact F|]. apply Rle_trans with 2; [apply Rabs_le; now apply within_B2R|].
  change 2 with (bpow radix2 1). apply bpow_le. lia.
Qed.
Lemma scalar_upto a z x : tame (Functions.Scalar a) 1 -> (0 <= z)%Z -> (act_exp (Functions.Scalar a) z < emax)%Z -> small z x -> small (act_exp (Functions.Scalar a) z) (scalar_f a x).
Proof.
  intros Tm Hz L Hx. pose proof Hx as [F B]. pose proof (fin_num x F) as N. pose proof (FloatOpt.E64 P24 EM) as E64. destruct a; cbn [tame act_exp scalar_f] in *; try tauto.
  - unfold relu. destruct (gt0 x); [exact Hx|apply small_0].
  - unfold elu. destruct (gt0 x) eqn:G; [eapply small_up; [|exact Hx]; lia|]. apply two_upto; [exact Hz|exact L|]. apply gt0_false in G; [|exact N].
    destruct (lit_02 P24 E64) as [Fc Lc]. apply (within_weaken _ (-2) 0); [|lra|lra]. cbn [mul lit nexpm1 NF Num_fl]. apply (expm1_scaled P24 E64 lib LO); auto. lra.
  - unfold lrelu. destruct (gt0 x) eqn:G; [exact Hx|]. destruct (lit_001 P24 E64) as [Fc Lc]. cbn [mul lit NF Num_fl]. eapply minmax_small; [exact Hx|]. apply sgn_mul; auto. lra.
  - unfold selu. destruct (gt0 x) eqn:G.
    + destruct (lit_lambda P24 E64) as [Fc Lc]. cbn [mul lit NF Num_fl]. rewrite Z.add_comm. apply (mul_s P24 EM 1 z); [lia| |exact Hx]. split; [exact Fc|]. apply Rabs_le. change (bpow radix2 1) with 2. lra.
    + apply two_upto; [exact Hz|exact L|]. apply gt0_false in G; [|exact N]. destruct (lit_beta P24 E64) as [Fc Lc]. apply (within_weaken _ (-2) 0); [|lra|lra]. cbn [mul lit nexpm1 NF Num_fl]. apply (expm1_scaled P24 E64 lib LO); auto. lra.
  - apply unit_upto. apply (within_weaken _ 0 1); [now apply f_sigmoid|lra|lra].
  - apply unit_upto. now apply (m_tanh_range lib LO).
  - apply unit_upto. now apply f_softsign.
  - unfold mod_relu. destruct (lit_001 P24 E64) as [Fc Lc]. destruct (lit_099 P24 E64) as [Fd Ld]. cbn [mul add lit ltb zero one NF Num_fl].
    assert (M : small z (Bmult mode_NE (fl_lit prec emax (1 # 100)) x)) by (eapply minmax_small; [exact Hx|]; apply sgn_mul; auto; lra).
    destruct (Bltb x _); [eapply small_up; [|exact M]; lia|]. destruct (Bltb _ x); [|eapply small_up; [|exact Hx]; lia].
    apply plus_small; try lia; [|exact M]. split; [exact Fd|]. apply Rle_trans with 1; [apply Rabs_le; lra|]. change 1 with (bpow radix2 0). now apply bpow_le.
  - apply unit_upto. now apply (f_mod_tanh P24 E64 lib LO).
Qed.
Lemma act_upto a k z (x : Z -> fl) : tame a k -> (0 <= z)%Z -> (act_exp a z < emax)%Z -> (forall j, (0 <= j < k)%Z -> small z (x j)) ->
  forall j, (0 <= j < k)%Z -> small (act_exp a z) (act_val a k x j).
Proof.
  intros Tm Hz L Hx j Hj. destruct a as [a|]; cbn [act_val].
  - apply scalar_upto; [destruct a; exact Tm|exact Hz|exact L|apply Hx; exact Hj].
  - cbn [act_exp]. assert (PM : (prec + 3 <= emax)%Z) by lia. assert (Hk : (0 < k)%Z) by lia. destruct (softmax_ok PM lib LO x k Hk) as [Q _]; [intros i Hi; eapply small_fin; apply Hx; exact Hi|]. destruct (Q j Hj) as [F B].
    split; [exact F|]. apply Rabs_le. cbn [bpow]. split; [apply Rle_trans with (2 := proj1 B); lra|exact (proj2 B)].
Qed.
Lemma slope_upto a k (x : Z -> fl) j : tame a k -> fin (x j) -> small (slope_exp a) (act_dval a x j).
Proof.
  intros Tm F. destruct a as [a|]; cbn [act_dval]; [|apply small_one].
  destruct (scalar_df_spec P24 (FloatOpt.E64 P24 EM) lib LO a (x j) F) as [Fd Rd]; [destruct a; cbn in *; tauto|]. split; [exact Fd|].
  assert (Rd' : df_range a (@scalar_df fl NF a (x j))) by exact Rd. clear Rd. set (r := @scalar_df fl NF a (x j)) in Rd'. change (Rabs (B2R r) <= bpow radix2 (slope_exp (Functions.Scalar a))). clearbody r.
  destruct a; cbn [tame] in Tm; try tauto; cbn [df_range] in Rd'; cbn [slope_exp]; apply Rabs_le; try (change (bpow radix2 0) with 1; lra). change (bpow radix2 1) with 2. lra.
Qed.
Lemma slope_nonneg a : (0 <= slope_exp a)%Z. Proof. destruct a as [[]|]; cbn; lia. Qed.
Lemma act_exp_nonneg a z : (0 <= z)%Z -> (0 <= act_exp a z)%Z. Proof. destruct a as [[]|]; cbn; lia. Qed.

(** ** losses *)
Lemma loss_upto lo t p d (y v : Z -> fl) j : (0 <= t)%Z -> (0 <= p)%Z -> loss_exp lo t p = Some d -> (d < emax)%Z -> small t (y j) -> small p (v j) -> small d (loss_dval lo y v j).
Proof.
  intros Ht Hp' Ed L Hy Hv. destruct lo; cbn [loss_exp] in Ed; try discriminate; injection Ed as <-; cbn [loss_dval]; cbn [sub add mul opp one zero ltb ntanh NF Num_fl].
  - apply minus_small; try lia; eapply small_up; [|exact Hv| |exact Hy]; lia.
  - pose proof small_one as S1. destruct (Bltb _ _); [apply small_opp; exact S1|]. destruct (Bltb _ _); [exact S1|apply small_0].
  - apply minus_small; try lia; eapply small_up; [|exact Hv| |exact Hy]; lia.
  - replace (t + p + 2)%Z with (t + p + 1 + 1)%Z by lia. apply plus_small; try lia.
    + replace (t + p + 1)%Z with (t + (p + 1))%Z by lia. apply (mul_s P24 EM); [lia|exact Hy|]. apply minus_small; try lia; [exact Hv|]. eapply small_up; [|apply small_one]. lia.
    + replace (t + p + 1)%Z with (p + (t + 1))%Z by lia. apply (mul_s P24 EM); [lia|exact Hv|]. apply minus_small; try lia; [|exact Hy]. eapply small_up; [|apply small_one]. lia.
  - apply minus_small; try lia; eapply small_up; [|exact Hv| |exact Hy]; lia.
  - apply unit_upto. apply (m_tanh_range lib LO). apply val_sub; [eapply small_fin; exact Hv|eapply small_fin; exact Hy].
Qed.
Lemma loss_exp_nonneg lo t p d : (0 <= t)%Z -> (0 <= p)%Z -> loss_exp lo t p = Some d -> (0 <= d)%Z.
Proof. destruct lo; cbn; intros; try discriminate; injection H1 as <-; lia. Qed.

(** ** one sample: values forward, gradients backward *)
Definition dims (p : plan) (Qb Qw : Z -> Prop) : Prop :=
  match p with PDense a n k => (forall j, (0 <= j < k)%Z -> Qb j) /\ (forall o, (0 <= o < n * k)%Z -> Qw o) | _ => False end.
Definition both (d : node fl) (rb rw : role) (Q : fl -> Prop) : Prop := dims (n_plan d) (fun j => Q (n_data d rb j)) (fun o => Q (n_data d rw o)).
Definition isfc (d : node fl) : Prop := exists L, n_layer d = LFC L.
Fixpoint chain (c : Z) (ps : list plan) : Prop :=
  match ps with [] => True | PDense a n k :: ps => n = c /\ (0 <= n)%Z /\ (0 <= k)%Z /\ chain k ps | _ => False end.
Fixpoint outs (c : Z) (ps : list plan) : Z := match ps with [] => c | p :: ps => outs (out_count p) ps end.
(** parameters and gradient sums of a layer, untouched *)
Definition kept (d d' : node fl) : Prop :=
  n_layer d' = n_layer d /\ n_plan d' = n_plan d /\ n_data d' RB = n_data d RB /\ n_data d' (RW 0) = n_data d (RW 0) /\
  n_data d' RGradBs = n_data d RGradBs /\ n_data d' RGradWs = n_data d RGradWs.
Definition hd' (l : list (node fl)) (dl : Z -> fl) : Z -> fl := match l with [] => dl | d :: _ => n_data d RDelta end.
Lemma run_back_cons (d : node fl) l (x : Z -> fl) full dl : run_back (d :: l) x full dl = bwd d x (hd' (run_back l (n_data d RValue) true dl) dl) full :: run_back l (n_data d RValue) true dl.
Proof. cbn [run_back]. destruct (run_back l _ true dl); reflexivity. Qed.
Fixpoint gexps (Js : list Z) (lo : loss) (t e : Z) (ps : list plan) : list Z :=
  match Js, ps with
  | J :: Js, PDense a n k :: ps =>
      let z := pre_exp prec J e n in (e + (slope_exp a + delta_exp prec Js lo t (act_exp a z) ps))%Z :: gexps Js lo t (act_exp a z) ps
  | _, _ => []
  end.
Lemma grad_exps_map Js lo t B : forall ps e, grad_exps prec Js lo t B e ps = map (fun G => (G + grow B)%Z) (gexps Js lo t e ps).
Proof. induction Js as [|J Js IH]; intros ps e; [reflexivity|]. destruct ps as [|[a n k|g|a q] ps]; try reflexivity. cbn [grad_exps gexps map]. now rewrite IH. Qed.
Lemma pre_nonneg J e n : (0 <= J)%Z -> (0 <= e)%Z -> (0 <= pre_exp prec J e n)%Z.
Proof. intros. unfold pre_exp. pose proof (grow_nonneg n). lia. Qed.
Lemma delta_nonneg Js lo t B : (0 <= t)%Z -> forall ps e, (0 <= e)%Z -> headroom prec emax Js lo t B e ps -> (0 <= delta_exp prec Js lo t e ps)%Z.
Proof.
  intros Ht. induction Js as [|J Js IH]; intros [|[a n k|g|a q] ps] e H0 H; cbn [headroom] in H; try tauto.
  - destruct H as (d & E & _). cbn [delta_exp]. rewrite E. exact (loss_exp_nonneg lo t e d Ht H0 E).
  - destruct H as (H1 & H2 & H3 & H4 & H5 & H6 & H7). cbn [delta_exp]. pose proof (grow_nonneg k). pose proof (slope_nonneg a). specialize (IH ps _ (act_exp_nonneg a _ (pre_nonneg J e n H1 H0)) H7). lia.
Qed.

Section Pass.
Context (lo : loss) (t B : Z) (Ht : (0 <= t)%Z).
Lemma sample_upto l : forall Js c e (x y : Z -> fl) full, Forall isfc l -> chain c (plans l) -> Forall2 (fun J d => both d RB (RW 0) (small J)) Js l -> headroom prec emax Js lo t B e (plans l) -> (0 <= e)%Z ->
  (forall j, (0 <= j < c)%Z -> small e (x j)) -> (forall j, (0 <= j < outs c (plans l))%Z -> small t (y j)) ->
  let dl := loss_dval lo y (net_out l x) in let l' := run_back (run_fwd l x) x full dl in
  Forall2 kept l l' /\ Forall2 (fun G d => both d RGradB (RGradW 0) (small G)) (gexps Js lo t e (plans l)) l' /\
  (full = true \/ l' = [] -> forall j, (0 <= j < c)%Z -> small (delta_exp prec Js lo t e (plans l)) (hd' l' dl j)).
Proof.
  induction l as [|d l IH]; intros Js c e x y full HF HC HP HH H0 Hx Hy dl l'.
  - inversion HP; subst Js. cbn [plans map headroom] in HH. destruct HH as (ex & E & LE). split; [constructor|]. split; [constructor|]. intros _ j Hj. cbn [hd' l' run_fwd run_back delta_exp plans map]. rewrite E. unfold dl.
    cbn [net_out fold_left]. apply (loss_upto lo t e ex); auto.
  - inversion HP as [|J d' Js' l0 Pd Pl]; subst. apply Forall_cons_iff in HF. destruct HF as [(L & EL) HF]. cbn [plans map] in HC, HH, Hy. fold (plans l) in HC, HH, Hy. unfold both in Pd.
    cbn [chain headroom outs] in HC, HH, Hy. destruct (n_plan d) as [a n k|g|a q] eqn:EP; try tauto. destruct HC as (-> & Hc & Hk & HC). cbn [out_count] in Hy.
    destruct HH as (J0 & Tm & Z1 & Z2 & G1 & G2 & HH). set (z := pre_exp prec J e c) in *. set (g := (slope_exp a + delta_exp prec Js' lo t (act_exp a z) (plans l))%Z) in *. destruct Pd as [PB PW].
    pose proof (pre_nonneg J e c J0 H0) as Hz. fold z in Hz. pose proof (act_exp_nonneg a z Hz) as Ha. pose proof (delta_nonneg Js' lo t B Ht _ _ Ha HH) as Hd. pose proof (slope_nonneg a) as Hs. pose proof (grow_nonneg B) as GB. pose proof (grow_nonneg c) as Gc. pose proof (grow_nonneg k) as Gk.
    set (pre := fun j => add (zsum c (fun i => mul (x i) (n_data d (RW 0) (i * k + j)%Z))) (n_data d RB j)) in *.
    assert (Bp : forall j, (0 <= j < k)%Z -> small z (pre j)).
    { intros j Hj. unfold pre. cbn [add mul NF Num_fl]. unfold z, pre_exp in *. apply plus_small; try lia.
      - apply sum_grow; try lia. intros i Hi. rewrite (Z.add_comm J). apply (mul_s P24 EM); [lia|apply Hx; exact Hi|]. apply PW. nia.
      - eapply small_up; [|apply PB; exact Hj]. lia. }
    assert (NO : node_out d x = act_val a k pre) by (unfold node_out; now rewrite EP).
    assert (Bv : forall j, (0 <= j < k)%Z -> small (act_exp a z) (node_out d x j)) by (intros j Hj; rewrite NO; now apply act_upto).
    destruct (IH Js' k (act_exp a z) (node_out d x) y true HF HC Pl HH Ha Bv Hy) as (K' & G' & D'). clear IH.
    assert (Edl : dl = loss_dval lo y (net_out l (node_out d x))) by reflexivity. rewrite <- Edl in K', G', D'.
    assert (El' : l' = bwd (fwd d x) x (hd' (run_back (run_fwd l (node_out d x)) (node_out d x) true dl) dl) full :: run_back (run_fwd l (node_out d x)) (node_out d x) true dl).
    { unfold l'. cbn [run_fwd]. rewrite run_back_cons. cbn [n_data fwd]. now rewrite after_forward_value. }
    set (r := run_back (run_fwd l (node_out d x)) (node_out d x) true dl) in *. set (dd := hd' r dl) in *. rewrite El'. clear El' l'. specialize (D' (or_introl eq_refl)).
    assert (Buff : after_forward d x RBuff = pre). { unfold after_forward. rewrite EP, EL. rewrite set_role_other by discriminate. apply set_role_same. }
    assert (Dg : forall j, (0 <= j < k)%Z -> small g (fc_gradB a (after_forward d x) dd j)).
    { intros j Hj. unfold fc_gradB, g. rewrite Buff. cbn [mul NF Num_fl]. apply (mul_s P24 EM); [lia|apply (slope_upto a k); [exact Tm|]|now apply D']. eapply small_fin. now apply Bp. }
    assert (Q1 : forall rr, rr <> RValue -> rr <> RBuff -> rr <> RMask -> after_forward d x rr = n_data d rr) by (intros; now apply after_forward_other).
    assert (Oth : forall rr, rr <> RGradB -> rr <> RGradW 0 -> rr <> RDelta -> n_data (bwd (fwd d x) x dd full) rr = after_forward d x rr).
    { intros rr N1 N2 N3. unfold bwd, fwd, after_backward. cbn [n_plan n_data]. rewrite EP. unfold fc_after_backward. destruct full; rewrite ?set_role_other by auto; reflexivity. }
    assert (GrB : n_data (bwd (fwd d x) x dd full) RGradB = fc_gradB a (after_forward d x) dd).
    { unfold bwd, fwd, after_backward. cbn [n_plan n_data]. rewrite EP. unfold fc_after_backward. destruct full; rewrite ?(set_role_other _ RDelta) by discriminate; rewrite set_role_other by discriminate; apply set_role_same. }
    assert (GrW : n_data (bwd (fwd d x) x dd full) (RGradW 0) = fc_gradW k a (after_forward d x) x dd).
    { unfold bwd, fwd, after_backward. cbn [n_plan n_data]. rewrite EP. unfold fc_after_backward. destruct full; rewrite ?(set_role_other _ RDelta) by discriminate; apply set_role_same. }
    split; [|split].
    + constructor; [|exact K']. unfold kept. rewrite !Oth, !Q1 by discriminate. repeat split.
    + cbn [plans map]. fold (plans l). rewrite EP. cbn [gexps]. fold z. fold g. constructor; [|exact G']. unfold both. rewrite GrB, GrW. unfold bwd, fwd. cbn [n_plan]. rewrite EP. cbn [dims]. split.
      * intros j Hj. eapply small_up; [|apply Dg; exact Hj]. lia.
      * intros o Ho. unfold fc_gradW. cbn [mul NF Num_fl]. assert (Kp : (0 < k)%Z) by nia. apply (mul_s P24 EM); [lia| |apply Dg; apply Z.mod_pos_bound; exact Kp]. apply Hx. split; [apply Z.div_pos; lia|]. apply Z.div_lt_upper_bound; lia.
    + intros [Fu|Fu] j Hj; [subst full|discriminate Fu]. cbn [hd' plans map]. fold (plans l). rewrite EP. cbn [delta_exp]. fold z. fold g.
      unfold bwd, fwd, after_backward. cbn [n_plan n_data]. rewrite EP. unfold fc_after_backward. rewrite set_role_same. unfold fc_delta. apply sum_grow; try lia.
      intros i Hi. cbn [mul NF Num_fl]. apply (mul_s P24 EM); [lia| |now apply Dg]. rewrite Q1 by discriminate. apply PW. nia.
Qed.
End Pass.
End Train.

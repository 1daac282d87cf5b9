(** * Property C131: the gradients a network computes in floating-point arithmetic *)
From Coq Require Import ZArith QArith Reals Lra Lia List FunctionalExtensionality.
From Flocq Require Import Core BinarySingleNaN.
From Verif Require Import Mem Scalar MemSpec MemLemmas Lique LiqueSpec LiqueProofs Linear LinearProofs RSum Functions FunctionSpec FunctionProofs
  Layer LayerSpec FCProofs RealSpec NetSpec ConvSpec Optimizer ActivationProofs LossProofs Vjp PropFC Net NetPlan NetProofs NetBack PropNet NetReal NetGrad PropNetGrad
  Float FloatSpec FloatLemmas FloatLib FloatError FloatAcc FloatAct PropFloatAct PropFloatSoftmax PropFloatLayers FloatNetSpec FloatNetAct FloatNetSoft PropFloatNet FloatLoss FloatGradSpec FloatDer.
Import ListNotations.
Local Open Scope R_scope.

(** ** what backward leaves in a dense layer *)
Section Any.
Context {T : Type} `{NT : Num T}.
Definition grad_b (d : node T) (a : activation) (n k : Z) (x dl : Z -> T) (j : Z) : T := mul (act_dval a (PropFC.affine n k (n_data d) x) j) (dl j).
Lemma dense_bwd (d : node T) a n k x dl full : n_plan d = PDense a n k -> train_class (n_layer d) -> fits (n_layer d) (n_plan d) ->
  let d2 := bwd (fwd d x) x dl full in
  n_data d2 RGradB = grad_b d a n k x dl /\ n_data d2 (RGradW 0) = (fun o => mul (x (o / k)%Z) (grad_b d a n k x dl (o mod k)%Z)) /\
  (full = true -> n_data d2 RDelta = fun i => zsum k (fun j => mul (n_data d (RW 0) (i * k + j)%Z) (grad_b d a n k x dl j))) /\ n_plan d2 = PDense a n k.
Proof.
  destruct d as [L p s]. cbn [n_plan n_layer n_data]. intros -> Tr F. destruct L as [L|L|L|L|L|L]; cbn [fits train_class] in F, Tr; try tauto. clear F Tr.
  unfold bwd, fwd, after_backward, after_forward. cbn [n_plan n_layer n_data]. destruct full; unfold fc_after_backward; cbv zeta; (split; [reflexivity|]); (split; [reflexivity|]); (split; [|reflexivity]); [|discriminate]. intros _. reflexivity.
Qed.
Definition delta_in (l : list (node T)) (dl : Z -> T) : Z -> T := match l with [] => dl | e :: _ => n_data e RDelta end.
Lemma run_back_cons (d : node T) l x full dl :
  run_back (d :: l) x full dl = bwd d x (delta_in (run_back l (n_data d RValue) true dl) dl) full :: run_back l (n_data d RValue) true dl.
Proof. cbn [run_back]. now destruct (run_back l (n_data d RValue) true dl). Qed.
Lemma last_value_any l : forall (x : Z -> T) (d0 : node T), l <> [] -> n_data (last (run_fwd l x) d0) RValue = net_out l x.
Proof.
  induction l as [|d l IH]; intros x d0 Ne; [congruence|]. destruct l as [|e l].
  - cbn [run_fwd last fwd n_data]. apply after_forward_value.
  - change (last (run_fwd (d :: e :: l) x) d0) with (last (run_fwd (e :: l) (node_out d x)) d0). rewrite IH by discriminate. reflexivity.
Qed.
End Any.

(** ** the network over the reals *)
Lemma real_dense (d : node R) a n k x : n_plan d = PDense a n k -> fits (n_layer d) (n_plan d) -> node_out d x = real_layer (n_plan d) (n_data d) x.
Proof.
  destruct d as [L p s]. unfold node_out. cbn [n_layer n_plan n_data]. intros -> F. destruct a as [a|].
  - apply functional_extensionality. intros j. unfold dense_out. cbn [act_val real_layer]. unfold dense. rewrite std_is_scalar. reflexivity.
  - apply functional_extensionality. intros j. unfold dense_out. cbn [real_layer]. rewrite softmax_std; [reflexivity|].
    destruct L as [L|L|L|L|L|L]; cbn [fits] in F; try tauto; now apply F.
Qed.
Lemma grad_b_R (d : node R) a n k x dl : grad_b d a n k x dl = bias_grad a n k (n_data d) x dl.
Proof. apply functional_extensionality. intros j. unfold grad_b, bias_grad, act_slope, pre. destruct a; reflexivity. Qed.

Section Grad.
Context {prec emax : Z} {Hp : Prec_gt_0 prec} {He : Prec_lt_emax prec emax} (P24 : (24 <= prec)%Z) (E64 : (64 <= emax)%Z) (PM : (prec + 3 <= emax)%Z).
Context (lib : libm prec emax) (LO : libm_ok lib) (c : R) (AC : libm_accurate lib c) (CC : cosh_accurate lib c).
Notation fl := (fl prec emax).
Notation u := (uro prec).
Notation eta := (eta prec emax).
#[local] Instance NF : Num fl := Num_fl prec emax lib.

(** ** a product of two numbers known up to an error *)
Lemma near1 (x a e : R) : Rabs (x - a) <= e -> Rabs x <= Rabs a + e.
Proof. intros H. replace x with (a + (x - a)) by ring. eapply Rle_trans; [apply Rabs_triang|]. lra. Qed.
Lemma prod_step (x y : fl) a ea b eb : fin x -> fin y -> Rabs (B2R x - a) <= ea -> Rabs (B2R y - b) <= eb ->
  (let A := prod_size a ea b eb in A + roundings prec emax 1 1 A < big emax) ->
  fin (mul x y) /\ Rabs (B2R (mul x y) - a * b) <= prod_err (prec := prec) (emax := emax) a ea b eb.
Proof.
  intros Fx Fy Hx Hy. cbv zeta. intros S. pose proof (near1 _ _ _ Hx) as Nx. pose proof (near1 _ _ _ Hy) as Ny. pose proof (Rabs_pos (B2R x)) as Px. pose proof (Rabs_pos (B2R y)) as Py.
  pose proof (Rabs_pos (B2R x - a)) as Ex. pose proof (Rabs_pos (B2R y - b)) as Ey. pose proof (Rabs_pos a) as Pa.
  assert (L : 0 <= Rabs (B2R x * B2R y) <= prod_size a ea b eb). { split; [apply Rabs_pos|]. rewrite Rabs_mult. unfold prod_size. apply Rmult_le_compat; lra. }
  pose proof (roundings_mono (prec := prec) (emax := emax) 1 1 _ 1 1 _ ltac:(lia) ltac:(lia) L) as M. destruct (accurate_mul lib x y) as [Q1 Q2].
  change (FloatAcc.NF lib) with NF in Q1, Q2. assert (F : fin (mul x y)) by (apply Q2; [auto|lra]). split; [exact F|]. destruct (Q1 F) as [_ Er].
  replace (B2R (mul x y) - a * b) with (B2R (mul x y) - B2R x * B2R y + ((B2R x - a) * B2R y + a * (B2R y - b))) by ring.
  eapply Rle_trans; [apply Rabs_triang|]. unfold prod_err. assert (Rabs ((B2R x - a) * B2R y + a * (B2R y - b)) <= ea * (Rabs b + eb) + Rabs a * eb).
  { eapply Rle_trans; [apply Rabs_triang|]. rewrite !Rabs_mult. apply Rplus_le_compat; apply Rmult_le_compat; lra. }
  lra.
Qed.

(** ** one layer *)
Lemma pre_step (d : node fl) a n k (xv : Z -> fl) (xr e : Z -> R) : n_plan d = PDense a n k ->
  let s := fun r i => B2R (n_data d r i) in
  (0 <= n)%Z -> sound_layer d -> (forall i, (0 <= i < n)%Z -> fin (xv i) /\ Rabs (B2R (xv i) - xr i) <= e i) ->
  (forall o, (0 <= o < k)%Z -> let A := magnitude (PDense a n k) s xr e o in A + rounds (prec := prec) (emax := emax) (PDense a n k) A < big emax) ->
  forall o, (0 <= o < k)%Z -> fin (PropFC.affine n k (n_data d) xv o) /\ Rabs (B2R (PropFC.affine n k (n_data d) xv o) - pre n k s xr o) <= pre_err (prec := prec) (emax := emax) a n k s xr e o.
Proof.
  intros Ep s Hn S X Bd o Ho. unfold sound_layer in S. rewrite Ep in S. destruct S as [SW SB]. unfold pre, pre_err. cbv zeta. cbn [magnitude rounds spread] in *.
  assert (Fx : forall i, (0 <= i < n)%Z -> fin (xv i)) by (intros; now apply X).
  assert (Nr : forall i, (0 <= i < n)%Z -> 0 <= Rabs (B2R (xv i)) <= Rabs (xr i) + e i). { intros i Hi. split; [apply Rabs_pos|]. apply near1. now apply X. }
  specialize (Bd o Ho). cbv zeta in Bd. set (A := dense_pre n k (fun i => Rabs (s RB i)) (fun i => Rabs (s (RW 0) i)) (fun i => Rabs (xr i) + e i) o) in *.
  destruct (affine_accurate lib n k (n_data d) xv o Hn) as [Q1 Q2]. set (A' := dense_pre n k (sizes (n_data d RB)) (sizes (n_data d (RW 0))) (sizes xv) o) in *.
  assert (AA : 0 <= A' <= A) by (apply (dense_pre_mono n k (s RB) (s (RW 0)) (sizes xv)); exact Nr).
  pose proof (roundings_mono (prec := prec) (emax := emax) (n + 2) (n + 1) A' (n + 2) (n + 1) A ltac:(lia) ltac:(lia) AA) as RM.
  change (PropFloatLayers.NF lib) with NF in Q1, Q2. set (p := PropFC.affine n k (n_data d) xv o) in *.
  assert (F : fin p). { apply Q2; [|lra]. split; [|auto]. intros i Hi. split; [auto|]. apply SW. nia. }
  destruct (Q1 F) as [_ Er]. set (ex := dense_pre n k (reals _) _ _ o) in *. split; [exact F|].
  assert (C1 : Rabs (ex - dense_pre n k (s RB) (s (RW 0)) xr o) <= dense_pre n k (fun _ => 0) (fun i => Rabs (s (RW 0) i)) e o).
  { apply (dense_pre_close n k (s RB) (s (RW 0)) (reals xv)); [exact Hn|]. intros. now apply X. }
  replace (_ - _) with (B2R p - ex + (ex - dense_pre n k (s RB) (s (RW 0)) xr o)) by ring. eapply Rle_trans; [apply Rabs_triang|]. lra.
Qed.
Lemma slope_step a (z : fl) (r d : R) : slope_covered a -> fin z -> Rabs (B2R z - r) <= d ->
  match a with Functions.Scalar a => forall t, Rabs (t - r) <= d -> ~ corner a t | SoftMax => True end ->
  fin (act_dval a (fun _ => z) 0) /\ Rabs (B2R (act_dval a (fun _ => z) 0%Z) - act_slope a r) <= slope_err (prec := prec) c a d.
Proof.
  intros Cv F H NC. destruct a as [a|]; cbn [act_dval act_slope slope_err].
  - destruct (slope_acc P24 E64 PM lib LO c AC CC a z Cv F) as [Fs As]. change (FloatDer.NF lib) with NF in Fs, As. split; [exact Fs|].
    pose proof (slope_lip a (B2R z) r Cv) as L. assert (L' : Rabs (scalar_df (NT := Num_R) a (B2R z) - scalar_df (NT := Num_R) a r) <= slope_gain a * Rabs (B2R z - r)).
    { apply L. intros t Ht. apply NC. apply Rabs_le_inv in H. apply Rabs_le. unfold Rmin, Rmax in Ht. destruct Rle_dec in Ht; lra. }
    pose proof (Rmult_le_compat_l _ _ _ (slope_gain_pos a) H). set (q := B2R (scalar_df a z)) in *.
    replace (q - scalar_df (NT := Num_R) a r) with (q - scalar_df (NT := Num_R) a (B2R z) + (scalar_df (NT := Num_R) a (B2R z) - scalar_df (NT := Num_R) a r)) by ring.
    eapply Rle_trans; [apply Rabs_triang|]. lra.
  - cbn [one NF Num_fl]. rewrite (val_one (prec := prec) (emax := emax)), Rminus_eq_0, Rabs_R0. split; [apply fin_one|lra].
Qed.
Lemma back_layer (d : node fl) a n k (xv dv : Z -> fl) (xr e dr ed : Z -> R) full : n_plan d = PDense a n k ->
  let s := fun r i => B2R (n_data d r i) in let g := grad_b d a n k xv dv in
  (0 <= n)%Z -> (0 <= k)%Z -> sound_layer d -> (forall i, (0 <= i < n)%Z -> fin (xv i) /\ Rabs (B2R (xv i) - xr i) <= e i) ->
  (forall o, (0 <= o < k)%Z -> let A := magnitude (PDense a n k) s xr e o in A + rounds (prec := prec) (emax := emax) (PDense a n k) A < big emax) ->
  (forall j, (0 <= j < k)%Z -> fin (dv j) /\ Rabs (B2R (dv j) - dr j) <= ed j) -> layer_back_safe (prec := prec) (emax := emax) c a n k s xr e dr ed full ->
  (forall j, (0 <= j < k)%Z -> fin (g j) /\ Rabs (B2R (g j) - bias_grad a n k s xr dr j) <= bias_err (prec := prec) (emax := emax) c a n k s xr e dr ed j) /\
  (forall o, (0 <= o < n * k)%Z -> let w := mul (xv (o / k)%Z) (g (o mod k)%Z) in fin w /\ Rabs (B2R w - weight_grad a n k s xr dr o) <= weight_err (prec := prec) (emax := emax) c a n k s xr e dr ed o) /\
  (full = true -> forall i, (0 <= i < n)%Z -> let r := zsum k (fun j => mul (n_data d (RW 0) (i * k + j)%Z) (g j)) in
     fin r /\ Rabs (B2R r - delta_val a n k s xr dr i) <= delta_err (prec := prec) (emax := emax) c a n k s xr e dr ed i).
Proof.
  intros Ep s g Hn Hk S X Bd D (Cv & NC & B1 & B2 & B3).
  assert (G1 : forall j, (0 <= j < k)%Z -> fin (g j) /\ Rabs (B2R (g j) - bias_grad a n k s xr dr j) <= bias_err (prec := prec) (emax := emax) c a n k s xr e dr ed j).
  { intros j Hj. destruct (pre_step d a n k xv xr e Ep Hn S X Bd j Hj) as [Fp Ap]. destruct (D j Hj) as [Fd Ad]. fold s in Ap.
    destruct (slope_step a _ _ _ Cv Fp Ap (NC j Hj)) as [Fs As]. unfold g, grad_b, bias_grad, bias_err.
    replace (act_dval a (PropFC.affine n k (n_data d) xv) j) with (act_dval a (fun _ => PropFC.affine n k (n_data d) xv j) 0%Z) by (destruct a; reflexivity).
    apply prod_step; auto. exact (B1 j Hj). }
  split; [exact G1|]. split.
  - intros o Ho. assert (K : (0 < k)%Z) by nia. assert (Ro : (0 <= o / k < n)%Z) by (split; [apply Z.div_pos; lia|apply Z.div_lt_upper_bound; lia]). pose proof (Z.mod_pos_bound o k K) as Rm.
    destruct (X _ Ro) as [Fx Ax]. destruct (G1 _ Rm) as [Fg Ag]. unfold weight_grad, weight_err. apply prod_step; auto. exact (B2 o Ho).
  - intros Ef i Hi. cbv zeta. specialize (B3 Ef i Hi). unfold sound_layer in S. rewrite Ep in S. destruct S as [SW _].
    destruct (accurate_dot lib (fun j => n_data d (RW 0) (i * k + j)%Z) g k Hk) as [Q1 Q2]. change (FloatAcc.NF lib) with NF in Q1, Q2. set (r := zsum k _) in *.
    change (zsum k (fun j : Z => B2R (n_data d (RW 0) (i * k + j)%Z) * B2R (g j))) with (RealSpec.rsum k (fun j : Z => s (RW 0) (i * k + j)%Z * B2R (g j))) in *.
    set (A' := zsum k (fun j => Rabs (B2R (n_data d (RW 0) (i * k + j)%Z) * B2R (g j)))) in *.
    assert (AA : 0 <= A' <= delta_size (prec := prec) (emax := emax) c a n k s xr e dr ed i).
    { unfold A', delta_size. split; [apply RSum.zsum_nonneg; intros; apply Rabs_pos|]. apply RSum.zsum_le. intros j Hj. rewrite Rabs_mult. apply Rmult_le_compat_l; [apply Rabs_pos|]. apply near1. now apply G1. }
    pose proof (roundings_mono (prec := prec) (emax := emax) (k + 1) k _ (k + 1) k _ ltac:(lia) ltac:(lia) AA) as RM.
    assert (F : fin r). { apply Q2; [|lra]. intros j Hj. split; [apply SW; nia|now apply G1]. } split; [exact F|]. destruct (Q1 F) as [_ Er].
    unfold delta_val, delta_err.
    assert (Cl : Rabs (RealSpec.rsum k (fun j => s (RW 0) (i * k + j)%Z * B2R (g j)) - RealSpec.rsum k (fun j => s (RW 0) (i * k + j)%Z * bias_grad a n k s xr dr j)) <=
      RealSpec.rsum k (fun j => Rabs (s (RW 0) (i * k + j)%Z) * bias_err (prec := prec) (emax := emax) c a n k s xr e dr ed j)).
    { apply sum_close; [exact Hk|]. intros j Hj. rewrite <- Rmult_minus_distr_l, Rabs_mult. apply Rmult_le_compat_l; [apply Rabs_pos|now apply G1]. }
    set (p := RealSpec.rsum k (fun j => s (RW 0) (i * k + j)%Z * B2R (g j))) in *. set (q := RealSpec.rsum k (fun j => s (RW 0) (i * k + j)%Z * bias_grad a n k s xr dr j)) in *.
    replace (B2R r - q) with (B2R r - p + (p - q)) by ring. eapply Rle_trans; [apply Rabs_triang|]. lra.
Qed.

(** ** the network: the run in floating-point arithmetic beside the run of the same program over the reals *)
Definition to_real (d : node fl) : node R := mk_node (n_layer d) (n_plan d) (fun r i => B2R (n_data d r i)).
Lemma to_real_exact l : to_model (map to_real l) = exact l.
Proof. unfold to_model, exact. rewrite map_map. reflexivity. Qed.
Definition grads_close (err : (Z -> R) * (Z -> R)) (p : plan) (df : node fl) (dr : node R) : Prop :=
  match p with
  | PDense _ n k =>
      (forall j, (0 <= j < k)%Z -> fin (n_data df RGradB j) /\ Rabs (B2R (n_data df RGradB j) - n_data dr RGradB j) <= fst err j) /\
      (forall o, (0 <= o < n * k)%Z -> fin (n_data df (RGradW 0) o) /\ Rabs (B2R (n_data df (RGradW 0) o) - n_data dr (RGradW 0) o) <= snd err o)
  | _ => False
  end.
Lemma back_net (l : list (node fl)) : forall (s : shape) (xv dv : Z -> fl) (xr e dr ed : Z -> R) full,
  Forall train_class (layers l) -> Forall (fun d => fits (n_layer d) (n_plan d)) l -> wired s (plans l) -> Forall sound_layer l ->
  (forall i, (0 <= i < s_size s)%Z -> fin (xv i) /\ Rabs (B2R (xv i) - xr i) <= e i) -> safe (prec := prec) (emax := emax) c (exact l) xr e ->
  (forall j, (0 <= j < s_size (out_shape s (plans l)))%Z -> fin (dv j) /\ Rabs (B2R (dv j) - dr j) <= ed j) ->
  back_safe (prec := prec) (emax := emax) c full (exact l) xr e dr ed ->
  let fb := run_back (run_fwd l xv) xv full dv in let rb := run_back (run_fwd (map to_real l) xr) xr full dr in
  let B := back (prec := prec) (emax := emax) c (exact l) xr e dr ed in
  (full = true -> delta_in rb dr = fst B /\ forall i, (0 <= i < s_size s)%Z -> fin (delta_in fb dv i) /\ Rabs (B2R (delta_in fb dv i) - fst B i) <= snd B i) /\
  forall i d, nth_error l i = Some d -> exists df d2, nth_error fb i = Some df /\ nth_error rb i = Some d2 /\
    grads_close (gradient_err (prec := prec) (emax := emax) c (exact l) i xr e dr ed) (n_plan d) df d2.
Proof.
  induction l as [|d l IH]; intros s xv dv xr e dr ed full Tr Ft W S X Sf D Bs.
  - cbv zeta. split; [|intros [|]; discriminate]. intros _. split; [reflexivity|]. exact D.
  - apply Forall_cons_iff in Ft as [Fd Ft]. apply Forall_cons_iff in S as [Sd S]. destruct W as [W1 W2]. destruct Sf as (Cv & Bd & Sf). cbn [layers map] in Tr. apply Forall_cons_iff in Tr as [T1 T2].
    destruct (fits_counts _ _ Fd) as (_ & Eo & _). pose proof (feeds_count _ _ _ Fd W1) as Ei. rewrite Ei in X |- *.
    pose proof (layer_step P24 E64 PM lib LO c AC d xv xr e Fd Sd X Cv Bd) as St. set (sr := fun r i => B2R (n_data d r i)) in *.
    change (exact (d :: l)) with ((n_plan d, sr) :: exact l) in Bs |- *. change (safe (prec := prec) (emax := emax) c (exact l) (real_layer (n_plan d) sr xr) (layer_drift (prec := prec) (emax := emax) c (n_plan d) sr xr e)) in Sf.
    change (forall j, (0 <= j < s_size (out_shape (p_out (n_plan d)) (plans l)))%Z -> fin (dv j) /\ Rabs (B2R (dv j) - dr j) <= ed j) in D.
    change (forall o, (0 <= o < out_count (n_plan d))%Z -> let A := magnitude (n_plan d) sr xr e o in A + rounds (prec := prec) (emax := emax) (n_plan d) A < big emax) in Bd. clear Cv.
    destruct (n_plan d) as [a n k|g|a q] eqn:Ep; [|destruct Bs|destruct Bs]. cbn [back_safe] in Bs. cbn [in_count out_count] in *.
    assert (Dm : (0 <= n)%Z /\ (0 <= k)%Z) by (destruct (n_layer d); cbn in Fd; try contradiction; split; apply Fd). destruct Dm as [Hn Hk].
    set (y := real_layer (PDense a n k) sr xr) in *. set (ey := layer_drift (prec := prec) (emax := emax) c (PDense a n k) sr xr e) in *. destruct Bs as [Ls Bs].
    destruct (IH (p_out (PDense a n k)) (node_out d xv) dv y ey dr ed true T2 Ft W2 S ltac:(rewrite Eo; exact St) Sf D Bs) as [IH1 IH2]. clear IH.
    destruct (IH1 eq_refl) as [R1 R2]. clear IH1. rewrite Eo in R2. cbn [back gradient_err]. change (real_layer (PDense a n k) sr xr) with y. change (layer_drift (prec := prec) (emax := emax) c (PDense a n k) sr xr e) with ey.
    destruct (back (prec := prec) (emax := emax) c (exact l) y ey dr ed) as [d' ed'] eqn:Eb. cbn [fst snd] in *. cbv zeta.
    assert (Vf : n_data (fwd d xv) RValue = node_out d xv) by (cbn [fwd n_data]; apply after_forward_value).
    assert (Vr : n_data (fwd (to_real d) xr) RValue = y). { cbn [fwd n_data]. rewrite after_forward_value, (real_dense (to_real d) a n k xr); [|exact Ep|cbn [to_real n_layer n_plan]; rewrite Ep; exact Fd]. cbn [to_real n_plan n_data]. rewrite Ep. reflexivity. }
    assert (Vr' : node_out (to_real d) xr = y). { rewrite <- Vr. cbn [fwd n_data]. now rewrite after_forward_value. }
    cbn [map run_fwd]. rewrite !run_back_cons, Vf, Vr, Vr', R1. set (fb := run_back (run_fwd l (node_out d xv)) (node_out d xv) true dv) in *. set (rb := run_back (run_fwd (map to_real l) y) y true dr) in *.
    set (dvf := delta_in fb dv) in *.
    destruct (dense_bwd d a n k xv dvf full Ep T1 ltac:(rewrite Ep; exact Fd)) as (E1 & E2 & E3 & _).
    destruct (dense_bwd (to_real d) a n k xr d' full Ep T1 ltac:(cbn [to_real n_layer n_plan]; rewrite Ep; exact Fd)) as (G1 & G2 & G3 & _). cbv zeta in E1, E2, E3, G1, G2, G3.
    rewrite (grad_b_R (to_real d)) in G1, G2, G3. change (n_data (to_real d)) with sr in G1, G2, G3.
    destruct (back_layer d a n k xv dvf xr e d' ed' full Ep Hn Hk Sd X Bd R2 Ls) as (K1 & K2 & K3). cbn [delta_in fst snd].
    split.
    + intros Ef. rewrite (E3 Ef), (G3 Ef). split; [reflexivity|]. exact (K3 Ef).
    + intros [|i] d1 Hd; cbn [nth_error] in Hd |- *.
      * injection Hd as <-. eexists _, _. split; [reflexivity|]. split; [reflexivity|]. rewrite Ep. cbn [grads_close fst snd]. rewrite E1, E2, G1, G2. split; [exact K1|exact K2].
      * exact (IH2 i d1 Hd).
Qed.

(** ** the loss *)
Lemma loss_step lo (p t : fl) (y ty e : R) : lo = MSE \/ lo = CCE \/ lo = NLL \/ lo = LC -> fin p -> fin t -> Rabs (B2R p - y) <= e -> ty = B2R t -> (Rabs (y - ty) + e) * (1 + u) < big emax ->
  let r := match lo with LC => ntanh (sub p t) | _ => sub p t end in
  fin r /\ Rabs (B2R r - match lo with LC => tanh (y - ty) | _ => y - ty end) <= e + u * (Rabs (y - ty) + e) + match lo with LC => c | _ => 0 end.
Proof.
  intros L Fp Ft H -> B. pose proof (u_pos (prec := prec)) as U0. pose proof (Rabs_pos (B2R p - y)) as E0. set (ty := B2R t) in *.
  assert (N : Rabs (B2R p - ty) <= Rabs (y - ty) + e). { replace (B2R p - ty) with (y - ty + (B2R p - y)) by ring. eapply Rle_trans; [apply Rabs_triang|]. lra. }
  destruct (rnd_minus_err (prec := prec) (emax := emax) (B2R p) ty) as (dd & D1 & D2); [apply fmt_B2R|apply fmt_B2R|].
  assert (F : fin (Bminus mode_NE p t)).
  { destruct (val_sub p t Fp Ft) as [Nm V]. apply fin_iff. split; [exact Nm|]. rewrite V. fold ty. rewrite D2. assert (Q : Rabs ((B2R p - ty) * (1 + dd)) < big emax).
    { apply Rle_lt_trans with (2 := B). rewrite Rabs_mult. apply Rmult_le_compat; [apply Rabs_pos|apply Rabs_pos|exact N|]. eapply Rle_trans; [apply Rabs_triang|]. rewrite Rabs_R1. lra. }
    apply Rabs_def2 in Q. rewrite clamp_id by lra. apply Rabs_def1; lra. }
  assert (A : Rabs (B2R (Bminus mode_NE p t) - (y - ty)) <= e + u * (Rabs (y - ty) + e)).
  { destruct (sub_fin_inv _ _ F) as (_ & _ & ->). fold ty. rewrite D2. replace ((B2R p - ty) * (1 + dd) - (y - ty)) with (B2R p - y + dd * (B2R p - ty)) by ring.
    eapply Rle_trans; [apply Rabs_triang|]. rewrite Rabs_mult. apply Rplus_le_compat; [exact H|]. apply Rmult_le_compat; auto using Rabs_pos. }
  cbn [sub ntanh NF Num_fl]. destruct L as [->|[->|[->| ->]]]; cbv zeta; try (split; [exact F|lra]).
  pose proof (a_tanh lib c AC _ F) as T1. pose proof (lip_tanh (B2R (Bminus mode_NE p t)) (y - ty)) as T2. set (z := Bminus mode_NE p t) in *.
  split; [apply (within_fin _ (-1) 1 (m_tanh_range lib LO z (fin_num z F))); pose proof (big_gt_1 (prec := prec) (emax := emax)); lra|]. replace (_ - _) with (B2R (l_tanh lib z) - tanh (B2R z) + (tanh (B2R z) - tanh (y - ty))) by ring. eapply Rle_trans; [apply Rabs_triang|]. lra.
Qed.

(** ** C131 *)
(** the plan of the last layer *)
Definition final_plan (l : list (node fl)) : plan := last (plans l) (PConv (mk_geometry 0 0 0 0 0 0 0 0 0)).
Lemma back_clean full (l : list (node fl)) : forall x e d ed, back_safe (prec := prec) (emax := emax) c full (exact l) x e d ed -> clean (exact l).
Proof.
  revert full. induction l as [|n l IH]; intros full x e d ed H; [constructor|]. change (exact (n :: l)) with ((n_plan n, fun r i => B2R (n_data n r i)) :: exact l) in *.
  destruct (n_plan n) as [a i k|g|a q]; cbn [back_safe] in H; [|destruct H|destruct H]. destruct H as [_ H]. constructor; [exact Logic.I|]. eapply IH. exact H.
Qed.
Lemma loss_slope_R lo (t y : Z -> R) : lo = MSE \/ lo = CCE \/ lo = NLL \/ lo = LC -> loss_dval (NT := Num_R) lo t y = loss_slope lo t y.
Proof. intros L. apply functional_extensionality. intros j. destruct L as [->|[->|[->| ->]]]; reflexivity. Qed.
Lemma fits_known lo p t y : lo <> MSLE -> loss_fits lo p t y -> lo = MSE \/ lo = CCE \/ lo = NLL \/ lo = LC.
Proof. intros N F. destruct p as [[a|] n k|g|a q]; cbn in F; tauto. Qed.
(** [n_data d2 RGradB], [n_data d2 (RGradW 0)] (the gradients computed) are within [err] of the partial derivatives of [J], where [J r v] is
    the loss of the exact network with tensor [r] of the layer replaced by [v]. *)
Definition gradients_close (J : role -> (Z -> R) -> R) (err : (Z -> R) * (Z -> R)) (d d2 : node fl) : Prop :=
  match n_plan d with
  | PDense _ n k =>
      (forall j, (0 <= j < k)%Z -> fin (n_data d2 RGradB j) /\
         exists g, partial (J RB) (reals (n_data d RB)) j g /\ Rabs (B2R (n_data d2 RGradB j) - g) <= fst err j) /\
      (forall o, (0 <= o < n * k)%Z -> fin (n_data d2 (RGradW 0) o) /\
         exists g, partial (J (RW 0)) (reals (n_data d (RW 0))) o g /\ Rabs (B2R (n_data d2 (RGradW 0) o) - g) <= snd err o)
  | _ => False
  end.
Theorem C131_gradient_error (m : mem fl) (l : list (node fl)) t lo x xv y yv (xr e : Z -> R) :
  (2 <= Z.of_nat (length l) < 2 ^ 64)%Z -> Forall train_class (layers l) -> net_at m l ->
  trainer_at m l t lo -> sample_at m l x xv -> disjoint (t_data (tr_delta t)) (t_size (tr_delta t)) (t_data x) (t_size x) -> target_at m l t y yv ->
  Forall sound_layer l -> (forall i, (0 <= i < t_size x)%Z -> fin (xv i) /\ Rabs (B2R (xv i) - xr i) <= e i) -> safe (prec := prec) (emax := emax) c (exact l) xr e ->
  let k := out_count (final_plan l) in let out := real_net (exact l) xr in let eo := drift (prec := prec) (emax := emax) c (exact l) xr e in
  let d := loss_slope lo (reals yv) out in let ed := loss_err (prec := prec) c lo (reals yv) out eo in
  (forall j, (0 <= j < k)%Z -> fin (yv j) /\ loss_size (reals yv) out eo j * (1 + u) < big emax) ->
  lo <> MSLE -> smooth (exact l) xr -> loss_fits lo (final_plan l) (reals yv) out -> back_safe (prec := prec) (emax := emax) c false (exact l) xr e d ed ->
  exists out m1 m2 l2, net_feedforward (layers l) x m = Ok (out, m1) /\ tr_backprop (layers l) t x y m1 = Ok (tt, m2) /\
    net_at m2 l2 /\ layers l2 = layers l /\ plans l2 = plans l /\
    forall i n, nth_error l i = Some n -> exists n2, nth_error l2 i = Some n2 /\
      gradients_close (fun r v => net_loss lo (final_plan l) (reals yv) (real_net (with_param (exact l) i r v) xr))
        (gradient_err (prec := prec) (emax := emax) c (exact l) i xr e d ed) n n2.
Proof.
  intros Hn Tr A Ht Hx Dx Hy Sd X Sf k ro eo dr ed Fy Nl Sm Lf Bs.
  assert (Ne : l <> []) by (intros ->; cbn in Hn; lia).
  assert (F : Forall (fun d => fits (n_layer d) (n_plan d)) l) by (eapply Forall_impl; [|exact (proj1 A)]; cbn; tauto).
  destruct Ht as (El & Wb & Od & Ow). destruct Hy as (Hy & Oy & Dy).
  destruct (feedforward_run m l x xv Ne ltac:(lia) A Hx) as (out & m1 & E1 & A1 & O1 & p & Ep & _ & Ho & _).
  destruct (same_model_fwd l xv) as (L1 & P1 & S1).
  assert (Ep' : final_plan l = p).
  { unfold final_plan. destruct (exists_last (l := plans l)) as (pr & p' & Eq); [unfold plans; destruct l; [congruence|discriminate]|].
    rewrite Eq, last_last. assert (Len : length l = S (length pr)). { pose proof (f_equal (@length _) Eq) as Q. unfold plans in Q. rewrite map_length, app_length in Q. cbn in Q. lia. }
    rewrite Len, Eq in Ep. replace (S (length pr) - 1)%nat with (length pr) in Ep by lia. rewrite nth_error_app2, Nat.sub_diag in Ep by lia. cbn in Ep. congruence. }
  assert (Osz : s_size (out_shape (t_shape x) (plans l)) = k).
  { unfold k. rewrite Ep'. rewrite (out_last _ _ p) by (unfold plans in *; now rewrite map_length). unfold plans in Ep. rewrite nth_error_map in Ep. destruct (nth_error l (length l - 1)) as [d1|] eqn:Ed; [|discriminate]. cbn in Ep. injection Ep as <-.
    rewrite Forall_forall in F. now destruct (fits_counts _ _ (F d1 (nth_error_In _ _ Ed))) as (_ & -> & _). }
  assert (Nb : forall b, net_block (run_fwd l xv) b <-> net_block l b) by (intros b; now rewrite (net_block_same (run_fwd l xv) l)).
  destruct Ow as [Od1 (b & Eb & cc & Ec & Lc)].
  assert (Kd : forall b', ~ net_block l b' -> nth_error m1 b' = nth_error m b').
  { intros b' Nb'. apply (only_block _ _ _ _ O1). intros i Q. auto. }
  assert (Kh : forall p n v, net_outside l p -> holds m p n v -> holds m1 p n v).
  { intros q n v Oq Hq. eapply only_holds; [exact O1| |exact Hq]. intros b' i Hi. destruct q as [|b2 o]; cbn in *; [tauto|]. destruct Hi as [-> _]. exact Oq. }
  assert (Ko : forall p, net_outside l p -> net_outside (run_fwd l xv) p).
  { intros [|b' o] Q; cbn in *; [exact Q|]. now rewrite Nb. }
  assert (Len : length (run_fwd l xv) = length l) by (pose proof (f_equal (@length _) L1) as Q; unfold layers in Q; now rewrite !map_length in Q).
  assert (D0 : exists d0 : node fl, In d0 l) by (clear - Ne; destruct l as [|d1 l]; [congruence|exists d1; now left]). destruct D0 as [d0 _].
  destruct (backprop_run m1 (run_fwd l xv) t lo x xv y yv d0) as (m2 & E2 & A2 & O2).
  { rewrite Len. exact Hn. } { rewrite L1. exact Tr. } { exact A1. }
  { split; [exact El|]. split; [rewrite P1; exact Wb|]. split; [apply Ko; exact Od|]. split; [exact Od1|]. exists b. split; [exact Eb|]. exists cc.
    split; [|exact Lc]. rewrite Kd; [exact Ec|]. rewrite Eb in Od. exact Od. }
  { apply (sample_same m1 l); auto. destruct Hx as (W & H & O). split; [exact W|]. split; [now apply Kh|exact O]. }
  { exact Dx. } { split; [now apply Kh|]. split; [now apply Ko|exact Dy]. }
  rewrite (last_value_any l xv d0 Ne) in A2. rewrite L1 in E2.
  set (dv := loss_dval lo yv (net_out l xv)) in *. set (l2 := run_back (run_fwd l xv) xv false dv) in *.
  exists out, m1, m2, l2. split; [exact E1|]. split; [exact E2|]. split; [exact A2|]. split; [unfold l2; now rewrite layers_run_back|]. split; [unfold l2; now rewrite plans_run_back|].
  pose proof (fits_known _ _ _ _ Nl Lf) as Lk.
  assert (Q : forall j, (0 <= j < s_size (out_shape (t_shape x) (plans l)))%Z -> fin (dv j) /\ Rabs (B2R (dv j) - dr j) <= ed j).
  { intros j Hj. pose proof (net_step P24 E64 PM lib LO c AC l (t_shape x) xv xr e F (proj1 Hx) Sd X Sf j Hj) as [Fo Ao]. rewrite Osz in Hj. destruct (Fy j Hj) as [Ft Bt].
    change (PropFloatNet.NF lib) with NF in Fo, Ao. fold ro in Ao. fold eo in Ao.
    pose proof (loss_step lo (net_out l xv j) (yv j) (ro j) (reals yv j) (eo j) Lk Fo Ft Ao eq_refl Bt) as [R1 R2]. unfold dv, dr, ed, loss_slope, loss_err, loss_size. 
    destruct Lk as [->|[->|[->| ->]]]; split; assumption. }
  destruct (back_net l (t_shape x) xv dv xr e dr ed false Tr F (proj1 Hx) Sd X Sf Q Bs) as [_ G]. fold l2 in G.
  set (rl := map to_real l) in *. assert (Lr : layers rl = layers l) by (unfold rl, layers; rewrite map_map; reflexivity). assert (Pr : plans rl = plans l) by (unfold rl, plans; rewrite map_map; reflexivity).
  assert (Lp : last_plan rl = final_plan l) by (unfold last_plan, final_plan; now rewrite Pr).
  intros i n Hi. destruct (G i n Hi) as (n2 & r2 & G1 & G2 & G3). exists n2. split; [exact G1|].
  assert (Er : to_model rl = exact l) by apply to_real_exact.
  assert (CP : gradients_right (fun r v => net_loss lo (last_plan rl) (reals yv) (real_net (with_param (to_model rl) i r v) xr)) (to_real n) r2).
  { apply (chain_partials lo (reals yv) rl (t_shape x) xr false) with (i := i).
    - unfold rl. intros Q0. apply map_eq_nil in Q0. contradiction.
    - now rewrite Lr.
    - unfold rl. apply Forall_forall. intros q Hq. apply in_map_iff in Hq as (q' & <- & Hq). rewrite Forall_forall in F. exact (F q' Hq).
    - rewrite Pr. apply Hx.
    - now rewrite Er.
    - rewrite Er. eapply back_clean. exact Bs.
    - rewrite Lp, Er. exact Lf.
    - unfold rl. now apply map_nth_error.
    - unfold trained. rewrite Er. fold ro. rewrite (loss_slope_R lo (reals yv) ro Lk). exact G2. }
  rewrite Lp, Er in CP. unfold gradients_right, gradients_close, grads_close in *. cbn [to_real n_plan n_data] in CP. destruct (n_plan n) as [a ni k1|g|a q]; [|destruct G3|destruct G3].
  destruct G3 as [G3 G4]. destruct CP as [C1 C2]. split.
  - intros j Hj. destruct (G3 j Hj) as [F1 B1]. split; [exact F1|]. exists (n_data r2 RGradB j). split; [exact (C1 j Hj)|exact B1].
  - intros o Hj. destruct (G4 o Hj) as [F1 B1]. split; [exact F1|]. exists (n_data r2 (RGradW 0) o). split; [exact (C2 o Hj)|exact B1].
Qed.
End Grad.

(** ** a correctly rounded library *)
Section Rounded.
Context {prec emax : Z} {Hp : Prec_gt_0 prec} {He : Prec_lt_emax prec emax} (P24 : (24 <= prec)%Z) (E64 : (64 <= emax)%Z).
Theorem cr_lib_cosh : cosh_accurate (cr_lib (prec := prec) (emax := emax)) (2 * uro prec).
Proof.
  pose proof (FloatNetAct.u_small P24) as U. pose proof (eta_small (prec := prec) E64) as T. constructor; cbn [cr_lib l_cosh]; intros x Fx F.
  - rewrite rounded_fin in * by exact Fx. pose proof (fl_of_err _ F) as Q. pose proof (cosh_ge1 (B2R x)) as C1. rewrite (Rabs_pos_eq (cosh _)) in Q by lra. nra.
  - rewrite rounded_fin in F by exact Fx. apply Rnot_lt_le. intros L. apply F. pose proof (cosh_ge1 (B2R x)) as C1.
    assert (Eb : big emax / 2 = bpow radix2 (emax - 1)). { unfold big. replace emax with (emax - 1 + 1)%Z at 1 by lia. rewrite bpow_plus. change (bpow radix2 1) with 2. lra. }
    pose proof (big_gt_1 (prec := prec) (emax := emax)) as B1. apply (within_fin _ 0 (big emax / 2)); [|lra|lra]. rewrite Eb in *. apply fl_of_within; [apply fmt_0|apply fmt_bpow; lia|lra|lra|lra].
Qed.
End Rounded.

(** two dense layers of one input and one output with ReLU, x = 8 -> 2 * 8 + 2 = 18 -> 1 * 18 + 1 = 19, target 1, squared error *)
Module Examples.
#[local] Existing Instance PropFloatLayers.Examples.Hp53.
#[local] Existing Instance PropFloatLayers.Examples.He53.
#[local] Existing Instance PropFloatLayers.Examples.ND.
Notation double := (fl 53 1024).
Notation lib := PropFloatLayers.Examples.lib.
Notation pw := PropFloatLayers.Examples.pw.
Notation blk := PropFloatLayers.Examples.blk.
Notation o := PropFloatLayers.Examples.o.
Notation tv := PropFC.Examples.tv.
Notation tm := PropFC.Examples.tm.
Definition one_blocks (k : Z) : mem double := [blk [pw k]; blk [pw k]; blk [o]; blk [o]; blk [o]; blk [o]; blk [o]; blk [o]; blk [o]].
Definition m0 : mem double := one_blocks 1 ++ one_blocks 0 ++ [blk [pw 3]; blk [pw 0]; blk [o]].
Definition one_fc (b : nat) : fc :=
  mk_fc (shape3 1 1 1) (shape3 1 1 1) (tv b 1) (tm (1 + b) 1 1) (Some (Functions.Scalar ReLU)) (tv (2 + b) 1) (tv (3 + b) 1) (tv (4 + b) 1) (tm (5 + b) 1 1) (tv (6 + b) 1) (tm (7 + b) 1 1) (tv (8 + b) 1) false.
Definition one_data (k : Z) : contents double := fun r i => match r with RB => pw k | RW _ => pw k | _ => o end.
Definition one_plan : plan := PDense (Functions.Scalar ReLU) 1 1.
Definition n1 : node double := mk_node (LFC (one_fc 0)) one_plan (one_data 1).
Definition n2 : node double := mk_node (LFC (one_fc 9)) one_plan (one_data 0).
Definition tr : trainer := mk_trainer (tv 20 1) (Some MSE).
Definition xv (i : Z) : double := pw 3.
Definition yv (i : Z) : double := pw 0.
Lemma one_fits b : fits (LFC (one_fc b)) one_plan.
Proof.
  split; [|repeat split; discriminate]. unfold fc_dims. do 5 (split; [lia || reflexivity|]). split; [|split; [|reflexivity]]; intros t H; cbn in H;
    repeat destruct H as [<-|H]; try tauto; try reflexivity; unfold mat_is; cbn; repeat split; lia.
Qed.
Lemma one_block b b' : block_in (LFC (one_fc b)) b' -> (b <= b' < 9 + b)%nat.
Proof. intros (r & t & E & Eb). destruct r as [|[]| | | |[]| | | |]; cbn in E; try discriminate; injection E as <-; cbn in Eb; lia. Qed.
Lemma one_cell (m : mem double) i b c : nth_error m (i + b) = Some (Some [Some c]) -> live m (i + b) 1 /\ elem m (Ptr (i + b) 0) 0 = Some (Some c).
Proof. intros E. split; [exists [Some c]; auto|]. unfold elem. cbn. unfold cell. rewrite E. reflexivity. Qed.
Lemma one_at (m : mem double) b k : (forall i c, nth_error (one_blocks k) i = Some c -> nth_error m (i + b) = Some c) -> layer_at m (LFC (one_fc b)) (one_data k).
Proof.
  intros H. assert (N : forall i c, nth_error (one_blocks k) i = Some (Some [Some c]) -> live m (i + b) 1 /\ elem m (Ptr (i + b) 0) 0 = Some (Some c)).
  { intros i v E. apply one_cell, H, E. }
  split.
  - assert (Q : forall r (v : double) i, nth_error (one_blocks k) i = Some (Some [Some v]) -> one_data k r 0%Z = v ->
      owner m (tv (i + b) 1) 1 /\ holds m (Ptr (i + b) 0) 1 (one_data k r)).
    { intros r v i E Ev. destruct (N i v E) as [N1 N2]. split; [split; [reflexivity|]; exists (i + b)%nat; split; [reflexivity|exact N1]|].
      intros z Hz. replace z with 0%Z by lia. rewrite Ev. exact N2. }
    intros r t E. destruct r as [|[]| | | |[]| | | |]; cbn in E; try discriminate; injection E as <-.
    + exact (Q RB (pw k) 0%nat eq_refl eq_refl).
    + exact (Q (RW 0) (pw k) 1%nat eq_refl eq_refl).
    + exact (Q RValue o 2%nat eq_refl eq_refl).
    + exact (Q RBuff o 3%nat eq_refl eq_refl).
    + exact (Q RGradB o 4%nat eq_refl eq_refl).
    + exact (Q (RGradW 0) o 5%nat eq_refl eq_refl).
    + exact (Q RGradBs o 6%nat eq_refl eq_refl).
    + exact (Q RGradWs o 7%nat eq_refl eq_refl).
    + exact (Q RDelta o 8%nat eq_refl eq_refl).
  - intros r r' t t' E E' Hne. destruct r as [|[]| | | |[]| | | |]; cbn in E; try discriminate; injection E as <-;
    destruct r' as [|[]| | | |[]| | | |]; cbn in E'; try discriminate; injection E' as <-; cbn; try congruence; lia.
Qed.
Lemma two_at : net_at m0 [n1; n2].
Proof.
  split.
  - constructor; [|constructor; [|constructor]]; (split; [apply one_fits|]); cbn [n_layer n_data n1 n2]; apply one_at; intros i c E.
    + do 9 (destruct i as [|i]; [exact E|]). destruct i; discriminate.
    + do 9 (destruct i as [|i]; [exact E|]). destruct i; discriminate.
  - constructor; [|constructor; [|constructor]; constructor]. constructor; [|constructor]. intros b' H1 H2. apply one_block in H1, H2. lia.
Qed.
Lemma two_outside b : (18 <= b)%nat -> net_outside [n1; n2] (Ptr b 0).
Proof. intros Hb (d & Hd & Bd). cbn in Hd. destruct Hd as [<-|[<-|[]]]; apply one_block in Bd; lia. Qed.
Lemma two_sample : sample_at m0 [n1; n2] (tv 18 1) xv.
Proof. split; [cbn; auto|]. split; [|apply two_outside; lia]. intros i Hi. change (t_size (tv 18 1)) with 1%Z in Hi. replace i with 0%Z by lia. reflexivity. Qed.
Lemma two_trainer : trainer_at m0 [n1; n2] tr MSE.
Proof.
  split; [reflexivity|]. split; [cbn; auto|]. split; [apply two_outside; lia|]. split; [reflexivity|]. exists 20%nat. split; [reflexivity|]. exists [Some o]. split; reflexivity.
Qed.
Lemma two_target : target_at m0 [n1; n2] tr (tv 19 1) yv.
Proof.
  split; [|split; [apply two_outside; lia|]].
  - intros i Hi. replace i with 0%Z by (cbn in Hi; lia). reflexivity.
  - intros b i [E _] [E' _]. congruence.
Qed.
Lemma two_sound : Forall sound_layer [n1; n2].
Proof. constructor; [|constructor; [|constructor]]; split; intros i Hi; apply PropFloatLayers.Examples.pw_ok; lia. Qed.

Lemma tiny K M A : (0 <= K <= 3)%Z -> (0 <= M <= 2)%Z -> 0 <= A <= 1000 -> 0 <= roundings 53 1024 K M A <= / 100.
Proof.
  intros HK HM HA. unfold roundings.
  assert (U1 : uro 53 <= / 1048576) by (unfold uro; change (/ 1048576) with (bpow radix2 (-20)); apply bpow_le; lia). pose proof (u_pos (prec := 53)) as U0.
  assert (E1 : eta 53 1024 <= / 1048576) by (unfold eta; change (/ 1048576) with (bpow radix2 (-20)); apply bpow_le; lia). pose proof (eta_pos (prec := 53) (emax := 1024)) as E0.
  assert (P1 : 1 <= (1 + uro 53) ^ Z.to_nat K) by apply one_le_pow.
  assert (P3 : (1 + uro 53) ^ Z.to_nat K <= 1 + / 200000).
  { apply Rle_trans with ((1 + uro 53) ^ 3); [apply Rle_pow; [lra|lia]|]. apply Rle_trans with ((1 + / 1048576) ^ 3); [apply pow_incr; lra|]. cbn [pow]. lra. }
  assert (M2 : 0 <= IZR M <= 2) by (split; [change 0 with (IZR 0)|change 2 with (IZR 2)]; apply IZR_le; lia).
  set (q := (1 + uro 53) ^ Z.to_nat K) in *. clearbody q. set (h := eta 53 1024) in *. clearbody h. set (n := IZR M) in *. clearbody n.
  assert (0 <= (q - 1) * A <= / 200000 * 1000) by (split; [apply Rmult_le_pos; lra|apply Rmult_le_compat; lra]).
  assert (0 <= n * h <= 2 * / 1048576) by (split; [apply Rmult_le_pos; lra|apply Rmult_le_compat; lra]).
  assert (0 <= n * h * q <= 2 * / 1048576 * 2) by (split; [apply Rmult_le_pos; lra|apply Rmult_le_compat; lra]). lra.
Qed.
Lemma far : 2000 < big 1024.
Proof. apply Rlt_trans with (bpow radix2 16); [change (bpow radix2 16) with 65536; lra|apply bpow_lt; lia]. Qed.
Lemma rsum1 (f : Z -> R) : RealSpec.rsum 1 f = f 0%Z.
Proof. unfold RealSpec.rsum. change 1%Z with (0 + 1)%Z. rewrite zsum_S, zsum_0 by lia. cbn [add zero Num_R]. apply Rplus_0_l. Qed.

(** a layer of one input [X] and one output, with weight and bias [w] *)
Section One.
Context (c w X E : R) (s : contents R) (x e : Z -> R) (Hb : s RB 0%Z = w) (Hw : s (RW 0) 0%Z = w) (Hx : x 0%Z = X) (Hee : e 0%Z = E)
  (W : 1 <= w <= 2) (XX : 8 <= X <= 20) (EE : 0 <= E <= / 10).
Lemma one_pre (f b v : Z -> R) : dense_pre 1 1 b v f 0 = f 0%Z * v 0%Z + b 0%Z.
Proof. unfold dense_pre. now rewrite rsum1. Qed.
Lemma one_mag : magnitude one_plan s x e 0 = (X + E) * w + w.
Proof. cbn [magnitude one_plan]. rewrite one_pre, Hb, Hw, Hx, Hee, !Rabs_pos_eq by lra. reflexivity. Qed.
Lemma one_mag_le : 0 <= (X + E) * w + w <= 50.
Proof. nra. Qed.
Lemma one_rounds : 0 <= rounds (prec := 53) (emax := 1024) one_plan (magnitude one_plan s x e 0) <= / 100.
Proof. cbn [rounds one_plan]. fold one_plan. rewrite one_mag. pose proof one_mag_le. apply tiny; [lia|lia|lra]. Qed.
Lemma one_spread : spread one_plan s e 0 = E * w.
Proof. cbn [spread one_plan]. rewrite one_pre, Hw, Hee, Rabs_pos_eq by lra. ring. Qed.
Lemma one_real : real_layer one_plan s x 0 = X * w + w.
Proof. clear Hee EE e E. change (std_act ReLU (dense_pre 1 1 (s RB) (s (RW 0)) x 0) = X * w + w). rewrite one_pre, Hb, Hw, Hx. cbn [std_act]. unfold Rmax. destruct Rle_dec; nra. Qed.
Lemma one_drift : 0 <= layer_drift (prec := 53) (emax := 1024) c one_plan s x e 0 <= 2 * E + / 100.
Proof.
  pose proof one_rounds as Q. pose proof one_spread as Sp. unfold layer_drift. cbv zeta. cbn [one_plan act_drift gain noise]. fold one_plan. rewrite Sp. nra.
Qed.
Lemma one_safe l : safe (prec := 53) (emax := 1024) c l (real_layer one_plan s x) (layer_drift (prec := 53) (emax := 1024) c one_plan s x e) ->
  safe (prec := 53) (emax := 1024) c ((one_plan, s) :: l) x e.
Proof.
  intros H. cbn [safe one_plan]. fold one_plan. split; [repeat split; discriminate|]. split; [|exact H]. intros o Ho. cbn [out_count one_plan] in Ho. replace o with 0%Z by lia. cbv zeta.
  pose proof one_rounds. rewrite one_mag in *. pose proof one_mag_le. pose proof far. lra.
Qed.
Notation ReLU' := (Functions.Scalar ReLU).
Context (D eD : R) (d ed : Z -> R) (Hd : d 0%Z = D) (Hed : ed 0%Z = eD) (DD : 0 <= D <= 40) (ED : 0 <= eD <= / 2).
Lemma one_prev : pre 1 1 s x 0 = X * w + w.
Proof. clear Hee EE e E Hd Hed DD ED d ed D eD. unfold pre. now rewrite one_pre, Hb, Hw, Hx. Qed.
Lemma one_pre_err : 0 <= pre_err (prec := 53) (emax := 1024) ReLU' 1 1 s x e 0 <= 2 * E + / 100.
Proof. pose proof one_rounds as Q. pose proof one_spread as Sp. unfold pre_err. cbv zeta. fold one_plan. rewrite Sp. nra. Qed.
Lemma one_slope : act_slope ReLU' (pre 1 1 s x 0) = 1.
Proof. clear Hee EE e E Hd Hed DD ED d ed D eD.
  rewrite one_prev. cbn [act_slope]. change (scalar_df ReLU (X * w + w)) with (if Rltb 0 (X * w + w) then 1 else 0). unfold Rltb. destruct (Rlt_dec 0 (X * w + w)); [reflexivity|nra].
Qed.
Lemma one_slope_err v : slope_err (prec := 53) c ReLU' v = 0.
Proof. cbn [slope_err slope_gain slope_noise]. ring. Qed.
Lemma one_bias : bias_grad ReLU' 1 1 s x d 0 = D.
Proof. clear Hee EE e E Hed DD ED ed eD. unfold bias_grad. rewrite one_slope, Hd. ring. Qed.
Lemma one_bias_err : 0 <= bias_err (prec := 53) (emax := 1024) c ReLU' 1 1 s x e d ed 0 <= eD + / 100.
Proof.
  unfold bias_err, prod_err, prod_size. rewrite one_slope_err, one_slope, Hd, Hed, Rabs_R1, (Rabs_pos_eq D) by lra.
  pose proof (tiny 1 1 ((1 + 0) * (D + eD)) ltac:(lia) ltac:(lia) ltac:(lra)). lra.
Qed.
Lemma one_delta : delta_val ReLU' 1 1 s x d 0 = w * D.
Proof. clear Hee EE e E Hed DD ED ed eD. unfold delta_val. rewrite rsum1. cbn [Z.mul Z.add]. now rewrite one_bias, Hw. Qed.
Lemma one_delta_size : 0 <= delta_size (prec := 53) (emax := 1024) c ReLU' 1 1 s x e d ed 0 <= 100.
Proof. unfold delta_size. rewrite rsum1. cbn [Z.mul Z.add]. rewrite one_bias, Hw, !Rabs_pos_eq by lra. pose proof one_bias_err. split; [nra|]. apply Rle_trans with (2 * 41); [apply Rmult_le_compat; lra|lra]. Qed.
Lemma one_delta_err : 0 <= delta_err (prec := 53) (emax := 1024) c ReLU' 1 1 s x e d ed 0 <= 2 * (eD + / 100) + / 100.
Proof.
  unfold delta_err. rewrite rsum1. cbn [Z.mul Z.add]. rewrite Hw, Rabs_pos_eq by lra. pose proof one_bias_err. pose proof one_delta_size.
  pose proof (tiny (1 + 1) 1 (delta_size (prec := 53) (emax := 1024) c ReLU' 1 1 s x e d ed 0) ltac:(lia) ltac:(lia) ltac:(lra)).
  assert (0 <= w * bias_err (prec := 53) (emax := 1024) c ReLU' 1 1 s x e d ed 0 <= 2 * (eD + / 100)) by (split; [nra|apply Rmult_le_compat; lra]). cbn [Z.add Pos.add] in *. lra.
Qed.
Lemma one_corner : ~ corner ReLU (dense_pre 1 1 (s RB) (s (RW 0)) x 0).
Proof. clear Hee EE e E Hd Hed DD ED d ed D eD. rewrite one_pre, Hb, Hw, Hx. cbn [corner]. nra. Qed.
Lemma one_back_safe full : layer_back_safe (prec := 53) (emax := 1024) c ReLU' 1 1 s x e d ed full.
Proof.
  pose proof far as Fb. split; [repeat split; discriminate|]. split; [|split; [|split]].
  - intros j Hj z Hz. replace j with 0%Z in Hz by lia. rewrite one_prev in Hz. pose proof one_pre_err. cbn [corner]. intros ->. rewrite Rabs_minus_sym, Rminus_0_r, Rabs_pos_eq in Hz by nra. nra.
  - intros j Hj. replace j with 0%Z by lia. cbv zeta. unfold prod_size. rewrite one_slope_err, one_slope, Hd, Hed, Rabs_R1, (Rabs_pos_eq D) by lra.
    pose proof (tiny 1 1 ((1 + 0) * (D + eD)) ltac:(lia) ltac:(lia) ltac:(lra)). lra.
  - intros o Ho. replace o with 0%Z by lia. cbv zeta. unfold prod_size. change (0 / 1)%Z with 0%Z. change (0 mod 1)%Z with 0%Z. rewrite one_bias, Hx, Hee, !Rabs_pos_eq by lra. pose proof one_bias_err as B.
    set (b := bias_err _ _ _ _ _ _ _ _ _ _) in *. assert (0 <= (X + E) * (D + b) <= 21 * 41) by (split; [nra|apply Rmult_le_compat; lra]).
    pose proof (tiny 1 1 ((X + E) * (D + b)) ltac:(lia) ltac:(lia) ltac:(lra)). lra.
  - intros _ i Hi. replace i with 0%Z by lia. pose proof one_delta_size. pose proof (tiny (1 + 1) 1 (delta_size (prec := 53) (emax := 1024) c ReLU' 1 1 s x e d ed 0) ltac:(lia) ltac:(lia) ltac:(lra)). lra.
Qed.
End One.

Definition xr (i : Z) : R := 8.
Definition e0 (i : Z) : R := 0.
Lemma in0 i : fin (xv i) /\ Rabs (B2R (xv i) - xr i) <= e0 i.
Proof. destruct (PropFloatLayers.Examples.pw_ok 3 ltac:(lia)) as [F E]. split; [exact F|]. unfold xv, xr, e0. rewrite E. change (bpow radix2 3) with 8. rewrite Rminus_eq_0, Rabs_R0. lra. Qed.
Notation sd k := (fun r i => B2R (one_data k r i)).
Lemma sd1 r : r = RB \/ r = RW 0 -> sd 1 r 0%Z = 2.
Proof. intros [-> | ->]; exact (proj2 (PropFloatLayers.Examples.pw_ok 1 ltac:(lia))). Qed.
Lemma sd0 r : r = RB \/ r = RW 0 -> sd 0 r 0%Z = 1.
Proof. intros [-> | ->]; exact (proj2 (PropFloatLayers.Examples.pw_ok 0 ltac:(lia))). Qed.
Section Values.
Context (c : R).
Notation y1 := (real_layer one_plan (sd 1) xr).
Notation e1 := (layer_drift (prec := 53) (emax := 1024) c one_plan (sd 1) xr e0).
Notation y2 := (real_layer one_plan (sd 0) y1).
Notation e2 := (layer_drift (prec := 53) (emax := 1024) c one_plan (sd 0) y1 e1).
Lemma y1_val : y1 0%Z = 18.
Proof. rewrite (one_real 2 8) by (try (apply sd1; auto); try reflexivity; lra). lra. Qed.
Lemma e1_val : 0 <= e1 0%Z <= / 100.
Proof. pose proof (one_drift c 2 8 0 (sd 1) xr e0 (sd1 _ (or_introl eq_refl)) (sd1 _ (or_intror eq_refl)) eq_refl eq_refl ltac:(lra) ltac:(lra) ltac:(lra)). lra. Qed.
Lemma y2_val : y2 0%Z = 19.
Proof. rewrite (one_real 1 18) by (try (apply sd0; auto); try exact y1_val; lra). lra. Qed.
Lemma e2_val : 0 <= e2 0%Z <= 3 / 100.
Proof. pose proof e1_val. pose proof (one_drift c 1 18 _ (sd 0) y1 e1 (sd0 _ (or_introl eq_refl)) (sd0 _ (or_intror eq_refl)) y1_val eq_refl ltac:(lra) ltac:(lra) ltac:(lra)). lra. Qed.
Lemma two_safe : safe (prec := 53) (emax := 1024) c (exact [n1; n2]) xr e0.
Proof.
  change (exact [n1; n2]) with [(one_plan, sd 1); (one_plan, sd 0)]. pose proof e1_val.
  apply (one_safe c 2 8 0); try (apply sd1; auto); try reflexivity; try lra.
  apply (one_safe c 1 18 (e1 0%Z)); try (apply sd0; auto); try exact y1_val; try reflexivity; try exact I; lra.
Qed.
Lemma two_smooth : smooth (exact [n1; n2]) xr.
Proof.
  change (exact [n1; n2]) with [(one_plan, sd 1); (one_plan, sd 0)]. cbn [smooth one_plan]. split; [split; [discriminate|]|split; [split; [discriminate|]|exact I]]; intros j Hj; replace j with 0%Z by lia.
  - apply (one_corner 2 8 (sd 1) xr); try (apply sd1; auto); try reflexivity; lra.
  - fold one_plan. apply (one_corner 1 18 (sd 0) y1); try (apply sd0; auto); try exact y1_val; lra.
Qed.
Notation d := (loss_slope MSE (reals yv) y2).
Notation ed := (loss_err (prec := 53) c MSE (reals yv) y2 e2).
Lemma t_val : reals yv 0%Z = 1.
Proof. exact (proj2 (PropFloatLayers.Examples.pw_ok 0 ltac:(lia))). Qed.
Lemma d_val : d 0%Z = 18.
Proof. cbn [loss_slope]. rewrite y2_val, t_val. lra. Qed.
Lemma u_tiny : 0 < uro 53 <= / 1048576.
Proof. split; [apply u_pos|]. unfold uro. change (/ 1048576) with (bpow radix2 (-20)). apply bpow_le. lia. Qed.
Lemma size_val : 0 <= loss_size (reals yv) y2 e2 0 <= 19.
Proof. unfold loss_size. rewrite y2_val, t_val. pose proof e2_val. rewrite Rabs_pos_eq by lra. lra. Qed.
Lemma ed_val : 0 <= ed 0%Z <= 4 / 100.
Proof. unfold loss_err. pose proof size_val. pose proof e2_val. pose proof u_tiny. assert (0 <= uro 53 * loss_size (reals yv) y2 e2 0 <= / 1048576 * 19) by (split; [nra|apply Rmult_le_compat; lra]). lra. Qed.
Lemma two_back_safe : back_safe (prec := 53) (emax := 1024) c false (exact [n1; n2]) xr e0 d ed.
Proof.
  change (exact [n1; n2]) with [(one_plan, sd 1); (one_plan, sd 0)]. pose proof e1_val. pose proof ed_val as Q.
  cbn [back_safe one_plan back]. fold one_plan. cbv zeta. cbn [fst snd].
  pose proof (one_delta_err c 1 18 (sd 0) y1 e1 (sd0 _ (or_introl eq_refl)) (sd0 _ (or_intror eq_refl)) y1_val ltac:(lra) ltac:(lra) 18 (ed 0%Z) d ed d_val eq_refl ltac:(lra) ltac:(lra)) as DE.
  pose proof (one_delta 1 18 (sd 0) y1 (sd0 _ (or_introl eq_refl)) (sd0 _ (or_intror eq_refl)) y1_val ltac:(lra) ltac:(lra) 18 d d_val) as DV.
  split; [|split; [|exact I]].
  - eapply (one_back_safe c 2 8 0); try (apply sd1; auto); try reflexivity; try exact DV; try lra.
  - eapply (one_back_safe c 1 18 (e1 0%Z)); try (apply sd0; auto); try exact y1_val; try exact d_val; try reflexivity; lra.
Qed.
End Values.
Example C131_applies : exists out m1 m2 l2, net_feedforward (layers [n1; n2]) (tv 18 1) m0 = Ok (out, m1) /\
  tr_backprop (layers [n1; n2]) tr (tv 18 1) (tv 19 1) m1 = Ok (tt, m2) /\ net_at m2 l2 /\ length l2 = 2%nat.
Proof.
  pose proof (C131_gradient_error (prec := 53) (emax := 1024) ltac:(lia) ltac:(lia) ltac:(lia) lib PropFloatLayers.Examples.lib_ok (2 * uro 53) PropFloatNet.Examples.lib_acc (cr_lib_cosh (prec := 53) (emax := 1024) ltac:(lia) ltac:(lia))
    m0 [n1; n2] tr MSE (tv 18 1) xv (tv 19 1) yv xr e0) as Q.
  destruct Q as (out & m1 & m2 & l2 & E1 & E2 & A & L & _).
  - cbn. lia.
  - repeat constructor; exact I.
  - exact two_at.
  - exact two_trainer.
  - exact two_sample.
  - intros b i [E _] [E' _]. congruence.
  - exact two_target.
  - exact two_sound.
  - intros i _. apply in0.
  - apply two_safe.
  - intros j Hj. change (out_count (final_plan [n1; n2])) with 1%Z in Hj. replace j with 0%Z by lia. split; [apply PropFloatLayers.Examples.pw_ok; lia|].
    pose proof (size_val (2 * uro 53)) as S1. pose proof u_tiny. pose proof far.
    set (v := loss_size _ _ _ _) in *. assert (v * (1 + uro 53) <= 19 * 2) by (apply Rmult_le_compat; lra). lra.
  - discriminate.
  - apply two_smooth.
  - left. reflexivity.
  - apply two_back_safe.
  - exists out, m1, m2, l2. do 3 (split; [assumption|]). apply (f_equal (@length _)) in L. unfold layers in L. rewrite !map_length in L. exact L.
Qed.
End Examples.
Print Assumptions C131_gradient_error.
Print Assumptions cr_lib_cosh.

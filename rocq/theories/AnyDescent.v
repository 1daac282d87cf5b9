(** * Small steps of the optimizers (proofs for C113, C114) *)
From Coq Require Import QArith Reals Lra FunctionalExtensionality.
From Coquelicot Require Import Coquelicot.
From Verif Require Import Mem Scalar MemSpec MemLemmas Lique LiqueSpec LiqueProofs LiqueProofs2 Linear LinearProofs Functions FunctionSpec FunctionProofs
  Optimizer OptimizerSpec OptimizerProofs OptimizerHist PropOptimizers Layer LayerSpec FCProofs Cells ConvSpec ConvProofs ConvProofs2 PoolSpec PoolProofs RSum RealSpec ActivationProofs LossProofs NetSpec Vjp ConvVjp
  PropFunctions PropFC PropConv PropPool Net NetPlan NetProofs NetBack PropNet NetReal NetGrad PropNetGrad NetTotal Checker PropChecker Schedule PropTraining Descent DescentSpec DescentReal PropDescent
  OptTrain OptTrainSpec OptTrainReal AnyDescentSpec.
Local Open Scope R_scope.

(** ** the bilinear form *)
Lemma gdot_prod p g s g' s' : (forall r j, is_param p r j -> g r j * s r j = g' r j * s' r j) -> gdot p g s = gdot p g' s'.
Proof.
  intros E. destruct p as [a n k|q|a q]; cbn [gdot]; [| |reflexivity].
  - f_equal; apply rsum_ext; intros j Hj; apply E; cbn; auto.
  - f_equal; [apply rsum_ext; intros j Hj; apply E; cbn; auto|]. apply rsum_ext. intros f Hf. apply rsum_ext. intros o Ho. apply E; cbn; auto.
Qed.
Lemma gtotal_prod ps : forall g s g' s', (forall i p r j, nth_error ps i = Some p -> is_param p r j -> g i r j * s i r j = g' i r j * s' i r j) -> gtotal ps g s = gtotal ps g' s'.
Proof.
  induction ps as [|p ps IH]; intros g s g' s' E; [reflexivity|]. cbn [gtotal]. f_equal.
  - apply gdot_prod. intros r j P. apply (E O p r j eq_refl P).
  - apply IH. intros i q r j Q P. apply (E (S i) q r j Q P).
Qed.
Lemma gtotal_sym ps g s : gtotal ps g s = gtotal ps s g.
Proof. apply gtotal_prod. intros. ring. Qed.
Lemma gtotal_neg ps g s : (forall i p r j, nth_error ps i = Some p -> is_param p r j -> g i r j * s i r j <= 0) ->
  forall i p r j, nth_error ps i = Some p -> is_param p r j -> g i r j * s i r j < 0 -> gtotal ps g s < 0.
Proof.
  intros H i p r j E P N. set (h := fun i r j => sqrt (- (g i r j * s i r j))).
  assert (Q : gtotal ps g (fun i r j => -1 * s i r j) = gtotal ps h h).
  { apply gtotal_prod. intros i' p' r' j' E' P'. unfold h. pose proof (H i' p' r' j' E' P'). rewrite sqrt_def by lra. ring. }
  rewrite gtotal_scal in Q. assert (0 < gtotal ps h h); [|lra]. apply (gtotal_self_pos ps h i p r j E P). unfold h. intros Z. apply sqrt_eq_0 in Z; lra.
Qed.

Lemma gtotal_scal_l ps g c s : gtotal ps (fun i r j => c * g i r j) s = c * gtotal ps g s.
Proof. rewrite gtotal_sym, gtotal_scal, gtotal_sym. reflexivity. Qed.
Lemma gtotal_plus_r ps g s s' : gtotal ps g (fun i r j => s i r j + s' i r j) = gtotal ps g s + gtotal ps g s'.
Proof. rewrite gtotal_sym, gtotal_plus, !(gtotal_sym ps _ g). reflexivity. Qed.
Lemma gtotal_affine ps a b t : gtotal ps (fun i r j => a i r j + t * b i r j) (fun i r j => a i r j + t * b i r j) = gtotal ps a a + t * (2 * gtotal ps a b) + t * t * gtotal ps b b.
Proof.
  rewrite gtotal_plus, !gtotal_plus_r, !gtotal_scal_l, (gtotal_scal ps b), (gtotal_scal ps a t b).
  change (fun (i : nat) (r : role) (j : Z) => a i r j) with a. rewrite (gtotal_sym ps b a). ring.
Qed.

(** ** moving along a line *)
Lemma decreases_near (phi : R -> R) K : is_derive phi 0 K -> K < 0 -> exists eps, 0 < eps /\ forall t, 0 < t < eps -> phi t < phi 0.
Proof.
  intros D HK. apply is_derive_Reals in D. destruct (D (- K / 2) ltac:(lra)) as (del & Hd). exists (pos del). split; [apply cond_pos|]. intros t [L1 L2].
  specialize (Hd t ltac:(lra) ltac:(rewrite Rabs_pos_eq; lra)). rewrite Rplus_0_l in Hd. apply Rabs_def2 in Hd as [Hd _].
  assert (Q : (phi t - phi 0) / t < K / 2) by lra. apply (Rmult_lt_compat_r t) in Q; [|lra]. unfold Rdiv in Q at 1. rewrite Rmult_assoc, Rinv_l, Rmult_1_r in Q by lra. nra.
Qed.
(** ** the sum of the squares *)
Lemma squares_all ps : forall c, sum_of_squares (with_all ps c) = gtotal ps c c.
Proof. induction ps as [|p ps IH]; intros c; [reflexivity|]. cbn [with_all sum_of_squares gtotal]. rewrite IH. destruct p; reflexivity. Qed.
Lemma squares_total l : sum_of_squares (to_model l) = gtotal (plans l) (datas l) (datas l).
Proof. rewrite to_model_all. apply squares_all. Qed.
Lemma squares_partial (l : list (node R)) i d r j : nth_error l i = Some d -> is_param (n_plan d) r j ->
  partial (fun v => sum_of_squares (with_param (to_model l) i r v)) (n_data d r) j (2 * n_data d r j).
Proof.
  intros E P. unfold partial. apply is_derive_Reals. set (w := n_data d r j). set (u := unit_dir i r j).
  assert (Ep : nth_error (plans l) i = Some (n_plan d)) by exact (map_nth_error n_plan i l E).
  apply (is_derive_ext (fun t => gtotal (plans l) (datas l) (datas l) + (t - w) * (2 * w) + (t - w) * (t - w))).
  - intros t. symmetry. change R in (type of t). rewrite <- with_all_param, squares_all. set (cv := one_param l i r (upd (n_data d r) j t)).
    assert (Ec : forall i' p' r' j', nth_error (plans l) i' = Some p' -> is_param p' r' j' -> cv i' r' j' = datas l i' r' j' + (t - w) * u i' r' j').
    { intros i' p' r' j' _ _. unfold cv, one_param, u, unit_dir, unit_at. destruct (Nat.eqb_spec i' i) as [->|N]; [|ring]. unfold set_role, upd, datas. rewrite E.
      destruct (role_eq_dec r' r) as [->|Nr]; [|ring]. destruct (Z.eqb_spec j' j) as [->|Nj]; unfold w; try ring. }
    rewrite (gtotal_ext _ cv (fun i r j => datas l i r j + (t - w) * u i r j) cv (fun i r j => datas l i r j + (t - w) * u i r j)) by exact Ec.
    assert (U1 : gtotal (plans l) (datas l) u = w). { unfold u. rewrite (gtotal_unit (plans l) (datas l) i (n_plan d) r j Ep P). unfold datas. now rewrite E. }
    assert (U2 : gtotal (plans l) u u = 1). { unfold u at 2. rewrite (gtotal_unit (plans l) u i (n_plan d) r j Ep P). unfold u, unit_dir, set_role, unit_at. rewrite Nat.eqb_refl. destruct (role_eq_dec r r); [|congruence]. now rewrite Z.eqb_refl. }
    rewrite gtotal_affine, U1, U2, Rmult_1_r. reflexivity.
  - auto_derive; auto. ring.
Qed.
Section Line.
Context (lo : loss) (xs ys : Z -> Z -> R) (is : list Z) (l : list (node R)) (s0 : shape) (f : R -> list (node R)) (s1 : nat -> contents R).
Context (Hi : is <> []) (Sd : Forall sound l) (W : wired s0 (plans l)) (Sm : smooth_on lo (to_model l) xs ys is).
Context (Fp : forall t, plans (f t) = plans l) (Fl : forall t i d r j, nth_error l i = Some d -> params_role r -> datas (f t) i r j = n_data d r j + t * s1 i r j).
Lemma line_derive : is_derive (fun t => mean_loss lo (to_model (f t)) xs ys is) 0 (gtotal (plans l) (mean_grad lo xs ys is l) s1).
Proof.
  assert (Ne : l = [] \/ l <> []) by (destruct l; [left|right]; congruence).
  destruct Ne as [El|Ne].
  { rewrite El in *. cbn [plans map gtotal]. apply (is_derive_ext (fun _ => mean_loss lo [] xs ys is)); [|apply (is_derive_const (K := R_AbsRing) (V := R_NormedModule))].
    intros t. f_equal. pose proof (Fp t) as Q. destruct (f t); [reflexivity|discriminate]. }
  assert (Pc : pcurves l (fun i t => datas (f t) i) 0 s1).
  { intros i d E.
    assert (Dr : forall r j, params_role r -> is_derive (fun t => datas (f t) i r j) 0 (s1 i r j)).
    { intros r j P. apply (is_derive_ext (fun t => n_data d r j + t * s1 i r j)); [intros; now rewrite (Fl t i d r j E P)|]. auto_derive; auto. ring. }
    split; [intros; rewrite (Fl 0 i d _ _ E) by exact Logic.I; ring|]. split; [intros; rewrite (Fl 0 i d _ _ E) by exact Logic.I; ring|]. split; intros; apply Dr; exact Logic.I. }
  pose proof (mean_derive lo xs ys is l s0 Hi Ne Sd W Sm _ _ _ Pc) as D. evar_last.
  { eapply is_derive_ext; [|exact D]. intros t. cbv beta. f_equal. rewrite (to_model_all (f t)), Fp. reflexivity. }
  reflexivity.
Qed.
Lemma line_start : mean_loss lo (to_model (f 0)) xs ys is = mean_loss lo (to_model l) xs ys is /\ Forall2 same_params l (f 0).
Proof.
  assert (F0 : Forall2 same_params l (f 0)).
  { apply Forall2_nth. { pose proof (f_equal (@length _) (Fp 0)) as Q. unfold plans in Q. now rewrite !map_length in Q. }
    intros i a b Ea Eb. assert (Ep : n_plan b = n_plan a).
    { pose proof (f_equal (fun q => nth_error q i) (Fp 0)) as Q. cbv beta in Q. unfold plans in Q. rewrite !nth_error_map, Ea, Eb in Q. now injection Q. }
    assert (H : forall r j, params_role r -> n_data b r j = n_data a r j). { intros r j P. pose proof (Fl 0 i a r j Ea P) as Q. unfold datas in Q. rewrite Eb in Q. rewrite Q. ring. }
    split; [exact Ep|]. split; [|intros f']; apply functional_extensionality; intros j'; apply H; exact Logic.I. }
  split; [|exact F0]. apply msame_mean. now apply same_msame.
Qed.
(** the squares along the line *)
Lemma squares_line t : sum_of_squares (to_model (f t)) = gtotal (plans l) (datas l) (datas l) + t * (2 * gtotal (plans l) (datas l) s1) + t * t * gtotal (plans l) s1 s1.
Proof.
  rewrite squares_total, Fp.
  rewrite (gtotal_prod (plans l) (datas (f t)) (datas (f t)) (fun i r j => (datas l i r j + t * s1 i r j)) (fun i r j => datas l i r j + t * s1 i r j)).
  - apply gtotal_affine.
  - intros i p r j E P. unfold plans in E. rewrite nth_error_map in E. destruct (nth_error l i) as [d|] eqn:Ed; [|discriminate]. injection E as <-.
    rewrite (Fl t i d r j Ed (is_param_role _ _ _ P)). unfold datas. rewrite Ed. reflexivity.
Qed.
Lemma penalised_derive c : is_derive (fun t => penalised lo c xs ys is (to_model (f t))) 0 (gtotal (plans l) (fun i r j => mean_grad lo xs ys is l i r j + c * datas l i r j) s1).
Proof.
  evar_last.
  - unfold penalised. apply (is_derive_plus (K := R_AbsRing) (V := R_NormedModule)); [exact line_derive|].
    apply (is_derive_ext (fun t => c / 2 * (gtotal (plans l) (datas l) (datas l) + t * (2 * gtotal (plans l) (datas l) s1) + t * t * gtotal (plans l) s1 s1))).
    { intros t. now rewrite squares_line. }
    instantiate (1 := c * gtotal (plans l) (datas l) s1). auto_derive; auto. field.
  - unfold plus; cbn -[gtotal]. rewrite gtotal_plus. f_equal. now rewrite gtotal_scal_l.
Qed.
(** directions with the sign of the negative gradient *)
Lemma line_decreases c : (forall i p r j, nth_error (plans l) i = Some p -> is_param p r j -> exists D, 0 < D /\ s1 i r j = - (D * (mean_grad lo xs ys is l i r j + c * datas l i r j))) ->
  not_stationary (penalised lo c xs ys is) (to_model l) ->
  exists eps, 0 < eps /\ forall t, 0 < t < eps -> penalised lo c xs ys is (to_model (f t)) < penalised lo c xs ys is (to_model l).
Proof.
  intros HD (i & p & s & r & j & g & E & P & Pa & Ng).
  assert (E0 : penalised lo c xs ys is (to_model (f 0)) = penalised lo c xs ys is (to_model l)).
  { unfold penalised. rewrite (proj1 line_start), squares_line, squares_total. ring. }
  rewrite <- E0. eapply (decreases_near _ _ (penalised_derive c)).
  unfold to_model in E. rewrite nth_error_map in E. destruct (nth_error l i) as [d|] eqn:Ed; [|discriminate]. injection E as <- <-.
  assert (Ep : nth_error (plans l) i = Some (n_plan d)) by exact (map_nth_error n_plan i l Ed).
  assert (G : mean_grad lo xs ys is l i r j + c * datas l i r j = g).
  { pose proof (mean_partial lo xs ys is l s0 i d r j Hi Sd W Sm Ed P) as Q. pose proof (squares_partial l i d r j Ed P) as Q2.
    unfold partial in *. eapply uniqueness_limite; [|exact Pa]. apply is_derive_Reals. apply is_derive_Reals in Q. apply is_derive_Reals in Q2.
    unfold penalised. evar_last. { apply (is_derive_plus (K := R_AbsRing) (V := R_NormedModule)); [exact Q|]. apply is_derive_scal. exact Q2. }
    unfold plus; cbn -[datas]. unfold datas. rewrite Ed. field. }
  apply (gtotal_neg (plans l) (fun i r j => mean_grad lo xs ys is l i r j + c * datas l i r j) s1) with (i := i) (p := n_plan d) (r := r) (j := j); auto.
  - intros i' p' r' j' E' P'. destruct (HD i' p' r' j' E' P') as (D & D0 & ->). set (q := _ + c * _). nra.
  - destruct (HD i (n_plan d) r j Ep P) as (D & D0 & ->). rewrite G. assert (0 < g * g) by (apply Rsqr_pos_lt in Ng; exact Ng). nra.
Qed.
End Line.

(** ** tensors that are not updated *)
Lemma order_not_params p : forall r, In r (layer_order p) -> params_role r.
Proof.
  intros r H. destruct p as [a n k|g|a q]; cbn [layer_order] in H.
  - destruct H as [<-|[<-|[]]]; exact Logic.I.
  - apply in_app_or in H as [H|[<-|[]]]; [apply in_map_iff in H as (f & <- & _)|]; exact Logic.I.
  - destruct H.
Qed.
Lemma net_other kd lr alpha (st : nst (T := R)) l2 : Forall sound l2 -> Forall2 same_params (ns_l st) l2 ->
  forall i p r j, nth_error (plans (ns_l st)) i = Some p -> params_role r -> ~ In r (layer_order p) ->
  datas (ns_l (o_net kd lr alpha (with_l st l2))) i r j = datas (ns_l st) i r j.
Proof.
  intros S F i p r j Q Pr No. set (st' := o_net kd lr alpha (with_l st l2)).
  assert (Ep : plans l2 = plans (ns_l st)) by now apply same_plans.
  assert (Tl : forall d x t1 t2, In d l2 -> let q := o_layer kd lr alpha d x t1 t2 in os_t1 q = it1 kd (length (n_pairs d)) t1 /\ os_t2 q = it2 kd (length (n_pairs d)) t2).
  { intros d x t1 t2 _. destruct (pairs_fine d) as (N1 & N2 & Fp). destruct (t_fold kd lr (n_pairs d) (mk_ost (n_scaled alpha d) x t1 t2) N1 N2 Fp) as (E1 & E2 & _). auto. }
  destruct (layers_fold kd lr alpha l2 Tl 0 (ns_x st) (ns_t1 st) (ns_t2 st)) as (_ & _ & _ & E3).
  change (o_layers kd lr alpha 0 l2 (ns_x st) (ns_t1 st) (ns_t2 st)) with st' in E3.
  pose proof Q as Qp. rewrite <- Ep in Qp. unfold plans in Qp. rewrite nth_error_map in Qp. destruct (nth_error l2 i) as [d2|] eqn:Ed2; [|discriminate]. injection Qp as Qp.
  assert (S2 : sound d2) by (rewrite Forall_forall in S; apply S; eapply nth_error_In; eauto).
  destruct (E3 i d2 Ed2) as [A _]. cbv zeta in A. cbn [Nat.add] in A. unfold datas at 1. rewrite A. cbn [with_data n_data]. unfold o_layer. destruct (pairs_fine d2) as (N1 & N2 & Fp).
  match goal with |- os_s (fold_left _ _ ?z) r j = _ => destruct (t_fold kd lr (n_pairs d2) z N1 N2 Fp) as (_ & _ & _ & C) end.
  destruct (C r j) as [C2 _]. { rewrite (pairs_order d2 S2), Qp. exact No. }
  rewrite C2.
  - cbn [os_s]. rewrite (scaled_param alpha d2 r j Pr). unfold datas. destruct (nth_error (ns_l st) i) as [d|] eqn:Ed.
    + destruct (nth_Forall2 _ _ _ F i d Ed) as (d2' & Ed2' & Sp). assert (d2' = d2) by congruence. subst d2'. now rewrite (same_params_role d d2 r Sp Pr).
    + exfalso. unfold plans in Q. rewrite nth_error_map, Ed in Q. discriminate.
  - intros H. apply in_map_iff in H as ((a & b) & Eb & H). cbn [snd] in Eb. subst b. rewrite Forall_forall in Fp. destruct (Fp _ H) as [_ P2]. cbn [snd] in P2. destruct r; cbn in *; try contradiction; discriminate.
Qed.
Lemma round_other lo xs ys kd lr (st : nst (T := R)) is : is <> [] -> Forall sound (ns_l st) ->
  forall i p r j, nth_error (plans (ns_l st)) i = Some p -> params_role r -> ~ In r (layer_order p) ->
  datas (ns_l (o_round lo xs ys kd lr st is)) i r j = datas (ns_l st) i r j.
Proof. intros Hi S. destruct (summed_inv lo xs ys is (ns_l st) Hi S) as (S2 & F2 & _). exact (net_other kd lr _ st (summed lo xs ys is (ns_l st)) S2 F2). Qed.

(** ** an update whose changes are proportional to the learning rate *)
Section Rate.
Context (lo : loss) (xs ys : Z -> Z -> R) (kd : R -> opt_kind R) (is : list Z) (st : nst (T := R)) (s0 : shape) (c : R).
Context (Hi : is <> []) (Sd : Forall sound (ns_l st)) (W : wired s0 (plans (ns_l st))) (Nv : no_velocity (to_model (ns_l st))) (Sm : smooth_on lo (to_model (ns_l st)) xs ys is).
Context (Ns : not_stationary (penalised lo c xs ys is) (to_model (ns_l st))).
Context (Af : forall i p k r j, nth_error (plans (ns_l st)) i = Some p -> nth_error (layer_order p) k = Some r -> let q := call_no (plans (ns_l st)) i k in
  forall w g, exists D, (is_param p r j -> 0 < D) /\
  forall lr, e_w (elem_step (kd lr) lr (it1 (kd lr) q (ns_t1 st)) (it2 (kd lr) q (ns_t2 st)) (mk_est w (fst (ns_x st i r j)) (snd (ns_x st i r j))) g) = w - lr * (D * (g + c * w))).
Lemma rate_decreases : exists eps, 0 < eps /\ forall lr, 0 < lr < eps ->
  penalised lo c xs ys is (to_model (ns_l (o_round lo xs ys (kd lr) lr st is))) < penalised lo c xs ys is (to_model (ns_l st)).
Proof.
  set (l := ns_l st) in *. set (f := fun lr => ns_l (o_round lo xs ys (kd lr) lr st is)). set (s1 := fun i r j => datas (f 1) i r j - datas l i r j).
  assert (Mv : forall lr i p k r j, nth_error (plans l) i = Some p -> nth_error (layer_order p) k = Some r -> let q := call_no (plans l) i k in
    datas (f lr) i r j = e_w (elem_step (kd lr) lr (it1 (kd lr) q (ns_t1 st)) (it2 (kd lr) q (ns_t2 st)) (mk_est (datas l i r j) (fst (ns_x st i r j)) (snd (ns_x st i r j))) (G_round lo xs ys is l i r j))).
  { intros lr i p k r j E K. destruct (round_moved lo xs ys (kd lr) lr is st s0 Hi Sd W) as ((_ & _ & _ & M) & _ & _). destruct (M i p k r j E K) as [Q _]. apply (f_equal (@e_w R)) in Q. exact Q. }
  assert (Fl : forall t i d r j, nth_error l i = Some d -> params_role r -> datas (f t) i r j = n_data d r j + t * s1 i r j).
  { intros t i d r j E P. assert (Ep : nth_error (plans l) i = Some (n_plan d)) by exact (map_nth_error n_plan i l E). assert (Ew : datas l i r j = n_data d r j) by (unfold datas; now rewrite E).
    destruct (in_dec role_eq_dec r (layer_order (n_plan d))) as [Hin|Hout].
    - apply In_nth_error in Hin as (k & K). destruct (Af i (n_plan d) k r j Ep K (datas l i r j) (G_round lo xs ys is l i r j)) as (D & _ & HD).
      unfold s1. rewrite (Mv t i _ k r j Ep K), (Mv 1 i _ k r j Ep K). cbv zeta. fold l in HD. rewrite !HD, Ew. ring.
    - unfold s1, f. rewrite (round_other lo xs ys (kd t) t st is Hi Sd i (n_plan d) r j Ep P Hout), (round_other lo xs ys (kd 1) 1 st is Hi Sd i (n_plan d) r j Ep P Hout). fold l. rewrite Ew. ring. }
  assert (Fp : forall t, plans (f t) = plans l). { intros t. destruct (round_moved lo xs ys (kd t) t is st s0 Hi Sd W) as ((Q & _) & _). exact Q. }
  apply (line_decreases lo xs ys is l s0 f s1 Hi Sd W Sm Fp Fl c); [|exact Ns].
  intros i p r j E P. pose proof E as E'. unfold plans in E'. rewrite nth_error_map in E'. destruct (nth_error l i) as [d|] eqn:Ed; [|discriminate]. injection E' as <-.
  destruct (param_ordered _ r j P) as (k & K). destruct (Af i (n_plan d) k r j E K (datas l i r j) (G_round lo xs ys is l i r j)) as (D & D0 & HD). exists D. split; [now apply D0|].
  unfold s1. rewrite (Mv 1 i _ k r j E K). cbv zeta. fold l in HD. rewrite HD.
  assert (G : G_round lo xs ys is l i r j = mean_grad lo xs ys is l i r j).
  { unfold mean_grad, G_round. rewrite (reset_accs l i d r j Sd Ed (is_param_role _ _ _ P)). pose proof (Nv i (n_plan d) (n_data d) r j (nth_to_model l i d Ed) P) as V. destruct (n_plan d); rewrite ?V; lra. }
  rewrite G. ring.
Qed.
End Rate.
(** ** the classes *)
Lemma it1_adam b1 b2 rb1 rb2 n : it1 (Adam b1 b2 rb1 rb2) n 1 = b1 ^ n.
Proof. induction n as [|n IH]; [reflexivity|]. unfold it1 in *. cbn [iter next_t1 pow]. rewrite IH. cbn [mul Num_R]. ring. Qed.
Lemma it2_adam b1 b2 rb1 rb2 n : it2 (Adam b1 b2 rb1 rb2) n 1 = b2 ^ n.
Proof. induction n as [|n IH]; [reflexivity|]. unfold it2 in *. cbn [iter next_t2 pow]. rewrite IH. cbn [mul Num_R]. ring. Qed.
Lemma inv_sqrt_pos x : 0 <= x -> 0 < invert_sqrt x.
Proof. intros H. rewrite inv_sqrt_R. apply Rinv_0_lt_compat, sqrt_lt_R0. assert (0 < eps9) by (unfold eps9; apply Rinv_0_lt_compat, pow_lt; lra). lra. Qed.
Lemma pow_lt1 b n : 0 <= b < 1 -> b ^ S n < 1.
Proof. intros [H1 H2]. induction n as [|n IH]; [cbn; lra|]. cbn [pow] in *. pose proof (pow_le b n H1). nra. Qed.
(** the first step from zero accumulators *)
Lemma class_first mk : optimizer_class mk -> forall q w g, exists D, 0 < D /\
  forall lr, e_w (elem_step (o_kind (mk lr)) lr (it1 (o_kind (mk lr)) (S q) 1) (it2 (o_kind (mk lr)) (S q) 1) (mk_est w 0 0) g) = w - lr * (D * (g + 0 * w)).
Proof.
  intros C q w g. destruct C.
  - exists 1. split; [lra|]. intros lr. cbn -[Rplus Rminus Rmult]. ring.
  - exists 1. split; [lra|]. intros lr. cbn -[Rplus Rminus Rmult]. ring.
  - exists 1. split; [lra|]. intros lr. cbn -[Rplus Rminus Rmult]. ring.
  - exists (1 + mu). split; [lra|]. intros lr. cbn -[Rplus Rminus Rmult]. ring.
  - exists (invert_sqrt (0 + g * g)). split; [apply inv_sqrt_pos; nra|]. intros lr. cbn -[Rplus Rminus Rmult invert_sqrt]. ring.
  - exists (invert_sqrt (0 * beta + g * g * (1 - beta))). split; [apply inv_sqrt_pos; nra|]. intros lr. cbn -[Rplus Rminus Rmult invert_sqrt]. ring.
  - pose proof (pow_lt1 b1 q H). pose proof (pow_lt1 b2 q H0).
    exists (invert_sqrt (1 / (1 - b2 ^ S q) * (0 * b2 + g * g * (1 - b2))) * (1 - b1) * / (1 - b1 ^ S q)).
    split.
    { apply Rmult_lt_0_compat; [apply Rmult_lt_0_compat|]; [apply inv_sqrt_pos| |apply Rinv_0_lt_compat; lra]; [|lra].
      apply Rmult_le_pos; [apply Rlt_le, Rdiv_lt_0_compat; lra|]. nra. }
    intros lr. set (kd := o_kind (adam lr b1 b2)). assert (Ek : kd = Adam b1 b2 (1 - b1) (1 - b2)) by reflexivity. rewrite Ek. rewrite it1_adam, it2_adam. cbn [elem_step e_w]. cbv zeta. cbn [add sub mul div one Num_R].
    set (v := invert_sqrt _). unfold Rdiv at 1. ring.
Qed.
(** AdaGrad and RMSProp at any time *)
Lemma squares_step kd : keeps_squares kd -> forall t1 t2 v s w g, exists D, (0 <= v -> 0 < D) /\
  forall lr, e_w (elem_step kd lr t1 t2 (mk_est w v s) g) = w - lr * (D * (g + 0 * w)).
Proof.
  intros C t1 t2 v s w g. destruct C as [|beta Hb].
  - exists (invert_sqrt (v + g * g)). split; [intros; apply inv_sqrt_pos; nra|]. intros lr. cbn -[Rplus Rminus Rmult invert_sqrt]. ring.
  - exists (invert_sqrt (v * beta + g * g * (1 - beta))). split; [intros; apply inv_sqrt_pos; nra|]. intros lr. cbn -[Rplus Rminus Rmult invert_sqrt]. ring.
Qed.
Lemma squares_nonneg kd : keeps_squares kd -> forall lr t1 t2 v s w g, 0 <= v -> 0 <= e_v (elem_step kd lr t1 t2 (mk_est w v s) g).
Proof.
  intros C lr t1 t2 v s w g Hv. destruct C as [|beta Hb]; cbn -[Rplus Rminus Rmult invert_sqrt].
  - nra.
  - assert (0 <= v * beta) by nra. assert (0 <= g * g * (1 - beta)) by (apply Rmult_le_pos; nra). lra.
Qed.
Definition squares_ok (ps : list plan) (x : nat -> role -> Z -> R * R) : Prop := forall i p r j, nth_error ps i = Some p -> is_param p r j -> 0 <= fst (x i r j).
Lemma round_squares lo xs ys kd lr is (st : nst (T := R)) s0 : keeps_squares kd -> is <> [] -> Forall sound (ns_l st) -> wired s0 (plans (ns_l st)) ->
  squares_ok (plans (ns_l st)) (ns_x st) -> squares_ok (plans (ns_l st)) (ns_x (o_round lo xs ys kd lr st is)).
Proof.
  intros Kd Hi Sd W Sq i p r j E P. destruct (round_moved lo xs ys kd lr is st s0 Hi Sd W) as ((_ & _ & _ & M) & _ & _). destruct (param_ordered _ r j P) as (k & K).
  destruct (M i p k r j E K) as [Q _]. apply (f_equal (@e_v R)) in Q. cbn [est_at e_v] in Q. rewrite Q. apply squares_nonneg; auto. exact (Sq i p r j E P).
Qed.
Lemma rounds_squares lo xs ys kd lr s0 : keeps_squares kd -> forall iss (st : nst (T := R)), Forall (fun is : list Z => is <> []) iss -> Forall sound (ns_l st) -> wired s0 (plans (ns_l st)) ->
  squares_ok (plans (ns_l st)) (ns_x st) -> let st' := fold_left (o_round lo xs ys kd lr) iss st in squares_ok (plans (ns_l st)) (ns_x st') /\ Forall sound (ns_l st').
Proof.
  intros Kd iss. induction iss as [|is iss IH]; intros st Ne Sd W Sq; [split; auto|]. cbn [fold_left]. apply Forall_cons_iff in Ne as [Hi Ne].
  destruct (round_moved lo xs ys kd lr is st s0 Hi Sd W) as ((Ep & _) & Sd' & _). pose proof (round_squares lo xs ys kd lr is st s0 Kd Hi Sd W Sq) as Sq'.
  specialize (IH (o_round lo xs ys kd lr st is) Ne Sd'). rewrite Ep in IH. exact (IH W Sq').
Qed.

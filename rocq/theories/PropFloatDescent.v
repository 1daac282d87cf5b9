(** * Property C132: gradient descent in floating-point arithmetic follows the exact gradient *)
From Coq Require Import ZArith QArith Reals Lra Lia List FunctionalExtensionality.
From Flocq Require Import Core BinarySingleNaN.
From Coquelicot Require Import Coquelicot.
From Verif Require Import Mem Scalar MemSpec MemLemmas Lique LiqueSpec LiqueProofs Linear LinearProofs RSum Functions FunctionSpec FunctionProofs
  Layer LayerSpec FCProofs RealSpec NetSpec ConvSpec Optimizer ActivationProofs LossProofs Vjp PropFC Net NetPlan NetProofs NetBack PropNet NetReal NetGrad PropNetGrad
  Float FloatSpec FloatLemmas FloatLib FloatError FloatAcc FloatStat FloatAct PropFloatAct PropFloatSoftmax PropFloatLayers FloatNetSpec FloatNetAct FloatNetSoft PropFloatNet FloatLoss FloatGradSpec FloatDer PropFloatGrad
  Schedule PropTraining Descent DescentSpec DescentReal PropDescent FloatDescentSpec FloatDescent.
Import ListNotations.
Local Open Scope R_scope.

(** ** the gradients of the network over the reals *)
Lemma real_back (l : list (node R)) : forall x d full, Forall dense_node l -> let rb := run_back (run_fwd l x) x full d in
  (full = true -> delta_in rb d = exact_back (to_model l) x d) /\
  forall i d0, nth_error l i = Some d0 -> exists d2, nth_error rb i = Some d2 /\
    n_data d2 RGradB = fst (exact_gradient (to_model l) i x d) /\ n_data d2 (RGradW 0) = snd (exact_gradient (to_model l) i x d).
Proof.
  induction l as [|n l IH]; intros x d full D.
  - split; [reflexivity|]. intros [|]; discriminate.
  - apply Forall_cons_iff in D as [Dn D]. destruct (dense_fc n Dn) as (L & a & ni & k & EL & Ep). cbv zeta. cbn [run_fwd]. rewrite !run_back_cons.
    assert (V : n_data (fwd n x) RValue = node_out n x) by (cbn [fwd n_data]; apply after_forward_value). rewrite V, (real_dense n a ni k x Ep (proj1 (proj2 Dn))), Ep.
    change (to_model (n :: l)) with ((n_plan n, n_data n) :: to_model l). rewrite Ep. cbn [exact_back exact_gradient]. set (y := real_layer (PDense a ni k) (n_data n) x).
    destruct (IH y d true D) as [I1 I2]. specialize (I1 eq_refl). rewrite I1. set (d' := exact_back (to_model l) y d) in *.
    destruct (dense_bwd n a ni k x d' full Ep (proj1 Dn) (proj1 (proj2 Dn))) as (E1 & E2 & E3 & _). cbv zeta in *. rewrite (grad_b_R n) in E1, E2, E3.
    split.
    + intros Ef. cbn [delta_in]. rewrite (E3 Ef). reflexivity.
    + intros [|i] d0 H0; cbn [nth_error] in *.
      * eexists. split; [reflexivity|]. cbn [fst snd]. rewrite E1, E2. now split.
      * exact (I2 i d0 H0).
Qed.

Lemma with_param_plans th : forall i r v, map fst (with_param th i r v) = map fst th.
Proof. induction th as [|[p s] th IH]; intros [|i] r v; cbn [with_param map fst]; try reflexivity. now rewrite IH. Qed.
Lemma exact_plans {prec emax} (l : list (node (fl prec emax))) : map fst (exact l) = plans l.
Proof. unfold exact, plans. now rewrite map_map. Qed.

Lemma sum_over_cons {A} (f : A -> R) a l : sum_over f (a :: l) = f a + sum_over f l.
Proof. reflexivity. Qed.
Lemma sum_over_snoc {A} (f : A -> R) l k : sum_over f (l ++ [k]) = sum_over f l + f k.
Proof. induction l as [|a l IH]; [unfold sum_over; cbn; lra|]. change (sum_over f ((a :: l) ++ [k])) with (f a + sum_over f (l ++ [k])). rewrite IH, sum_over_cons. lra. Qed.
Lemma sum_over_pos {A} (f : A -> R) l : (forall k, In k l -> 0 <= f k) -> 0 <= sum_over f l.
Proof.
  induction l as [|a l IH]; intros H; [unfold sum_over; cbn; lra|]. rewrite sum_over_cons. pose proof (H a (or_introl eq_refl)). pose proof (IH (fun k Hk => H k (or_intror Hk))). lra.
Qed.

Section Grad.
Context {prec emax : Z} {Hp : Prec_gt_0 prec} {He : Prec_lt_emax prec emax} (P24 : (24 <= prec)%Z) (E64 : (64 <= emax)%Z) (PM : (prec + 3 <= emax)%Z).
Context (lib : libm prec emax) (LO : libm_ok lib) (c : R) (AC : libm_accurate lib c) (CC : cosh_accurate lib c).
Notation fl := (fl prec emax).
Notation u := (uro prec).
Notation eta := (eta prec emax).
#[local] Instance NF : Num fl := Num_fl prec emax lib.

(** ** one sample *)
Lemma param_role p r j : is_dense p -> is_param p r j -> r = RB \/ r = RW 0.
Proof. destruct p as [a n k|g|a q], r; cbn; try tauto. intros _ [-> _]. now right. Qed.
Lemma sample_gradients (l : list (node fl)) lo (xs ys : Z -> Z -> fl) sm s0 i n r j : l <> [] -> Forall dense_node l -> wired s0 (plans l) -> Forall sound_layer l ->
  (forall o, (0 <= o < s_size s0)%Z -> fin (xs sm o)) -> (forall o, (0 <= o < out_count (PropFloatGrad.final_plan l))%Z -> fin (ys sm o)) ->
  sample_ok (prec := prec) (emax := emax) c lo (exact l) (reals (xs sm)) (reals (ys sm)) -> nth_error l i = Some n -> is_param (n_plan n) r j ->
  let g := sample_gradient lo (exact l) (reals (xs sm)) (reals (ys sm)) i r j in
  fin (sample_grad lo xs ys l sm i r j) /\
  Rabs (B2R (sample_grad lo xs ys l sm i r j) - g) <= sample_error (prec := prec) (emax := emax) c lo (exact l) (reals (xs sm)) (reals (ys sm)) i r j /\
  partial (fun v => sample_loss lo (with_param (exact l) i r v) (reals (xs sm)) (reals (ys sm))) (reals (n_data n r)) j g.
Proof.
  intros Ne D W Sd X Y Ok Hi Hj. set (xv := xs sm) in *. set (yv := ys sm) in *. set (xr := reals xv) in *.
  assert (Fp : DescentSpec.final_plan (exact l) = PropFloatGrad.final_plan l).
  { unfold DescentSpec.final_plan, PropFloatGrad.final_plan. now rewrite exact_plans. }
  destruct Ok as (Nl & Sm & Lf & Sf & Fy & Bs). rewrite Fp in *.
  set (k := out_count (PropFloatGrad.final_plan l)) in *. set (ro := real_net (exact l) xr) in *. set (eo := drift (prec := prec) (emax := emax) c (exact l) xr no_error) in *.
  set (dr := loss_slope lo (reals yv) ro) in *. set (ed := loss_err (prec := prec) c lo (reals yv) ro eo) in *.
  assert (Tr : Forall train_class (layers l)). { unfold layers. rewrite Forall_map. eapply Forall_impl; [|exact D]. intros d Hd. apply Hd. }
  assert (F : Forall (fun d => fits (n_layer d) (n_plan d)) l) by (eapply Forall_impl; [|exact D]; intros d Hd; apply Hd).
  assert (Osz : s_size (out_shape s0 (plans l)) = k).
  { unfold k. destruct (exists_last Ne) as (l0 & d0 & El). assert (Ef : PropFloatGrad.final_plan l = n_plan d0). { unfold PropFloatGrad.final_plan. rewrite El. unfold plans. rewrite map_app. cbn [map]. apply last_last. }
    assert (Ep : nth_error (plans l) (length (plans l) - 1) = Some (n_plan d0)).
    { unfold plans. rewrite map_length, nth_error_map, El, app_length. cbn [length]. rewrite nth_error_app2 by lia. replace (_ - _)%nat with 0%nat by lia. reflexivity. }
    rewrite Ef, (out_last _ _ (n_plan d0) Ep). rewrite Forall_forall in F. assert (In d0 l) by (rewrite El; apply in_or_app; right; now left). now destruct (fits_counts _ _ (F d0 H)) as (_ & -> & _). }
  set (dv := loss_dval lo yv (net_out l xv)) in *.
  pose proof (fits_known (prec := prec) _ _ _ _ Nl Lf) as Lk.
  assert (X' : forall o, (0 <= o < s_size s0)%Z -> fin (xv o) /\ Rabs (B2R (xv o) - xr o) <= no_error o).
  { intros o Ho. split; [now apply X|]. unfold xr, reals, no_error. rewrite Rminus_diag_eq, Rabs_R0 by reflexivity. lra. }
  assert (Q : forall j, (0 <= j < s_size (out_shape s0 (plans l)))%Z -> fin (dv j) /\ Rabs (B2R (dv j) - dr j) <= ed j).
  { intros j' Hj'. pose proof (net_step P24 E64 PM lib LO c AC l s0 xv xr no_error F W Sd X' Sf j' Hj') as [Fo Ao]. rewrite Osz in Hj'.
    change (PropFloatNet.NF lib) with NF in Fo, Ao. fold ro in Ao. fold eo in Ao.
    pose proof (PropFloatGrad.loss_step lib LO c AC lo (net_out l xv j') (yv j') (ro j') (reals yv j') (eo j') Lk Fo (Y j' Hj') Ao eq_refl (Fy j' Hj')) as [R1 R2]. unfold dv, dr, ed, loss_slope, loss_err, loss_size.
    destruct Lk as [->|[->|[->| ->]]]; split; assumption. }
  destruct (back_net P24 E64 PM lib LO c AC CC l s0 xv dv xr no_error dr ed false Tr F W Sd X' Sf Q Bs) as [_ G].
  destruct (G i n Hi) as (n2 & r2 & G1 & G2 & G3). set (rl := map to_real l) in *.
  assert (Er : to_model rl = exact l) by apply to_real_exact. assert (Pr : plans rl = plans l) by (unfold rl, plans; rewrite map_map; reflexivity).
  assert (Drl : Forall dense_node rl). { unfold rl. rewrite Forall_map. eapply Forall_impl; [|exact D]. intros d Hd. exact Hd. }
  assert (Hr : nth_error rl i = Some (to_real n)) by (unfold rl; now apply map_nth_error).
  assert (CP : gradients_right (fun r v => net_loss lo (last_plan rl) (reals yv) (real_net (with_param (to_model rl) i r v) xr)) (to_real n) r2).
  { apply (chain_partials lo (reals yv) rl s0 xr false) with (i := i).
    - unfold rl. intros Q0. apply map_eq_nil in Q0. contradiction.
    - unfold layers. rewrite Forall_map. eapply Forall_impl; [|exact Drl]. intros d Hd. apply Hd.
    - eapply Forall_impl; [|exact Drl]. intros d Hd. apply Hd.
    - rewrite Pr. exact W.
    - now rewrite Er.
    - rewrite Er. exact (back_clean c false l _ _ _ _ Bs).
    - replace (last_plan rl) with (PropFloatGrad.final_plan l) by (unfold last_plan, PropFloatGrad.final_plan; now rewrite Pr). rewrite Er. exact Lf.
    - exact Hr.
    - unfold trained. rewrite Er. fold ro. rewrite (loss_slope_R lo (reals yv) ro Lk). exact G2. }
  destruct (real_back rl xr dr false Drl) as [_ RB0]. destruct (RB0 i (to_real n) Hr) as (r2' & G2' & V1 & V2). assert (r2' = r2) by congruence. subst r2'. clear RB0 G2'. rewrite Er in V1, V2, CP.
  assert (SG : sample_grad lo xs ys l sm i r j = n_data n2 (grad_role r) j). { unfold sample_grad, l_sample. fold xv yv. change (loss_dval lo yv (net_out l xv)) with dv. exact (f_equal (fun z => match z with Some d2 => n_data d2 (grad_role r) | None => fun _ : Z => zero end j) G1). }
  assert (Lp : forall v, sample_loss lo (with_param (exact l) i r v) xr (reals yv) = net_loss lo (last_plan rl) (reals yv) (real_net (with_param (exact l) i r v) xr)).
  { intros v. unfold sample_loss. f_equal. unfold DescentSpec.final_plan, last_plan. rewrite Pr, with_param_plans, exact_plans. reflexivity. }
  assert (Dn : is_dense (n_plan n)). { rewrite Forall_forall in D. apply (D n). eapply nth_error_In. exact Hi. }
  cbv zeta. rewrite SG. unfold sample_gradient, sample_error. fold xr. fold ro. fold eo. fold dr. fold ed.
  unfold gradients_right, grads_close in *. cbn [to_real n_plan n_data] in CP. destruct (n_plan n) as [a ni k1|g|a q]; [|destruct Dn|destruct Dn].
  destruct G3 as [G3 G4]. destruct CP as [C1 C2]. destruct r as [|f| | | |f| | | |]; cbn [is_param] in Hj; try contradiction.
  - destruct (G3 j Hj) as [F1 B1]. rewrite V1 in B1. split; [exact F1|]. split; [exact B1|]. specialize (C1 j Hj). rewrite V1 in C1. unfold partial in *. eapply derivable_pt_lim_ext; [|exact C1]. intros v. cbv beta. symmetry. apply Lp.
  - destruct Hj as [-> Hj]. destruct (G4 j Hj) as [F1 B1]. rewrite V2 in B1. split; [exact F1|]. split; [exact B1|]. specialize (C2 j Hj). rewrite V2 in C2. unfold partial in *. eapply derivable_pt_lim_ext; [|exact C2]. intros v. cbv beta. symmetry. apply Lp.
Qed.

(** ** the gradients of a batch added up *)
Lemma fold_error (f : Z -> fl) (g e : Z -> R) is : (forall k, In k is -> fin (f k) /\ Rabs (B2R (f k) - g k) <= e k) ->
  sum_over (fun k => Rabs (g k) + e k) is * (1 + u) ^ length is < big emax ->
  fin (fold_left (fun a k => add a (f k)) is zero) /\
  Rabs (B2R (fold_left (fun a k => add a (f k)) is zero) - sum_over g is) <= sum_over e is + ((1 + u) ^ length is - 1) * sum_over (fun k => Rabs (g k) + e k) is.
Proof.
  pose proof (u_pos (prec := prec)) as U0. intros H B.
  enough (fin (fold_left (fun a k => add a (f k)) is zero) /\
    Rabs (B2R (fold_left (fun a k => add a (f k)) is zero)) <= (1 + u) ^ length is * sum_over (fun k => Rabs (g k) + e k) is /\
    Rabs (B2R (fold_left (fun a k => add a (f k)) is zero) - sum_over g is) <= sum_over e is + ((1 + u) ^ length is - 1) * sum_over (fun k => Rabs (g k) + e k) is) by tauto.
  induction is as [|k is IH] using rev_ind.
  - cbn [fold_left sum_over fold_right length pow]. change (B2R zero) with 0. rewrite Rminus_0_r, Rabs_R0. split; [reflexivity|]. split; lra.
  - rewrite fold_left_app in *. cbn [fold_left]. rewrite !sum_over_snoc, app_length, Nat.add_1_r in *. cbn [pow] in *.
    destruct (H k) as [Fk Ek]; [apply in_or_app; right; now left|]. set (P := (1 + u) ^ length is) in *. set (S := sum_over (fun k => Rabs (g k) + e k) is) in *.
    assert (P1 : 1 <= P) by (apply one_le_pow). assert (Ee : 0 <= e k) by (eapply Rle_trans; [apply Rabs_pos|exact Ek]). pose proof (Rabs_pos (g k)) as G0.
    assert (S0 : 0 <= S). { apply sum_over_pos. intros q Hq. destruct (H q) as [_ Q]; [apply in_or_app; now left|]. pose proof (Rabs_pos (g q)). pose proof (Rabs_pos (B2R (f q) - g q)). lra. }
    assert (Q0 : (1 + u) * (P * S + (Rabs (g k) + e k)) <= (S + (Rabs (g k) + e k)) * ((1 + u) * P)).
    { assert (0 <= (1 + u) * ((Rabs (g k) + e k) * (P - 1))) by (apply Rmult_le_pos; [lra|apply Rmult_le_pos; lra]). nra. }
    assert (B' : S * P < big emax).
    { apply Rle_lt_trans with (2 := B). assert (0 <= u * (P * S)) by (apply Rmult_le_pos; [lra|apply Rmult_le_pos; lra]). assert (0 <= (1 + u) * (P * (Rabs (g k) + e k))) by (apply Rmult_le_pos; [lra|apply Rmult_le_pos; lra]). nra. }
    destruct (IH (fun q Hq => H q (in_or_app _ _ _ (or_introl Hq))) B') as (F1 & A1 & E1). clear IH. set (z := fold_left (fun a k => add a (f k)) is zero) in *.
    destruct (rnd_plus_err (prec := prec) (emax := emax) (B2R z) (B2R (f k))) as (d & D1 & D2); [apply fmt_B2R|apply fmt_B2R|].
    assert (N : Rabs (B2R (f k)) <= Rabs (g k) + e k) by (apply near1; exact Ek).
    assert (A2 : Rabs (B2R z + B2R (f k)) <= P * S + (Rabs (g k) + e k)) by (eapply Rle_trans; [apply Rabs_triang|lra]).
    assert (A3 : Rabs ((B2R z + B2R (f k)) * (1 + d)) <= (1 + u) * (P * S + (Rabs (g k) + e k))).
    { rewrite Rabs_mult, Rmult_comm. apply Rmult_le_compat; auto using Rabs_pos. eapply Rle_trans; [apply Rabs_triang|]. rewrite Rabs_R1. lra. }
    assert (F : fin (Bplus mode_NE z (f k)) /\ B2R (Bplus mode_NE z (f k)) = (B2R z + B2R (f k)) * (1 + d)).
    { destruct (val_add z (f k) F1 Fk) as [Nm V]. rewrite <- D2. apply (fin_of_val _ (B2R z + B2R (f k))); [exact Nm|exact V|]. rewrite D2. lra. }
    destruct F as [F V]. cbn [add NF Num_fl]. rewrite V. split; [exact F|]. split; [lra|].
    replace ((B2R z + B2R (f k)) * (1 + d) - (sum_over g is + g k)) with (B2R z - sum_over g is + ((B2R (f k) - g k) + d * (B2R z + B2R (f k)))) by ring.
    eapply Rle_trans; [apply Rabs_triang|]. assert (Rabs (B2R (f k) - g k + d * (B2R z + B2R (f k))) <= e k + u * (P * S + (Rabs (g k) + e k))).
    { eapply Rle_trans; [apply Rabs_triang|]. apply Rplus_le_compat; [exact Ek|]. rewrite Rabs_mult. apply Rmult_le_compat; auto using Rabs_pos. }
    assert (0 <= (1 + u) * ((Rabs (g k) + e k) * (P - 1))) by (apply Rmult_le_pos; [lra|apply Rmult_le_pos; lra]). nra.
Qed.

(** ** the update *)
Lemma update_step_close (p g lr : fl) gr e : fin p -> fin g -> fin lr -> Rabs (B2R g - gr) <= e -> update_room (prec := prec) (emax := emax) (B2R lr) (B2R p) gr e ->
  fin (sub p (mul g lr)) /\ Rabs (B2R (sub p (mul g lr)) - (B2R p - B2R lr * gr)) <= update_error (prec := prec) (emax := emax) (B2R lr) (B2R p) gr e.
Proof.
  intros Fp Fg Fl E [R1 R2]. pose proof (u_pos (prec := prec)) as U0. assert (L0 : Rabs (B2R lr - B2R lr) <= 0) by (rewrite Rminus_diag_eq, Rabs_R0 by reflexivity; lra).
  destruct (prod_step lib g lr gr e (B2R lr) 0 Fg Fl E L0 R1) as [Fm Em]. set (q := mul g lr) in *.
  assert (Em' : Rabs (B2R q - gr * B2R lr) <= prod_err (prec := prec) (emax := emax) gr e (B2R lr) 0) by exact Em. clear Em. assert (Fm' : fin q) by exact Fm. clear Fm. clearbody q.
  unfold update_error. cbv zeta. replace (Rabs (B2R p - B2R lr * gr)) with (Rabs (B2R p - gr * B2R lr)) in * by (f_equal; ring). set (m := prod_err (prec := prec) (emax := emax) gr e (B2R lr) 0) in *.
  destruct (rnd_minus_err (prec := prec) (emax := emax) (B2R p) (B2R q)) as (d & D1 & D2); [apply fmt_B2R|apply fmt_B2R|].
  assert (A : Rabs (B2R p - B2R q) <= Rabs (B2R p - gr * B2R lr) + m).
  { replace (B2R p - B2R q) with (B2R p - gr * B2R lr + - (B2R q - gr * B2R lr)) by ring. eapply Rle_trans; [apply Rabs_triang|]. rewrite Rabs_Ropp. lra. }
  assert (A3 : Rabs ((B2R p - B2R q) * (1 + d)) <= (Rabs (B2R p - gr * B2R lr) + m) * (1 + u)).
  { rewrite Rabs_mult. apply Rmult_le_compat; auto using Rabs_pos. eapply Rle_trans; [apply Rabs_triang|]. rewrite Rabs_R1. lra. }
  assert (F : fin (Bminus mode_NE p q) /\ B2R (Bminus mode_NE p q) = (B2R p - B2R q) * (1 + d)).
  { destruct (val_sub p q Fp Fm') as [Nm V]. rewrite <- D2. apply (fin_of_val _ (B2R p - B2R q)); [exact Nm|exact V|]. rewrite D2. lra. }
  destruct F as [F V]. cbn [sub NF Num_fl]. rewrite V. split; [exact F|].
  replace ((B2R p - B2R q) * (1 + d) - (B2R p - B2R lr * gr)) with (- (B2R q - gr * B2R lr) + d * (B2R p - B2R q)) by ring.
  eapply Rle_trans; [apply Rabs_triang|]. rewrite Rabs_Ropp, Rabs_mult. apply Rplus_le_compat; [exact Em'|]. apply Rmult_le_compat; auto using Rabs_pos.
Qed.
(** the mean: the sum times the computed inverse of the number of samples *)
Lemma mean_step (s : fl) gr e n : (1 <= Z.of_nat n <= 2 ^ prec)%Z -> fin s -> Rabs (B2R s - gr) <= e ->
  (let A := prod_size gr e (/ INR n) (u * / INR n + eta) in A + roundings prec emax 1 1 A < big emax) ->
  let alpha : fl := div one (ofZ (Z.of_nat n)) in
  fin (FCProofs.scaled alpha s) /\ Rabs (B2R (FCProofs.scaled alpha s) - gr * / INR n) <= prod_err (prec := prec) (emax := emax) gr e (/ INR n) (u * / INR n + eta).
Proof.
  intros Hn Fs E B alpha. pose proof (u_pos (prec := prec)) as U0. pose proof (u_half (prec := prec) (emax := emax)) as U1. pose proof (eta_pos (prec := prec) (emax := emax)) as T0.
  assert (N1 : 1 <= INR n) by (change 1 with (INR 1); apply le_INR; lia).
  assert (I0 : 0 < / INR n <= 1) by (split; [apply Rinv_0_lt_compat; lra|rewrite <- Rinv_1; apply Rinv_le_contravar; lra]).
  assert (Al : fin alpha /\ Rabs (B2R alpha - / INR n) <= u * / INR n + eta).
  { destruct (ofZ_small (prec := prec) (emax := emax) (Z.of_nat n) Hn) as [Fz Vz]. rewrite <- INR_IZR_INZ in Vz.
    destruct (val_div Bone (fl_ofZ prec emax (Z.of_nat n)) fin_one Fz) as [Nm V]; [rewrite Vz; lra|]. rewrite val_one, Vz in V. replace (1 / INR n) with (/ INR n) in V by (field; lra).
    assert (Q : fin alpha /\ B2R alpha = rnd (prec := prec) (emax := emax) (/ INR n)).
    { apply (fin_of_val _ _ Nm V). assert (0 <= rnd (prec := prec) (emax := emax) (/ INR n) <= 1) by (apply rnd_between; [apply fmt_0|apply fmt_1|lra]).
      rewrite Rabs_pos_eq by lra. pose proof (big_gt_1 (prec := prec) (emax := emax)). lra. }
    destruct Q as [Q1 Q2]. split; [exact Q1|]. rewrite Q2. destruct (rnd_err (prec := prec) (emax := emax) (/ INR n)) as (d & e' & D1 & D2 & ->).
    replace (/ INR n * (1 + d) + e' - / INR n) with (d * / INR n + e') by ring. eapply Rle_trans; [apply Rabs_triang|]. rewrite Rabs_mult, (Rabs_pos_eq (/ INR n)) by lra.
    apply Rplus_le_compat; [|exact D2]. apply Rmult_le_compat_r; [lra|exact D1]. }
  destruct Al as [Fa Ea]. clearbody alpha. unfold FCProofs.scaled. destruct (eqb alpha one) eqn:Q.
  - assert (V1 : B2R alpha = 1). { change (Beqb alpha Bone = true) in Q. rewrite Beqb_correct in Q by (auto; apply fin_one). rewrite val_one in Q. now destruct (Req_bool_spec (B2R alpha) 1). }
    rewrite V1 in Ea. split; [exact Fs|]. replace (B2R s - gr * / INR n) with (B2R s - gr + gr * (1 - / INR n)) by ring. eapply Rle_trans; [apply Rabs_triang|]. rewrite Rabs_mult.
    set (ee := u * / INR n + eta) in *. assert (E0 : 0 <= e) by (eapply Rle_trans; [apply Rabs_pos|exact E]). pose proof (Rabs_pos gr) as G0. assert (e0 : 0 <= ee) by (eapply Rle_trans; [apply Rabs_pos|exact Ea]).
    unfold prod_err. rewrite (Rabs_pos_eq (/ INR n)) by lra. assert (S1 : 1 <= / INR n + ee). { rewrite Rabs_pos_eq in Ea by lra. lra. }
    assert (0 <= roundings prec emax 1 1 (prod_size gr e (/ INR n) ee)).
    { rewrite <- slack_roundings. apply slack_pos; [lia|]. unfold prod_size. apply Rmult_le_pos; [lra|]. rewrite Rabs_pos_eq by lra. lra. }
    assert (e * 1 <= e * (/ INR n + ee)) by (apply Rmult_le_compat_l; lra). assert (Rabs gr * Rabs (1 - / INR n) <= Rabs gr * ee) by (apply Rmult_le_compat_l; auto). lra.
  - exact (prod_step lib s alpha gr e (/ INR n) (u * / INR n + eta) Fs Fa E Ea B).
Qed.

(** ** the derivatives of a mean *)
Lemma sum_partial {A} (J : A -> (Z -> R) -> R) (g : A -> R) p j l : (forall k, In k l -> partial (J k) p j (g k)) -> partial (fun v => sum_over (fun k => J k v) l) p j (sum_over g l).
Proof.
  induction l as [|a l IH]; intros H; cbn [sum_over fold_right].
  - unfold partial. apply derivable_pt_lim_const.
  - specialize (IH (fun k Hk => H k (or_intror Hk))). pose proof (H a (or_introl eq_refl)) as Ha. unfold partial in *. exact (derivable_pt_lim_plus _ _ _ _ _ Ha IH).
Qed.
Lemma mean_partial lo th xs ys is i r p j (g : Z -> R) : (forall k, In k is -> partial (fun v => sample_loss lo (with_param th i r v) (xs k) (ys k)) p j (g k)) ->
  partial (fun v => mean_loss lo (with_param th i r v) xs ys is) p j (sum_over g is * / INR (length is)).
Proof.
  intros H. pose proof (sum_partial (fun k v => sample_loss lo (with_param th i r v) (xs k) (ys k)) g p j is H) as S. unfold partial, mean_loss, Rdiv in *.
  pose proof (derivable_pt_lim_mult _ (fun _ => / INR (length is)) _ _ _ S (derivable_pt_lim_const _ _)) as Q. unfold mult_fct, fct_cte in Q. now rewrite Rmult_0_r, Rplus_0_r in Q.
Qed.

(** ** a round of batch training *)
Definition able (l : list (node fl)) : Prop := l <> [] /\ Forall dense_node l /\ Forall sound_layer l /\ exists s0, wired s0 (plans l).
Lemma sound_param (n : node fl) r j : dense_node n -> sound_layer n -> is_param (n_plan n) r j -> fin (n_data n r j).
Proof.
  intros D S. destruct (dense_fc n D) as (L & a & ni & k & _ & Ep). unfold sound_layer in S. rewrite Ep in *. destruct S as [S1 S2]. destruct r as [|f| | | |f| | | |]; cbn [is_param]; try tauto; [apply S2|]. intros [-> Hj]. now apply S1.
Qed.
Lemma sound_of_param (n : node fl) : dense_node n -> (forall r j, is_param (n_plan n) r j -> fin (n_data n r j)) -> sound_layer n.
Proof.
  intros D H. destruct (dense_fc n D) as (L & a & ni & k & _ & Ep). unfold sound_layer. rewrite Ep in *. split; [intros o Ho; apply (H (RW 0) o); now split|intros j Hj; apply (H RB j); exact Hj].
Qed.
Lemma exact_nth (l : list (node fl)) i p s : nth_error (exact l) i = Some (p, s) -> exists n, nth_error l i = Some n /\ p = n_plan n /\ s = (fun r j => B2R (n_data n r j)).
Proof.
  revert i. induction l as [|d l IH]; intros [|i] Q; cbn in Q; try discriminate Q; [|exact (IH i Q)]. injection Q as <- <-. exists d. now split.
Qed.
Lemma nth_exact (l : list (node fl)) i n : nth_error l i = Some n -> nth_error (exact l) i = Some (n_plan n, fun r j => B2R (n_data n r j)).
Proof. intros H. unfold exact. exact (map_nth_error _ _ _ H). Qed.
Lemma param_exact (l : list (node fl)) i n r j : nth_error l i = Some n -> param (exact l) i r j = B2R (n_data n r j).
Proof. intros H. unfold param. now rewrite (nth_exact l i n H). Qed.
Lemma moved_step (l l' : list (node fl)) J a (err : nat -> role -> Z -> R) : length l' = length l ->
  (forall i n, nth_error l i = Some n -> exists n', nth_error l' i = Some n' /\ dense_node n' /\ n_plan n' = n_plan n /\ forall r j, is_param (n_plan n) r j ->
     fin (n_data n' r j) /\ exists g, partial (fun v => J (with_param (exact l) i r v)) (reals (n_data n r)) j g /\ Rabs (B2R (n_data n' r j) - (B2R (n_data n r j) - a * g)) <= err i r j) ->
  able l -> able l' /\ inexact_step J a err (exact l) (exact l').
Proof.
  intros Len H (Ne & D & S & s0 & W).
  assert (K : forall i n', nth_error l' i = Some n' -> exists n, nth_error l i = Some n /\ dense_node n' /\ n_plan n' = n_plan n /\ sound_layer n').
  { intros i n' Hn. assert (exists n, nth_error l i = Some n) as [n Hl]. { destruct (nth_error l i) eqn:E; [eauto|]. apply nth_error_None in E. assert (i < length l')%nat by (apply nth_error_Some; congruence). lia. }
    destruct (H i n Hl) as (n2 & H2 & D2 & P2 & F2). assert (n2 = n') by congruence. subst n2. exists n. split; [exact Hl|]. split; [exact D2|]. split; [exact P2|]. apply sound_of_param; [exact D2|]. intros r j Hj. rewrite P2 in Hj. now apply F2. }
  assert (Ep : plans l' = plans l).
  { clear - Len K. revert l' Len K. induction l as [|n l IH]; intros [|n' l'] Len K; try discriminate; [reflexivity|]. cbn [plans map]. f_equal.
    - destruct (K O n' eq_refl) as (n2 & H2 & _ & P2 & _). cbn in H2. injection H2 as <-. exact P2.
    - apply IH; [now injection Len|]. intros i q Hq. exact (K (Datatypes.S i) q Hq). }
  split.
  - split; [intros ->; destruct l; [congruence|discriminate]|]. split; [apply Forall_forall; intros n' Hn; apply In_nth_error in Hn as [i Hn]; destruct (K i n' Hn) as (? & ? & ? & ? & ?); assumption|].
    split; [apply Forall_forall; intros n' Hn; apply In_nth_error in Hn as [i Hn]; destruct (K i n' Hn) as (? & ? & ? & ? & ?); assumption|]. exists s0. now rewrite Ep.
  - split; [now rewrite !exact_plans|]. intros i p s Hi. apply exact_nth in Hi as (n & Hn & -> & ->). destruct (H i n Hn) as (n' & H' & _ & P' & F'). exists (fun r j => B2R (n_data n' r j)).
    split; [rewrite (nth_exact l' i n' H'); now rewrite P'|]. intros r j Hj. now apply F'.
Qed.
Lemma round_length {T} `{NT : Num T} lo xs ys lr (l : list (node T)) is : length (l_round lo xs ys lr l is) = length l.
Proof.
  unfold l_round. rewrite map_length. enough (forall l1 : list (node T), length (fold_left (l_present lo xs ys) is l1) = length l1) as -> by apply map_length.
  induction is as [|i is IH]; intros l1; [reflexivity|]. cbn [fold_left]. rewrite IH. unfold l_present. now rewrite map_length, sample_length.
Qed.
Definition data_fin (l : list (node fl)) (xs ys : Z -> Z -> fl) (is : list Z) : Prop := forall k, In k is ->
  (forall s0, wired s0 (plans l) -> forall o, (0 <= o < s_size s0)%Z -> fin (xs k o)) /\ forall o, (0 <= o < out_count (PropFloatGrad.final_plan l))%Z -> fin (ys k o).
Lemma round_close (l : list (node fl)) lo xs ys lr is : able l -> data_fin l xs ys is -> fin lr ->
  let X := fun k => reals (xs k) in let Y := fun k => reals (ys k) in let l' := l_round lo xs ys lr l is in
  batch_ok (prec := prec) (emax := emax) c lo (exact l) X Y is (B2R lr) ->
  able l' /\ inexact_step (fun th => mean_loss lo th X Y is) (B2R lr) (batch_error (prec := prec) (emax := emax) c lo (exact l) X Y is (B2R lr)) (exact l) (exact l').
Proof.
  intros A Df Fl X Y l' (Hn & Ok & Bd). pose proof A as A0. destruct A as (Ne & D & S & s0 & W). apply moved_step; [apply round_length| |exact A0].
  intros i n Hi. assert (Nis : is <> []) by (intros ->; cbn in Hn; lia).
  destruct (round_values lo xs ys lr is l i n D Nis Hi) as (n' & H' & D' & P' & V'). exists n'. split; [exact H'|]. split; [exact D'|]. split; [exact P'|].
  intros r j Hj. assert (Dn : dense_node n) by (rewrite Forall_forall in D; apply D; eapply nth_error_In; exact Hi). assert (Sn : sound_layer n) by (rewrite Forall_forall in S; apply S; eapply nth_error_In; exact Hi).
  assert (G : forall k, In k is -> fin (sample_grad lo xs ys l k i r j) /\
     Rabs (B2R (sample_grad lo xs ys l k i r j) - sample_gradient lo (exact l) (X k) (Y k) i r j) <= sample_error (prec := prec) (emax := emax) c lo (exact l) (X k) (Y k) i r j /\
     partial (fun v => sample_loss lo (with_param (exact l) i r v) (X k) (Y k)) (reals (n_data n r)) j (sample_gradient lo (exact l) (X k) (Y k) i r j)).
  { intros k Hk. destruct (Df k Hk) as [Fx Fy]. exact (sample_gradients l lo xs ys k s0 i n r j Ne D W S (Fx s0 W) Fy (Ok k Hk) Hi Hj). }
  specialize (V' r (param_role _ r j (proj2 (proj2 Dn)) Hj) j). rewrite V'.
  pose proof (sound_param n r j Dn Sn Hj) as Fp.
  assert (Ei : nth_error (exact l) i = Some (n_plan n, fun r j => B2R (n_data n r j))) by now apply nth_exact.
  destruct (Bd i _ _ r j Ei Hj) as (B1 & B2 & B3).
  destruct (fold_error (fun k => sample_grad lo xs ys l k i r j) (fun k => sample_gradient lo (exact l) (X k) (Y k) i r j) (fun k => sample_error (prec := prec) (emax := emax) c lo (exact l) (X k) (Y k) i r j) is) as [F1 E1].
  { intros k Hk. destruct (G k Hk) as (G1 & G2 & _). now split. } { exact B1. }
  destruct (mean_step _ (gradient_sum lo (exact l) X Y is i r j) (sum_error (prec := prec) (emax := emax) c lo (exact l) X Y is i r j) (length is) Hn F1 E1 B2) as [F2 E2].
  destruct (update_step_close (n_data n r j) _ lr _ _ Fp F2 Fl E2 B3) as [F3 E3]. split; [exact F3|].
  exists (mean_gradient lo (exact l) X Y is i r j). split.
  - apply mean_partial. intros k Hk. now destruct (G k Hk) as (_ & _ & G3).
  - unfold batch_error. rewrite (param_exact l i n r j Hi). exact E3.
Qed.

Lemma moved_plans J a err th th' : inexact_step J a err th th' -> map fst th' = map fst th.
Proof. intros H. apply H. Qed.
Lemma data_covered (l : list (node fl)) xs ys n is : able l -> finite_data l xs ys n -> (forall k, In k is -> (0 <= k < n)%Z) -> data_fin l xs ys is.
Proof.
  intros (Ne & D & _) H Hi k Hk. destruct (H k (Hi k Hk)) as [H1 H2]. split; [|exact H2]. intros s0 W o Ho. apply H1.
  destruct l as [|d l]; [congruence|]. cbn [plans map wired] in *. destruct W as [W _]. apply Forall_cons_iff in D as [Dd _]. destruct Dd as (_ & Fd & _). now rewrite <- (feeds_count _ _ _ Fd W).
Qed.
Lemma finite_same (l l' : list (node fl)) xs ys n : plans l' = plans l -> finite_data l xs ys n -> finite_data l' xs ys n.
Proof. intros E H. unfold finite_data. now rewrite E. Qed.
Lemma rounds_follow lo xs ys lr n : fin lr -> forall iss (l : list (node fl)), able l -> finite_data l xs ys n -> (forall is k, In is iss -> In k is -> (0 <= k < n)%Z) ->
  exists ths, hd_error ths = Some (exact l) /\ last ths [] = exact (fold_left (l_round lo xs ys lr) iss l) /\
    follows (prec := prec) (emax := emax) c lo (fun k => reals (xs k)) (fun k => reals (ys k)) (B2R lr) iss ths.
Proof.
  intros Fl. induction iss as [|is iss IH]; intros l A Df Hi; [exists [exact l]; repeat split|].
  set (l1 := l_round lo xs ys lr l is). pose proof (data_covered l xs ys n is A Df (fun k Hk => Hi is k (or_introl eq_refl) Hk)) as Dc.
  pose proof (round_close l lo xs ys lr is A Dc Fl) as RC. cbv zeta in RC. fold l1 in RC.
  assert (Ep : plans l1 = plans l) by (apply (rounds_plans lo xs ys lr [is] l)).
  assert (Tr : forall iss (l0 : list (node fl)), exists ths, hd_error ths = Some (exact l0) /\ last ths [] = exact (fold_left (l_round lo xs ys lr) iss l0) /\ length ths = Datatypes.S (length iss)).
  { clear. induction iss as [|is iss IH]; intros l0; [exists [exact l0]; repeat split|]. destruct (IH (l_round lo xs ys lr l0 is)) as (ths & H1 & H2 & H3). exists (exact l0 :: ths).
    split; [reflexivity|]. destruct ths as [|th ths]; [discriminate|]. split; [exact H2|]. cbn [length] in *. now rewrite H3. }
  destruct (Classical_Prop.classic (batch_ok (prec := prec) (emax := emax) c lo (exact l) (fun k => reals (xs k)) (fun k => reals (ys k)) is (B2R lr))) as [Ok|No].
  - destruct (RC Ok) as [A1 St]. destruct (IH l1 A1 (finite_same l l1 xs ys n Ep Df) (fun is k H => Hi is k (or_intror H))) as (ths & H1 & H2 & H3).
    exists (exact l :: ths). split; [reflexivity|]. destruct ths as [|th ths]; [discriminate|]. cbn in H1. injection H1 as ->. split; [exact H2|]. intros _. split; [exact St|exact H3].
  - destruct (Tr iss l1) as (ths & H1 & H2 & H3). exists (exact l :: ths). split; [reflexivity|]. destruct ths as [|th ths]; [discriminate|]. split; [exact H2|]. intros Ok. contradiction.
Qed.

(** ** a stochastic step *)
Lemma step_close (l : list (node fl)) lo xs ys lr k : able l -> data_fin l xs ys [k] -> fin lr -> (forall L, In (LFC L) (layers l) -> f_acc L = false) ->
  let X := reals (xs k) in let Y := reals (ys k) in let l' := l_step lo xs ys lr l k in
  stochastic_ok (prec := prec) (emax := emax) c lo (exact l) X Y (B2R lr) ->
  able l' /\ inexact_step (fun th => sample_loss lo th X Y) (B2R lr) (stochastic_error (prec := prec) (emax := emax) c lo (exact l) X Y (B2R lr)) (exact l) (exact l').
Proof.
  intros A Df Fl Un X Y l' (Ok & Bd). pose proof A as A0. destruct A as (Ne & D & S & s0 & W). apply moved_step; [unfold l', l_step; rewrite map_length; apply sample_length| |exact A0].
  intros i n Hi. assert (One : eqb (one : fl) one = true). { change (Beqb (Bone : fl) Bone = true). rewrite Beqb_correct by apply fin_one. now rewrite Req_bool_true. }
  destruct (step_values lo xs ys lr k l i n D) as (n' & H' & _ & D' & P' & V'); [|exact One|exact Hi|].
  { intros L EL. apply Un. rewrite <- EL. unfold layers. apply in_map. eapply nth_error_In. exact Hi. }
  exists n'. split; [exact H'|]. split; [exact D'|]. split; [exact P'|].
  intros r j Hj. assert (Dn : dense_node n) by (rewrite Forall_forall in D; apply D; eapply nth_error_In; exact Hi). assert (Sn : sound_layer n) by (rewrite Forall_forall in S; apply S; eapply nth_error_In; exact Hi).
  destruct (Df k (or_introl eq_refl)) as [Fx Fy]. destruct (sample_gradients l lo xs ys k s0 i n r j Ne D W S (Fx s0 W) Fy Ok Hi Hj) as (G1 & G2 & G3).
  specialize (V' r (param_role _ r j (proj2 (proj2 Dn)) Hj) j). rewrite V'. pose proof (sound_param n r j Dn Sn Hj) as Fp.
  pose proof (Bd i _ _ r j (nth_exact l i n Hi) Hj) as B3. destruct (update_step_close (n_data n r j) _ lr _ _ Fp G1 Fl G2 B3) as [F3 E3]. split; [exact F3|].
  eexists. split; [exact G3|]. unfold stochastic_error. rewrite (param_exact l i n r j Hi). exact E3.
Qed.
Lemma steps_follow lo xs ys lr n : fin lr -> forall is (l : list (node fl)), able l -> finite_data l xs ys n -> (forall k, In k is -> (0 <= k < n)%Z) -> (forall L, In (LFC L) (layers l) -> f_acc L = false) ->
  exists ths, hd_error ths = Some (exact l) /\ last ths [] = exact (fold_left (l_step lo xs ys lr) is l) /\
    follows_samples (prec := prec) (emax := emax) c lo (fun k => reals (xs k)) (fun k => reals (ys k)) (B2R lr) is ths.
Proof.
  intros Fl. induction is as [|k is IH]; intros l A Df Hi Un; [exists [exact l]; repeat split|].
  set (l1 := l_step lo xs ys lr l k). pose proof (data_covered l xs ys n [k] A Df (fun q Hq => Hi q (match Hq with or_introl e => or_introl e | or_intror F => match F with end end))) as Dc.
  pose proof (step_close l lo xs ys lr k A Dc Fl Un) as RC. cbv zeta in RC. fold l1 in RC.
  assert (Ep : plans l1 = plans l) by (apply (steps_plans lo xs ys lr [k] l)).
  assert (El : layers l1 = layers l). { unfold l1, l_step, layers. rewrite map_map. change (map n_layer l) with (layers l). rewrite <- (layers_sample lo (xs k) (ys k) l). unfold layers. apply map_ext. intros d. unfold n_update. destruct d as [[L|L|L|L|L|L] p s]; reflexivity. }
  assert (Tr : forall is (l0 : list (node fl)), exists ths, hd_error ths = Some (exact l0) /\ last ths [] = exact (fold_left (l_step lo xs ys lr) is l0) /\ length ths = Datatypes.S (length is)).
  { clear. induction is as [|k is IH]; intros l0; [exists [exact l0]; repeat split|]. destruct (IH (l_step lo xs ys lr l0 k)) as (ths & H1 & H2 & H3). exists (exact l0 :: ths).
    split; [reflexivity|]. destruct ths as [|th ths]; [discriminate|]. split; [exact H2|]. cbn [length] in *. now rewrite H3. }
  destruct (Classical_Prop.classic (stochastic_ok (prec := prec) (emax := emax) c lo (exact l) (reals (xs k)) (reals (ys k)) (B2R lr))) as [Ok|No].
  - destruct (RC Ok) as [A1 St]. destruct (IH l1 A1 (finite_same l l1 xs ys n Ep Df) (fun k H => Hi k (or_intror H))) as (ths & H1 & H2 & H3); [now rewrite El|].
    exists (exact l :: ths). split; [reflexivity|]. destruct ths as [|th ths]; [discriminate|]. cbn in H1. injection H1 as ->. split; [exact H2|]. intros _. split; [exact St|exact H3].
  - destruct (Tr is l1) as (ths & H1 & H2 & H3). exists (exact l :: ths). split; [reflexivity|]. destruct ths as [|th ths]; [discriminate|]. split; [exact H2|]. intros Ok. contradiction.
Qed.

(** ** C132: training calls *)
Section Calls.
Context (addr : ptr -> Z) (m : mem fl) (l : list (node fl)) (t : trainer) (lo : loss) (idata odata : list tensor) (xs ys : Z -> Z -> fl) (o : opt fl).
Notation n := (Z.of_nat (length idata)).
Context (Rd : ready m l t lo idata odata xs ys) (Ko : o_kind o = GradDescent) (Dn : Forall is_dense (plans l)) (Sn : Forall sound_layer l) (Fd : finite_data l xs ys n) (Fl : fin (o_lr o)).
Lemma ready_able : idata <> [] -> able l.
Proof.
  intros Hn. destruct Rd as (Len & Tr & A & _ & Da). split; [intros Q; rewrite Q in Len; cbn in Len; lia|]. split.
  - apply Forall_forall. intros d Hd. destruct A as [A _]. unfold layers, plans in *. rewrite Forall_map, Forall_forall in Tr, Dn. rewrite Forall_forall in A. split; [now apply Tr|]. split; [now apply A|now apply Dn].
  - split; [exact Sn|]. destruct (Da 0%Z) as (x & y & _ & _ & (W & _) & _); [destruct idata; [congruence|cbn; lia]|]. eauto.
Qed.
Notation X := (fun k => reals (xs k)).
Notation Y := (fun k => reals (ys k)).
Theorem C132_batch_follows E : (0 <= E)%Z -> idata <> [] ->
  exists l' m' ths, tr_batch addr (layers l) t idata odata o E m = Ok ((layers l', o), m') /\ ready m' l' t lo idata odata xs ys /\
    hd_error ths = Some (exact l) /\ last ths [] = exact l' /\
    follows (prec := prec) (emax := emax) c lo X Y (B2R (o_lr o)) (repeat (zrange 0 n) (Z.to_nat E)) ths.
Proof.
  intros HE Hn. destruct (batch_run addr m l t lo idata odata xs ys o Rd Ko E HE) as (m' & R & A & O).
  destruct (rounds_follow lo xs ys (o_lr o) n Fl (batches idata E) l (ready_able Hn) Fd) as (ths & H1 & H2 & H3).
  { intros is k Hi Hk. apply repeat_spec in Hi as ->. now apply in_zrange in Hk. }
  eexists _, m', ths. split; [exact R|]. split; [exact A|]. split; [exact H1|]. split; [exact H2|exact H3].
Qed.
Theorem C132_mini_batch_follows E b : (0 <= E)%Z -> (0 < b)%Z -> (0 < n < 2 ^ 64)%Z ->
  exists l' m' ths, tr_mini_batch addr (layers l) t idata odata o E b m = Ok ((layers l', o), m') /\ ready m' l' t lo idata odata xs ys /\
    hd_error ths = Some (exact l) /\ last ths [] = exact l' /\
    follows (prec := prec) (emax := emax) c lo X Y (B2R (o_lr o)) (concat (repeat (map (fun k => zrange (k * b) (k * b + b)) (zrange 0 (n / b))) (Z.to_nat E))) ths.
Proof.
  intros HE Hb Hn. destruct (mini_run addr m l t lo idata odata xs ys o Rd Ko b E HE Hb ltac:(lia)) as (m' & R & A & O).
  assert (Hn' : idata <> []) by (intros Q; rewrite Q in Hn; cbn in Hn; lia).
  destruct (rounds_follow lo xs ys (o_lr o) n Fl (mini_batches idata b E) l (ready_able Hn') Fd) as (ths & H1 & H2 & H3).
  { intros is k Hi Hk. pose proof (mini_valid idata b E Hb) as V. rewrite Forall_forall in V. specialize (V is Hi). rewrite Forall_forall in V. exact (V k Hk). }
  eexists _, m', ths. split; [exact R|]. split; [exact A|]. split; [exact H1|]. split; [exact H2|exact H3].
Qed.
(** Stochastic training, as long as no layer has accumulated gradients since it was created or reset (C90 explains why). *)
Theorem C132_stochastic_follows E g : (0 <= E)%Z -> idata <> [] -> (forall i, (0 <= g i < 2 ^ 64)%Z) -> (forall L, In (LFC L) (layers l) -> f_acc L = false) ->
  exists l' m' ths, tr_stochastic addr (layers l) t idata odata o E g m = Ok (o, m') /\ ready m' l' t lo idata odata xs ys /\ layers l' = layers l /\
    hd_error ths = Some (exact l) /\ last ths [] = exact l' /\
    follows_samples (prec := prec) (emax := emax) c lo X Y (B2R (o_lr o)) (map (fun i => (g i mod n)%Z) (zrange 0 E)) ths.
Proof.
  intros HE Hn Hg Un. destruct (stochastic_run addr m l t lo idata odata xs ys o Rd Ko E g HE Hn Hg) as (m' & R & A & O).
  destruct (steps_follow lo xs ys (o_lr o) n Fl (chosen idata E g) l (ready_able Hn) Fd) as (ths & H1 & H2 & H3).
  { intros k Hk. apply in_map_iff in Hk as (q & <- & _). apply Z.mod_pos_bound. destruct idata; [congruence|cbn; lia]. } { exact Un. }
  eexists _, m', ths. split; [exact R|]. split; [exact A|]. split; [apply layers_steps|]. split; [exact H1|]. split; [exact H2|exact H3].
Qed.
End Calls.
End Grad.

(** ** what inexact steps achieve *)
Lemma total_le th : forall i f g, Forall is_dense (map fst th) -> (forall q p s r j, nth_error th q = Some (p, s) -> is_param p r j -> f (i + q)%nat r j <= g (i + q)%nat r j) -> total i th f <= total i th g.
Proof.
  induction th as [|[p s] th IH]; intros i f g D H; [cbn; lra|]. cbn [map fst] in D. apply Forall_cons_iff in D as [Dp D]. destruct p as [a n k|ge|a q]; [|destruct Dp|destruct Dp]. cbn [total].
  assert (I1 : total (S i) th f <= total (S i) th g). { apply IH; [exact D|]. intros q p s' r j Hq Hj. specialize (H (S q) p s' r j Hq Hj). now replace (S i + q)%nat with (i + S q)%nat by lia. }
  assert (Z0 : forall r j, is_param (PDense a n k) r j -> f i r j <= g i r j). { intros r j Hj. specialize (H O _ s r j eq_refl Hj). now replace (i + 0)%nat with i in H by lia. }
  assert (RealSpec.rsum k (f i RB) <= RealSpec.rsum k (g i RB)) by (apply zsum_le; intros j Hj; now apply Z0).
  assert (RealSpec.rsum (n * k) (f i (RW 0)) <= RealSpec.rsum (n * k) (g i (RW 0))) by (apply zsum_le; intros j Hj; now apply Z0). apply Rplus_le_compat; [apply Rplus_le_compat|exact I1]; assumption.
Qed.
Lemma total_lin th : forall i x f y g, total i th (fun i r j => x * f i r j + y * g i r j) = x * total i th f + y * total i th g.
Proof.
  induction th as [|[p s] th IH]; intros i x f y g; [cbn; lra|]. destruct p as [a n k|ge|a q]; cbn [total]; rewrite IH; [|reflexivity|reflexivity].
  rewrite !rsum_plus, !rsum_scal. ring.
Qed.
Lemma partial_unique F p j g g' : partial F p j g -> partial F p j g' -> g = g'.
Proof. unfold partial. apply uniqueness_limite. Qed.
(** One inexact step, learning rate at most 1/L: the loss decreases by half the learning rate times the squared length of the gradient, up to
    the squared errors. *)
Theorem C132_loss_decreases J a err th th' L G : 0 < a -> a * L <= 1 -> Forall is_dense (map fst th) -> inexact_step J a err th th' -> gradient_of J th G -> bends_at_most L J th th' ->
  J th' <= J th - a / 2 * total 0 th (fun i r j => G i r j * G i r j) + / (2 * a) * total 0 th (fun i r j => err i r j * err i r j).
Proof.
  intros Ha HL D [_ St] HG Bd. specialize (Bd G HG). set (D1 := fun i r j => param th' i r j - param th i r j) in *.
  change (J th' <= J th + total 0 th (fun i r j => G i r j * D1 i r j) + L / 2 * total 0 th (fun i r j => D1 i r j * D1 i r j)) in Bd.
  assert (T : total 0 th (fun i r j => 1 * (G i r j * D1 i r j) + L / 2 * (D1 i r j * D1 i r j)) <= total 0 th (fun i r j => (- (a / 2)) * (G i r j * G i r j) + / (2 * a) * (err i r j * err i r j))).
  { apply total_le; [exact D|]. intros q p s r j Hq Hj. cbn [Nat.add]. destruct (St q p s Hq) as (s' & Hq' & Sj). destruct (Sj r j Hj) as (g & Pg & Eg).
    pose proof (partial_unique _ _ _ _ _ (HG q p s r j Hq Hj) Pg) as Q. rewrite <- Q in Eg. clear Pg Q g.
    assert (V : D1 q r j = s' r j - s r j) by (unfold D1, param; rewrite Hq, Hq'; reflexivity). set (g := G q r j) in *. set (d := D1 q r j) in *. set (e := err q r j) in *. clearbody g d e.
    assert (E1 : Rabs (d + a * g) <= e) by (replace (d + a * g) with (s' r j - (s r j - a * g)) by lra; exact Eg).
    assert (E2 : (d + a * g) * (d + a * g) <= e * e) by (apply Rabs_le_inv in E1; set (x := d + a * g) in *; assert (0 <= (e - x) * (e + x)) by (apply Rmult_le_pos; lra); lra).
    assert (E3 : L / 2 * (d * d) <= / (2 * a) * (d * d)).
    { apply Rmult_le_compat_r; [apply Rle_0_sqr|]. apply (Rmult_le_reg_l (2 * a)); [lra|]. rewrite Rinv_r by lra. lra. }
    assert (E4 : / (2 * a) * ((d + a * g) * (d + a * g)) <= / (2 * a) * (e * e)) by (apply Rmult_le_compat_l; [left; apply Rinv_0_lt_compat; lra|exact E2]).
    replace (/ (2 * a) * ((d + a * g) * (d + a * g))) with (/ (2 * a) * (d * d) + 1 * (g * d) + a / 2 * (g * g)) in E4 by (field; lra). lra. }
  rewrite (total_lin th 0 1), (total_lin th 0 (- (a / 2))) in T. lra.
Qed.
(** Over [K] such rounds on the same loss, at least one network had a gradient as small as the rounding errors and the bounds on the loss
    allow. *)
Theorem C132_gradient_becomes_small J a L B D (G : model -> nat -> role -> Z -> R) (ths : list model) : 0 < a -> a * L <= 1 -> (2 <= length ths)%nat ->
  consecutive (fun th th' => exists err, inexact_step J a err th th' /\ bends_at_most L J th th' /\ total 0 th (fun i r j => err i r j * err i r j) <= D) ths ->
  Forall (fun th => Forall is_dense (map fst th) /\ gradient_of J th (G th) /\ B <= J th) ths ->
  exists th, In th ths /\ total 0 th (fun i r j => G th i r j * G th i r j) <= 2 * (J (hd [] ths) - B) / (a * INR (length ths - 1)) + D / (a * a).
Proof.
  intros Ha HL Len C F. set (tau := 2 * (J (hd [] ths) - B) / (a * INR (length ths - 1)) + D / (a * a)).
  assert (K1 : 1 <= INR (length ths - 1)) by (change 1 with (INR 1); apply le_INR; lia).
  destruct (Exists_dec (fun th => total 0 th (fun i r j => G th i r j * G th i r j) <= tau) ths (fun th => Rle_dec _ _)) as [E|N].
  { apply Exists_exists in E as (th & H1 & H2). eauto. }
  exfalso. assert (M : forall ths : list model, ths <> [] -> consecutive (fun th th' => exists err, inexact_step J a err th th' /\ bends_at_most L J th th' /\ total 0 th (fun i r j => err i r j * err i r j) <= D) ths ->
    Forall (fun th => Forall is_dense (map fst th) /\ gradient_of J th (G th) /\ B <= J th) ths -> Forall (fun th => tau < total 0 th (fun i r j => G th i r j * G th i r j)) ths ->
    B <= J (hd [] ths) - INR (length ths - 1) * (a / 2 * tau - / (2 * a) * D) /\ ((2 <= length ths)%nat -> B < J (hd [] ths) - INR (length ths - 1) * (a / 2 * tau - / (2 * a) * D))).
  { clear N C F Len K1. clearbody tau. clear ths. induction ths as [|th ths IH]; intros Ne C F N; [congruence|]. apply Forall_cons_iff in F as [(F1 & F2 & F3) F]. apply Forall_cons_iff in N as [N1 N].
    destruct ths as [|th1 ths]; [split; [cbn; lra|cbn; lia]|]. destruct C as [(err & C1 & C2 & C3) C]. destruct (IH ltac:(discriminate) C F N) as [I1 _].
    pose proof (C132_loss_decreases J a err th th1 L (G th) Ha HL F1 C1 F2 C2) as Q. cbn [hd] in *. replace (length (th :: th1 :: ths) - 1)%nat with (Datatypes.S (length (th1 :: ths) - 1)) by (cbn [length]; lia). rewrite S_INR.
    set (K := INR (length (th1 :: ths) - 1)) in *. set (g2 := total 0 th (fun i r j => G th i r j * G th i r j)) in *. set (e2 := total 0 th (fun i r j => err i r j * err i r j)) in *. clearbody K g2 e2.
    assert (Q1 : / (2 * a) * e2 <= / (2 * a) * D) by (apply Rmult_le_compat_l; [left; apply Rinv_0_lt_compat; lra|exact C3]).
    assert (Q2 : a / 2 * tau < a / 2 * g2) by (apply Rmult_lt_compat_l; lra). split; [|intros _]; lra. }
  destruct (M ths) as [_ M2]; auto. { intros ->. cbn in Len. lia. } { apply Forall_forall. intros th Hth. destruct (Rlt_dec tau (total 0 th (fun i r j => G th i r j * G th i r j))) as [Lt|Ge]; [exact Lt|]. exfalso. apply N. apply Exists_exists. exists th. split; [exact Hth|lra]. }
  specialize (M2 Len). set (K := INR (length ths - 1)) in *. set (J0 := J (hd [] ths)) in *. assert (Q : K * (a / 2 * tau - / (2 * a) * D) = J0 - B) by (unfold tau; field; lra). lra.
Qed.

(** the network of C131's example (2 * 8 + 2 = 18 -> 1 * 18 + 1 = 19, target 1), learning rate 1/128: one round of batch training, one stochastic step *)
Module Examples.
Import PropFloatGrad.Examples.
#[local] Existing Instance PropFloatLayers.Examples.Hp53.
#[local] Existing Instance PropFloatLayers.Examples.He53.
#[local] Existing Instance PropFloatLayers.Examples.ND.
Notation lib := PropFloatLayers.Examples.lib.
Notation pw := PropFloatLayers.Examples.pw.
Notation pw_ok := PropFloatLayers.Examples.pw_ok.
Notation c := (2 * uro 53).
Definition xs (k : Z) := xv.
Definition ys (k : Z) := yv.
Definition th : model := exact [n1; n2].
Definition rate : fl 53 1024 := pw (-7).
Lemma rate_val : fin rate /\ B2R rate = / 128.
Proof. exact (pw_ok (-7) ltac:(lia)). Qed.
Lemma x_val : reals xv = xr.
Proof. apply functional_extensionality. intros i. unfold reals, xv, xr. exact (proj2 (pw_ok 3 ltac:(lia))). Qed.
Lemma rd : ready m0 [n1; n2] tr MSE [tv 18 1] [tv 19 1] xs ys.
Proof.
  split; [cbn; lia|]. split; [repeat constructor; exact I|]. split; [exact two_at|]. split; [exact two_trainer|].
  intros i Hi. cbn in Hi. replace i with 0%Z by lia. exists (tv 18 1), (tv 19 1). split; [reflexivity|]. split; [reflexivity|]. split; [exact two_sample|]. split; [|exact two_target]. intros b j [E _] [E' _]. congruence.
Qed.
Lemma fd : finite_data [n1; n2] xs ys 1.
Proof. intros k Hk. split; intros o Ho; apply pw_ok; lia. Qed.
Lemma one_ok : sample_ok (prec := 53) (emax := 1024) c MSE th xr (reals yv).
Proof.
  split; [discriminate|]. split; [apply two_smooth|]. split; [left; reflexivity|]. split; [apply two_safe|]. split; [|apply two_back_safe].
  intros j Hj. change (out_count (DescentSpec.final_plan th)) with 1%Z in Hj. replace j with 0%Z by lia.
  pose proof (size_val c) as S1. pose proof u_tiny. pose proof far. change no_error with e0. set (v := loss_size _ _ _ _) in *. assert (v * (1 + uro 53) <= 19 * 2) by (apply Rmult_le_compat; lra). lra.
Qed.
(** the gradient of one layer *)
Section One.
Context (w X E : R) (s : contents R) (x e : Z -> R) (Hb : s RB 0%Z = w) (Hw : s (RW 0) 0%Z = w) (Hx : x 0%Z = X) (Hee : e 0%Z = E)
  (W : 1 <= w <= 2) (XX : 8 <= X <= 20) (EE : 0 <= E <= / 10).
Notation ReLU' := (Functions.Scalar ReLU).
Context (D eD : R) (d ed : Z -> R) (Hd : d 0%Z = D) (Hed : ed 0%Z = eD) (DD : 0 <= D <= 18) (ED : 0 <= eD <= / 5).
Lemma one_weight : weight_grad ReLU' 1 1 s x d 0 = X * D.
Proof. clear E e Hee EE eD ed Hed ED. unfold weight_grad. change (0 / 1)%Z with 0%Z. change (0 mod 1)%Z with 0%Z. rewrite (one_bias w X s x Hb Hw Hx W XX D d Hd). now rewrite Hx. Qed.
Lemma one_weight_err : 0 <= weight_err (prec := 53) (emax := 1024) c ReLU' 1 1 s x e d ed 0 <= 10.
Proof.
  unfold weight_err. change (0 / 1)%Z with 0%Z. change (0 mod 1)%Z with 0%Z. rewrite (one_bias w X s x Hb Hw Hx W XX D d Hd), Hx, Hee.
  pose proof (one_bias_err c w X s x e Hb Hw Hx W XX D eD d ed Hd Hed ltac:(lra) ltac:(lra)) as B. set (b := bias_err _ _ _ _ _ _ _ _ _ _) in *. clearbody b. unfold prod_err, prod_size. rewrite !Rabs_pos_eq by lra.
  assert (0 <= (X + E) * (D + b) <= 21 * 20) by (split; [apply Rmult_le_pos; lra|apply Rmult_le_compat; lra]). pose proof (tiny 1 1 ((X + E) * (D + b)) ltac:(lia) ltac:(lia) ltac:(lra)).
  assert (0 <= E * (D + b) <= / 10 * 20) by (split; [apply Rmult_le_pos; lra|apply Rmult_le_compat; lra]). assert (0 <= X * b <= 20 * (/ 5 + / 100)) by (split; [apply Rmult_le_pos; lra|apply Rmult_le_compat; lra]). lra.
Qed.
Lemma one_sizes : (0 <= bias_grad ReLU' 1 1 s x d 0 <= 360 /\ 0 <= bias_err (prec := 53) (emax := 1024) c ReLU' 1 1 s x e d ed 0 <= 10) /\
  (0 <= weight_grad ReLU' 1 1 s x d 0 <= 360 /\ 0 <= weight_err (prec := 53) (emax := 1024) c ReLU' 1 1 s x e d ed 0 <= 10).
Proof.
  pose proof (one_bias_err c w X s x e Hb Hw Hx W XX D eD d ed Hd Hed ltac:(lra) ltac:(lra)) as B. pose proof one_weight_err as B2.
  rewrite one_weight, (one_bias w X s x Hb Hw Hx W XX D d Hd). assert (0 <= X * D <= 20 * 18) by (split; [apply Rmult_le_pos; lra|apply Rmult_le_compat; lra]). lra.
Qed.
End One.
Lemma sizes i p s r j : nth_error th i = Some (p, s) -> is_param p r j ->
  0 <= s r j <= 2 /\ 0 <= sample_gradient MSE th xr (reals yv) i r j <= 360 /\ 0 <= sample_error (prec := 53) (emax := 1024) c MSE th xr (reals yv) i r j <= 10.
Proof.
  intros Hi Hj. unfold sample_gradient, sample_error. change no_error with e0. pose proof (e1_val c) as E1. pose proof (ed_val c) as Q. pose proof (d_val) as Dv. pose proof y1_val as Y1. pose proof sd0 as V0. pose proof sd1 as V1.
  change th with [(one_plan, sd 1); (one_plan, sd 0)] in *. set (s1 := sd 1) in *. set (s2 := sd 0) in *. clearbody s1 s2.
  change (real_net [(one_plan, s1); (one_plan, s2)] xr) with (real_layer one_plan s2 (real_layer one_plan s1 xr)).
  change (drift (prec := 53) (emax := 1024) c [(one_plan, s1); (one_plan, s2)] xr e0) with (layer_drift (prec := 53) (emax := 1024) c one_plan s2 (real_layer one_plan s1 xr) (layer_drift (prec := 53) (emax := 1024) c one_plan s1 xr e0)).
  set (y1 := real_layer one_plan s1 xr) in *. set (e1 := layer_drift (prec := 53) (emax := 1024) c one_plan s1 xr e0) in *.
  set (d := loss_slope MSE (reals yv) (real_layer one_plan s2 y1)) in *. set (ed := loss_err (prec := 53) c MSE (reals yv) (real_layer one_plan s2 y1) (layer_drift (prec := 53) (emax := 1024) c one_plan s2 y1 e1)) in *.
  pose proof (one_delta_err c 1 18 s2 y1 e1 (V0 _ (or_introl eq_refl)) (V0 _ (or_intror eq_refl)) Y1 ltac:(lra) ltac:(lra) 18 (ed 0%Z) d ed Dv eq_refl ltac:(lra) ltac:(lra)) as DE.
  pose proof (one_delta 1 18 s2 y1 (V0 _ (or_introl eq_refl)) (V0 _ (or_intror eq_refl)) Y1 ltac:(lra) ltac:(lra) 18 d Dv) as DV.
  destruct (one_sizes 1 18 (e1 0%Z) s2 y1 e1 (V0 _ (or_introl eq_refl)) (V0 _ (or_intror eq_refl)) Y1 eq_refl ltac:(lra) ltac:(lra) ltac:(lra) 18 (ed 0%Z) d ed Dv eq_refl ltac:(lra) ltac:(lra)) as [Z1 Z2].
  destruct (one_sizes 2 8 0 s1 xr e0 (V1 _ (or_introl eq_refl)) (V1 _ (or_intror eq_refl)) eq_refl eq_refl ltac:(lra) ltac:(lra) ltac:(lra) 18 _ (delta_val (Functions.Scalar ReLU) 1 1 s2 y1 d) (delta_err (prec := 53) (emax := 1024) c (Functions.Scalar ReLU) 1 1 s2 y1 e1 d ed) ltac:(rewrite DV; lra) eq_refl ltac:(lra) ltac:(lra)) as [Z3 Z4].
  assert (P1 : forall r, r = RB \/ r = RW 0 -> 0 <= s1 r 0%Z <= 2) by (intros q Hq; pose proof (V1 q Hq) as V; lra).
  assert (P2 : forall r, r = RB \/ r = RW 0 -> 0 <= s2 r 0%Z <= 2) by (intros q Hq; pose proof (V0 q Hq) as V; lra).
  destruct i as [|[|i]]; cbn [nth_error] in Hi; [| |destruct i; discriminate]; injection Hi as <- <-; destruct r as [|f| | | |f| | | |]; cbn [is_param one_plan] in Hj; try contradiction.
  - replace j with 0%Z by lia. split; [apply P1; now left|]. exact Z3.
  - destruct Hj as [-> Hj]. replace j with 0%Z by lia. split; [apply P1; now right|]. exact Z4.
  - replace j with 0%Z by lia. split; [apply P2; now left|]. exact Z1.
  - destruct Hj as [-> Hj]. replace j with 0%Z by lia. split; [apply P2; now right|]. exact Z2.
Qed.
Lemma room p g e : 0 <= p <= 2 -> 0 <= g <= 360 -> 0 <= e <= 20 -> update_room (prec := 53) (emax := 1024) (/ 128) p g e.
Proof.
  intros Hp Hg He. pose proof far as Fa. pose proof u_tiny as Ut. unfold update_room, prod_size, prod_err, prod_size. rewrite !(Rabs_pos_eq g), !(Rabs_pos_eq (/ 128)) by lra.
  assert (0 <= (g + e) * (/ 128 + 0) <= 380 * (/ 128)) by (split; [apply Rmult_le_pos; lra|apply Rmult_le_compat; lra]). pose proof (tiny 1 1 ((g + e) * (/ 128 + 0)) ltac:(lia) ltac:(lia) ltac:(lra)) as T. cbv zeta. split; [lra|].
  assert (Rabs (p - g * / 128) <= 10) by (apply Rabs_le; lra). set (v := roundings _ _ _ _ _) in *. set (q := Rabs (p - g * / 128)) in *. assert (0 <= q) by apply Rabs_pos.
  assert ((q + (e * (/ 128 + 0) + g * 0 + v)) * (1 + uro 53) <= 20 * 2) by (apply Rmult_le_compat; lra). lra.
Qed.
Lemma round_ok : batch_ok (prec := 53) (emax := 1024) c MSE th (fun k => reals (xs k)) (fun k => reals (ys k)) [0%Z] (/ 128).
Proof.
  split; [cbn [length]; lia|]. unfold xs, ys. rewrite x_val. split; [intros k _; exact one_ok|]. intros i p s r j Hi Hj. destruct (sizes i p s r j Hi Hj) as (P & G & E). pose proof far as Fa. pose proof u_tiny as Ut.
  unfold mean_error, mean_gradient, sum_error, gradient_sum, sum_size, sum_over. cbn [fold_right length INR pow]. rewrite !Rplus_0_r, Rmult_1_r, Rinv_1, !Rmult_1_r.
  set (g := sample_gradient _ _ _ _ _ _ _) in *. set (e := sample_error _ _ _ _ _ _ _ _) in *. rewrite !(Rabs_pos_eq g) by lra. clearbody g e.
  assert (E1 : 0 <= eta 53 1024 <= / 1048576) by (split; [left; apply eta_pos|unfold eta; change (/ 1048576) with (bpow radix2 (-20)); apply bpow_le; lia]).
  replace (1 + uro 53 - 1) with (uro 53) by ring. assert (M1 : 0 <= uro 53 * (g + e) <= / 1048576 * 400) by (split; [apply Rmult_le_pos; lra|apply Rmult_le_compat; lra]).
  assert (M2 : (g + e) * (1 + uro 53) <= 400 * 2) by (apply Rmult_le_compat; lra). split; [lra|]. set (se := e + uro 53 * (g + e)) in *. assert (S1 : 0 <= se <= 11) by (unfold se; lra). clearbody se.
  set (ee := uro 53 + eta 53 1024). assert (S2 : 0 <= ee <= / 100000) by (unfold ee; lra). clearbody ee. unfold prod_size. rewrite (Rabs_pos_eq g), Rabs_R1 by lra.
  assert (M3 : 0 <= (g + se) * (1 + ee) <= 371 * 2) by (split; [apply Rmult_le_pos; lra|apply Rmult_le_compat; lra]). pose proof (tiny 1 1 ((g + se) * (1 + ee)) ltac:(lia) ltac:(lia) ltac:(lra)) as T. cbv zeta. split; [lra|].
  apply room; [exact P|lra|]. unfold prod_err, prod_size. rewrite (Rabs_pos_eq g), Rabs_R1 by lra. set (v := roundings _ _ _ _ _) in *.
  assert (0 <= se * (1 + ee) <= 11 * (1 + / 100000)) by (split; [apply Rmult_le_pos; lra|apply Rmult_le_compat; lra]). assert (0 <= g * ee <= 360 * / 100000) by (split; [apply Rmult_le_pos; lra|apply Rmult_le_compat; lra]). lra.
Qed.
Lemma step_ok : stochastic_ok (prec := 53) (emax := 1024) c MSE th xr (reals yv) (/ 128).
Proof. split; [exact one_ok|]. intros i p s r j Hi Hj. destruct (sizes i p s r j Hi Hj) as (P & G & E). apply room; lra. Qed.
Example C132_batch_applies addr : exists l' m', tr_batch addr (layers [n1; n2]) tr [tv 18 1] [tv 19 1] (grad_descent rate) 1 m0 = Ok ((layers l', grad_descent rate), m') /\
  inexact_step (fun th => mean_loss MSE th (fun k => reals (xs k)) (fun k => reals (ys k)) [0%Z]) (/ 128)
    (batch_error (prec := 53) (emax := 1024) c MSE th (fun k => reals (xs k)) (fun k => reals (ys k)) [0%Z] (/ 128)) th (exact (prec := 53) (emax := 1024) l').
Proof.
  destruct rate_val as [Fr Vr].
  destruct (C132_batch_follows (prec := 53) (emax := 1024) ltac:(lia) ltac:(lia) ltac:(lia) lib PropFloatLayers.Examples.lib_ok c PropFloatNet.Examples.lib_acc (cr_lib_cosh (prec := 53) (emax := 1024) ltac:(lia) ltac:(lia))
    addr m0 [n1; n2] tr MSE [tv 18 1] [tv 19 1] xs ys (grad_descent rate) rd eq_refl ltac:(repeat constructor) two_sound fd Fr 1 ltac:(lia) ltac:(discriminate)) as (l' & m' & ths & R & _ & H1 & H2 & H3).
  exists l', m'. split; [exact R|]. change (o_lr (grad_descent rate)) with rate in H3. rewrite Vr in H3. change (repeat (zrange 0 (Z.of_nat (length [tv 18 1]))) (Z.to_nat 1)) with [[0%Z]] in H3.
  destruct ths as [|a [|b ths]]; try discriminate; [destruct H3|]. cbn [hd_error] in H1. injection H1 as ->. cbn [follows] in H3. destruct (H3 round_ok) as [St Rest]. destruct ths; [|destruct Rest]. cbn [last] in H2. subst b. exact St.
Qed.
Example C132_stochastic_applies addr : exists l' m', tr_stochastic addr (layers [n1; n2]) tr [tv 18 1] [tv 19 1] (grad_descent rate) 1 (fun _ => 5%Z) m0 = Ok (grad_descent rate, m') /\
  inexact_step (fun th => sample_loss MSE th xr (reals yv)) (/ 128) (stochastic_error (prec := 53) (emax := 1024) c MSE th xr (reals yv) (/ 128)) th (exact (prec := 53) (emax := 1024) l').
Proof.
  destruct rate_val as [Fr Vr].
  destruct (C132_stochastic_follows (prec := 53) (emax := 1024) ltac:(lia) ltac:(lia) ltac:(lia) lib PropFloatLayers.Examples.lib_ok c PropFloatNet.Examples.lib_acc (cr_lib_cosh (prec := 53) (emax := 1024) ltac:(lia) ltac:(lia))
    addr m0 [n1; n2] tr MSE [tv 18 1] [tv 19 1] xs ys (grad_descent rate) rd eq_refl ltac:(repeat constructor) two_sound fd Fr 1 (fun _ => 5%Z) ltac:(lia) ltac:(discriminate) ltac:(intros; lia)) as (l' & m' & ths & R & _ & _ & H1 & H2 & H3).
  { intros L [Q|[Q|[]]]; injection Q as <-; reflexivity. }
  exists l', m'. split; [exact R|]. change (o_lr (grad_descent rate)) with rate in H3. rewrite Vr in H3. change (map (fun i : Z => (5 mod Z.of_nat (length [tv 18 1]))%Z) (zrange 0 1)) with [0%Z] in H3.
  destruct ths as [|a [|b ths]]; try discriminate; [destruct H3|]. cbn [hd_error] in H1. injection H1 as ->. cbn [follows_samples] in H3. unfold xs, ys in H3. rewrite x_val in H3. destruct (H3 step_ok) as [St Rest]. destruct ths; [|destruct Rest]. cbn [last] in H2. subst b. exact St.
Qed.
(** a single parameter (the bias of a layer), loss b^2/2: from 1 by a step of learning rate 1/2 that is off by 1/8 *)
Definition half_square (th : model) : R := param th 0 RB 0 * param th 0 RB 0 / 2.
Definition one_model (b : R) : model := [(one_plan, fun r _ => match r with RB => b | _ => 0 end)].
Definition half_slope (b : R) (i : nat) (r : role) (j : Z) : R := match r with RB => b | _ => 0 end.
Lemma half_gradient b : gradient_of half_square (one_model b) (half_slope b).
Proof.
  intros [|[|i]] p s r j Hi Hj; cbn in Hi; try discriminate. injection Hi as <- <-. unfold partial. destruct r as [|f| | | |f| | | |]; cbn [is_param one_plan] in Hj; try contradiction.
  - replace j with 0%Z by lia. unfold half_square, param, one_model. cbn [with_param nth_error]. apply is_derive_Reals.
    eapply is_derive_ext with (f := fun v => v * v / 2); [intros v; unfold set_role, upd; cbn; reflexivity|]. auto_derive; [exact I|]. cbn [half_slope]. lra.
  - destruct Hj as [-> Hj]. replace j with 0%Z by lia. unfold half_square, param, one_model. cbn [with_param nth_error]. apply is_derive_Reals.
    eapply is_derive_ext with (f := fun v => b * b / 2); [intros v; unfold set_role, upd; cbn; reflexivity|]. auto_derive; [exact I|]. cbn [half_slope]. lra.
Qed.
Lemma one_total b f : total 0 (one_model b) f = f 0%nat RB 0%Z + f 0%nat (RW 0) 0%Z.
Proof. cbn [total one_model one_plan]. change (1 * 1)%Z with 1%Z. rewrite !rsum1. ring. Qed.
Lemma half_step : inexact_step half_square (/ 2) (fun _ _ _ => / 8) (one_model 1) (one_model (5 / 8)).
Proof.
  split; [reflexivity|]. intros i p s Hi. pose proof Hi as Hi'. destruct i as [|[|i]]; cbn in Hi; try discriminate. injection Hi as <- <-. exists (fun r _ => match r with RB => 5 / 8 | _ => 0 end). split; [reflexivity|].
  intros r j Hj. exists (half_slope 1 0 r j). split; [exact (half_gradient 1 0%nat _ _ r j Hi' Hj)|].
  destruct r as [|f| | | |f| | | |]; cbn [is_param one_plan] in Hj; try contradiction; cbn [half_slope]; [|destruct Hj as [-> Hj]]; apply Rabs_le; lra.
Qed.
Lemma half_bends : bends_at_most 1 half_square (one_model 1) (one_model (5 / 8)).
Proof.
  intros G HG. rewrite !one_total. assert (E : forall r, r = RB \/ r = RW 0 -> G 0%nat r 0%Z = half_slope 1 0 r 0%Z).
  { intros r Hr. eapply partial_unique; [eapply (HG 0%nat); [reflexivity|]|eapply (half_gradient 1 0%nat); [reflexivity|]]; destruct Hr as [-> | ->]; cbn; lia. }
  rewrite (E RB), (E (RW 0)) by auto. unfold half_square, param, one_model. cbn. lra.
Qed.
Lemma one_dense b : Forall is_dense (map fst (one_model b)).
Proof. repeat constructor. Qed.
Example C132_loss_decreases_applies : half_square (one_model (5 / 8)) <= half_square (one_model 1) - / 2 / 2 * 1 + / (2 * (/ 2)) * (2 * (/ 8 * / 8)).
Proof.
  pose proof (C132_loss_decreases half_square (/ 2) (fun _ _ _ => / 8) (one_model 1) (one_model (5 / 8)) 1 (half_slope 1) ltac:(lra) ltac:(lra) (one_dense 1) half_step (half_gradient 1) half_bends) as H.
  rewrite !one_total in H. cbn [half_slope] in H. lra.
Qed.
Example C132_gradient_becomes_small_applies : exists th, In th [one_model 1; one_model (5 / 8)] /\
  total 0 th (fun i r j => half_slope (param th 0 RB 0) i r j * half_slope (param th 0 RB 0) i r j) <= 2 * (1 / 2 - 0) / (/ 2 * 1) + (/ 32) / (/ 2 * / 2).
Proof.
  assert (H0 : half_square (hd [] [one_model 1; one_model (5 / 8)]) = 1 / 2) by (unfold half_square, param, one_model; cbn; lra).
  rewrite <- H0. apply (C132_gradient_becomes_small half_square (/ 2) 1 0 (/ 32) (fun th => half_slope (param th 0 RB 0)) [one_model 1; one_model (5 / 8)]); [lra|lra|cbn; lia| |].
  - cbn [consecutive]. split; [|exact I]. exists (fun _ _ _ => / 8). split; [exact half_step|]. split; [exact half_bends|]. rewrite one_total. lra.
  - assert (P : forall b, Forall is_dense (map fst (one_model b)) /\ gradient_of half_square (one_model b) (half_slope (param (one_model b) 0 RB 0)) /\ 0 <= half_square (one_model b)).
    { intros b. split; [apply one_dense|]. split; [exact (half_gradient b)|]. unfold half_square. pose proof (Rle_0_sqr (param (one_model b) 0 RB 0)) as Q. unfold Rsqr in Q. lra. }
    apply Forall_cons; [exact (P 1)|]. apply Forall_cons; [exact (P (5 / 8))|]. apply Forall_nil.
Qed.
End Examples.
Print Assumptions C132_batch_follows.
Print Assumptions C132_mini_batch_follows.
Print Assumptions C132_stochastic_follows.
Print Assumptions C132_loss_decreases.
Print Assumptions C132_gradient_becomes_small.

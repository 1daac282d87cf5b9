(** * A training round is a gradient step (proofs for C90, C91) *)
From Coq Require Import QArith Reals Lra FunctionalExtensionality.
From Coquelicot Require Import Coquelicot.
From Verif Require Import Mem Scalar MemSpec MemLemmas Lique LiqueSpec LiqueProofs LiqueProofs2 Linear LinearProofs Functions FunctionSpec FunctionProofs
  Optimizer Layer LayerSpec FCProofs Cells ConvSpec ConvProofs ConvProofs2 PoolSpec PoolProofs RSum RealSpec ActivationProofs LossProofs NetSpec Vjp ConvVjp
  PropFunctions PropFC PropConv PropPool Net NetPlan NetProofs NetBack PropNet NetReal NetGrad PropNetGrad NetTotal Descent DescentSpec.
Local Open Scope R_scope.

Lemma rsum_nonneg n f : (forall i, (0 <= i < n)%Z -> 0 <= f i) -> 0 <= rsum n f. Proof. exact (zsum_nonneg n f). Qed.
Lemma rsum_nonneg_term n f k : (0 <= k < n)%Z -> (forall i, (0 <= i < n)%Z -> 0 <= f i) -> f k <= rsum n f. Proof. exact (zsum_nonneg_term n f k). Qed.

(** ** the sums kept by the layers *)
Definition acc (p : plan) (s : contents R) : contents R := fun r =>
  match p, r with
  | PDense _ _ _, RB => s RGradBs
  | PDense _ _ _, RW f => if (f =? 0)%Z then s RGradWs else fun _ => 0
  | PConv _, RB => s RGradB
  | PConv _, RW f => s (RGradW f)
  | _, _ => fun _ => 0
  end.
Definition gained (p : plan) (s s2 : contents R) : contents R := fun r j =>
  match p, r with
  | PDense _ _ _, RB => s2 RGradB j
  | PDense _ _ _, RW f => if (f =? 0)%Z then s2 (RGradW 0) j else 0
  | PConv _, RB => s2 RGradB j - s RGradB j
  | PConv _, RW f => s2 (RGradW f) j - s (RGradW f) j
  | _, _ => 0
  end.
Definition gdot (p : plan) (g s1 : contents R) : R :=
  match p with
  | PDense _ n k => rsum k (fun j => g RB j * s1 RB j) + rsum (n * k) (fun o => g (RW 0) o * s1 (RW 0) o)
  | PConv q => rsum (g_f q) (fun f => g RB f * s1 RB f) + rsum (g_f q) (fun f => rsum (g_d q * g_fh q * g_fw q) (fun o => g (RW f) o * s1 (RW f) o))
  | PPool _ _ => 0
  end.
Lemma params_gdot p s s2 s1 : params_dot p s s2 s1 = gdot p (gained p s s2) s1. Proof. destruct p; reflexivity. Qed.
Lemma gdot_ext p g g' s1 s1' : (forall r j, is_param p r j -> g r j = g' r j) -> (forall r j, is_param p r j -> s1 r j = s1' r j) -> gdot p g s1 = gdot p g' s1'.
Proof.
  intros E1 E2. destruct p as [a n k|q|a q]; cbn [gdot]; [| |reflexivity].
  - f_equal; apply rsum_ext; intros j Hj; rewrite E1, E2; cbn; auto.
  - f_equal; [apply rsum_ext; intros j Hj; rewrite E1, E2; cbn; auto|]. apply rsum_ext. intros f Hf. apply rsum_ext. intros o Ho. rewrite E1, E2; cbn; auto.
Qed.
Lemma gdot_plus p g g' s1 : gdot p (fun r j => g r j + g' r j) s1 = gdot p g s1 + gdot p g' s1.
Proof.
  destruct p as [a n k|q|a q]; cbn [gdot]; [| |lra].
  - rewrite (rsum_ext k (fun j => (g RB j + g' RB j) * s1 RB j) (fun j => g RB j * s1 RB j + g' RB j * s1 RB j)) by (intros; ring).
    rewrite (rsum_ext (n * k) (fun o => (g (RW 0) o + g' (RW 0) o) * s1 (RW 0) o) (fun j => g (RW 0) j * s1 (RW 0) j + g' (RW 0) j * s1 (RW 0) j)) by (intros; ring).
    rewrite !rsum_plus. lra.
  - rewrite (rsum_ext (g_f q) (fun j => (g RB j + g' RB j) * s1 RB j) (fun j => g RB j * s1 RB j + g' RB j * s1 RB j)) by (intros; ring).
    rewrite (rsum_ext (g_f q) (fun f => rsum _ (fun o => (g (RW f) o + g' (RW f) o) * s1 (RW f) o))
      (fun f => rsum (g_d q * g_fh q * g_fw q) (fun o => g (RW f) o * s1 (RW f) o) + rsum (g_d q * g_fh q * g_fw q) (fun o => g' (RW f) o * s1 (RW f) o))).
    + rewrite !rsum_plus. lra.
    + intros f _. rewrite <- rsum_plus. apply rsum_ext. intros; ring.
Qed.
Lemma gdot_scal p g c s1 : gdot p g (fun r j => c * s1 r j) = c * gdot p g s1.
Proof.
  destruct p as [a n k|q|a q]; cbn [gdot]; [| |lra].
  - rewrite Rmult_plus_distr_l, <- !rsum_scal. f_equal; apply rsum_ext; intros; ring.
  - rewrite Rmult_plus_distr_l, <- !rsum_scal. f_equal; apply rsum_ext; intros; [ring|]. rewrite <- rsum_scal. apply rsum_ext. intros; ring.
Qed.
Lemma gdot_self p g : 0 <= gdot p g g.
Proof.
  destruct p as [a n k|q|a q]; cbn [gdot]; [| |lra]; apply Rplus_le_le_0_compat; apply rsum_nonneg; intros; try apply Rle_0_sqr.
  apply rsum_nonneg. intros. apply Rle_0_sqr.
Qed.
Lemma gdot_self_pos p g r j : is_param p r j -> g r j <> 0 -> 0 < gdot p g g.
Proof.
  intros P N. assert (Sq : 0 < g r j * g r j) by (apply Rsqr_pos_lt in N; exact N).
  destruct p as [a n k|q|a q]; cbn [gdot]; [| |destruct P].
  - destruct r; cbn in P; try tauto.
    + pose proof (rsum_nonneg_term k (fun j => g RB j * g RB j) j P ltac:(intros; apply Rle_0_sqr)) as Q.
      pose proof (rsum_nonneg (n * k) (fun j => g (RW 0) j * g (RW 0) j) ltac:(intros; apply Rle_0_sqr)). cbv beta in *. lra.
    + destruct P as [-> P]. pose proof (rsum_nonneg_term (n * k) (fun j => g (RW 0) j * g (RW 0) j) j P ltac:(intros; apply Rle_0_sqr)) as Q.
      pose proof (rsum_nonneg k (fun j => g RB j * g RB j) ltac:(intros; apply Rle_0_sqr)). cbv beta in *. lra.
  - set (h := fun f => rsum (g_d q * g_fh q * g_fw q) (fun o => g (RW f) o * g (RW f) o)).
    assert (Hh : forall f, 0 <= h f) by (intros; apply rsum_nonneg; intros; apply Rle_0_sqr).
    destruct r; cbn in P; try tauto.
    + pose proof (rsum_nonneg_term (g_f q) (fun j => g RB j * g RB j) j P ltac:(intros; apply Rle_0_sqr)) as Q.
      pose proof (rsum_nonneg (g_f q) h ltac:(auto)). cbv beta in *. lra.
    + destruct P as [Pf P]. pose proof (rsum_nonneg_term (g_f q) h f Pf ltac:(auto)) as Q1.
      pose proof (rsum_nonneg_term (g_d q * g_fh q * g_fw q) (fun j => g (RW f) j * g (RW f) j) j P ltac:(intros; apply Rle_0_sqr)) as Q2.
      pose proof (rsum_nonneg (g_f q) (fun j => g RB j * g RB j) ltac:(intros; apply Rle_0_sqr)). fold (h f) in Q2. cbv beta in *. lra.
Qed.
Lemma gdot_unit p g r j : is_param p r j -> gdot p g (set_role (fun _ _ => 0) r (unit_at j)) = g r j.
Proof.
  intros P. destruct p as [a n k|q|a q]; cbn [gdot]; [| |destruct P].
  - destruct r; cbn in P; try tauto.
    + rewrite set_role_same, (set_role_other _ RB _ (RW 0)), rsum_zero, rsum_unit by (auto || discriminate). lra.
    + destruct P as [-> P]. rewrite set_role_same, (set_role_other _ (RW 0) _ RB), rsum_zero, rsum_unit by (auto || discriminate). lra.
  - destruct r; cbn in P; try tauto.
    + rewrite set_role_same. rewrite (rsum_all0 (g_f q) (fun f => rsum _ _)) by (intros; rewrite set_role_other by discriminate; apply rsum_zero).
      rewrite (rsum_unit (g_f q) (g RB)) by auto. lra.
    + destruct P as [Pf P]. rewrite (set_role_other _ (RW f) _ RB), rsum_zero by discriminate.
      rewrite (rsum_ext (g_f q) _ (fun f' => if (f' =? f)%Z then g (RW f) j else 0)).
      * rewrite (rsum_delta (g_f q) f (fun _ => g (RW f) j)) by auto. lra.
      * intros f' _. destruct (Z.eqb_spec f' f) as [->|Nf].
        -- rewrite set_role_same. apply (rsum_unit _ (g (RW f))). auto.
        -- rewrite set_role_other by congruence. apply rsum_zero.
Qed.
Fixpoint gtotal (ps : list plan) (g s1 : nat -> contents R) : R :=
  match ps with [] => 0 | p :: ps => gdot p (g O) (s1 O) + gtotal ps (fun i => g (S i)) (fun i => s1 (S i)) end.
Lemma gtotal_ext ps : forall g g' s1 s1', (forall i p r j, nth_error ps i = Some p -> is_param p r j -> g i r j = g' i r j) ->
  (forall i p r j, nth_error ps i = Some p -> is_param p r j -> s1 i r j = s1' i r j) -> gtotal ps g s1 = gtotal ps g' s1'.
Proof.
  induction ps as [|p ps IH]; intros g g' s1 s1' E1 E2; [reflexivity|]. cbn [gtotal]. f_equal.
  - apply gdot_ext; intros r j P; [apply (E1 O p r j eq_refl P)|apply (E2 O p r j eq_refl P)].
  - apply IH; intros i q r j Q P; [apply (E1 (S i) q r j Q P)|apply (E2 (S i) q r j Q P)].
Qed.
Lemma gtotal_plus ps : forall g g' s1, gtotal ps (fun i r j => g i r j + g' i r j) s1 = gtotal ps g s1 + gtotal ps g' s1.
Proof. induction ps as [|p ps IH]; intros g g' s1; cbn [gtotal]; [lra|]. rewrite gdot_plus, (IH (fun i => g (S i)) (fun i => g' (S i))). lra. Qed.
Lemma gtotal_scal ps : forall g c s1, gtotal ps g (fun i r j => c * s1 i r j) = c * gtotal ps g s1.
Proof. induction ps as [|p ps IH]; intros g c s1; cbn [gtotal]; [lra|]. rewrite gdot_scal, (IH (fun i => g (S i)) c (fun i => s1 (S i))). lra. Qed.
Lemma gtotal_0 ps : forall g s1, (forall i p r j, nth_error ps i = Some p -> is_param p r j -> s1 i r j = 0) -> gtotal ps g s1 = 0.
Proof.
  intros g s1 H. rewrite (gtotal_ext ps g g s1 (fun i r j => 0 * s1 i r j)); auto; [rewrite gtotal_scal; lra|].
  intros i p r j E P. rewrite (H i p r j E P). lra.
Qed.
Lemma gtotal_self ps : forall g, 0 <= gtotal ps g g.
Proof. induction ps as [|p ps IH]; intros g; cbn [gtotal]; [lra|]. pose proof (gdot_self p (g O)). pose proof (IH (fun i => g (S i))). lra. Qed.
Lemma gtotal_self_pos ps : forall g i p r j, nth_error ps i = Some p -> is_param p r j -> g i r j <> 0 -> 0 < gtotal ps g g.
Proof.
  induction ps as [|p ps IH]; intros g [|i] q r j E P N; cbn in E; try discriminate; cbn [gtotal].
  - injection E as ->. pose proof (gdot_self_pos q (g O) r j P N). pose proof (gtotal_self ps (fun i => g (S i))). lra.
  - pose proof (gdot_self p (g O)). pose proof (IH (fun i => g (S i)) i q r j E P N). lra.
Qed.
(** the direction of one parameter *)
Definition unit_dir (i : nat) (r : role) (j : Z) : nat -> contents R := fun i' => if Nat.eqb i' i then set_role (fun _ _ => 0) r (unit_at j) else fun _ _ => 0.
Lemma gtotal_unit ps : forall g i p r j, nth_error ps i = Some p -> is_param p r j -> gtotal ps g (unit_dir i r j) = g i r j.
Proof.
  induction ps as [|p ps IH]; intros g [|i] q r j E P; cbn in E; try discriminate; cbn [gtotal].
  - injection E as ->. unfold unit_dir at 1. cbn [Nat.eqb]. rewrite gdot_unit by auto. rewrite gtotal_0; [lra|]. intros; reflexivity.
  - replace (gdot p (g O) (unit_dir (S i) r j O)) with 0.
    + rewrite Rplus_0_l. exact (IH (fun i => g (S i)) i q r j E P).
    + symmetry. replace (unit_dir (S i) r j O) with (fun (r : role) (j : Z) => 0 * (fun _ _ => 0) r j); [rewrite gdot_scal; lra|].
      apply functional_extensionality. intros. apply functional_extensionality. intros. cbn. lra.
Qed.

(** ** nodes during training *)
Definition sound (d : node R) : Prop :=
  train_class (n_layer d) /\ fits (n_layer d) (n_plan d) /\ match n_plan d with PConv g => off_grid_zero g (n_data d) | _ => True end.
Definition flagged (d : node R) : Prop := match n_layer d with LFC L => f_acc L = true | _ => True end.
Definition unflagged (d : node R) : Prop := match n_layer d with LFC L => f_acc L = false | _ => True end.
(** same plan and parameters *)
Definition same_params (d d' : node R) : Prop :=
  n_plan d' = n_plan d /\ n_data d' RB = n_data d RB /\ forall f, n_data d' (RW f) = n_data d (RW f).
Definition params_role (r : role) : Prop := match r with RB | RW _ => True | _ => False end.
Lemma same_params_role d d' r : same_params d d' -> params_role r -> n_data d' r = n_data d r.
Proof. intros (_ & B & W) P. destruct r; try destruct P; auto. Qed.
Lemma is_param_role p r j : is_param p r j -> params_role r. Proof. destruct p, r; cbn; tauto. Qed.
Definition accs (l : list (node R)) (i : nat) : contents R := match nth_error l i with Some d => acc (n_plan d) (n_data d) | None => fun _ _ => 0 end.
Definition datas (l : list (node R)) (i : nat) : contents R := match nth_error l i with Some d => n_data d | None => fun _ _ => 0 end.
Lemma sound_clean l : Forall sound l -> clean (to_model l).
Proof. intros F. unfold clean, to_model. rewrite Forall_map. eapply Forall_impl; [|exact F]. intros d (_ & _ & H). cbn [fst snd]. exact H. Qed.
Lemma sound_train l : Forall sound l -> Forall train_class (layers l).
Proof. intros F. unfold layers. rewrite Forall_map. eapply Forall_impl; [|exact F]. intros d H. apply H. Qed.
Lemma sound_fits l : Forall sound l -> Forall (fun d => fits (n_layer d) (n_plan d)) l.
Proof. intros F. eapply Forall_impl; [|exact F]. intros d H. apply H. Qed.
Lemma same_plans l l' : Forall2 same_params l l' -> plans l' = plans l.
Proof. induction 1 as [|d d' l l' S F IH]; [reflexivity|]. cbn. unfold plans in IH. rewrite IH. f_equal. apply S. Qed.
Lemma same_refl l : Forall2 same_params l l. Proof. induction l; constructor; auto. repeat split. Qed.
Lemma same_trans l l' l'' : Forall2 same_params l l' -> Forall2 same_params l' l'' -> Forall2 same_params l l''.
Proof.
  intros F. revert l''. induction F as [|d d' l l' S F IH]; intros l'' F2; inversion F2; subst; constructor; auto.
  destruct S as (A & B & C). match goal with H : same_params _ _ |- _ => destruct H as (A' & B' & C') end.
  split; [congruence|]. split; [congruence|]. intros f. rewrite C'. apply C.
Qed.
Lemma same_layer d d' x : same_params d d' -> real_layer (n_plan d') (n_data d') x = real_layer (n_plan d) (n_data d) x.
Proof.
  intros (A & B & C). rewrite A. destruct (n_plan d) as [[a|] n k|g|a q]; cbn [real_layer]; rewrite ?B, ?C; try reflexivity.
  f_equal. apply functional_extensionality. exact C.
Qed.
Lemma same_net l l' : Forall2 same_params l l' -> forall x, real_net (to_model l') x = real_net (to_model l) x.
Proof. induction 1 as [|d d' l l' S F IH]; intros x; [reflexivity|]. cbn [to_model map]. rewrite !real_net_cons. cbn [fst snd]. rewrite (same_layer d d' x S). apply IH. Qed.
Lemma same_smooth l l' : Forall2 same_params l l' -> forall x, smooth (to_model l) x -> smooth (to_model l') x.
Proof.
  induction 1 as [|d d' l l' S F IH]; intros x; [auto|]. cbn [to_model map smooth]. rewrite (same_layer d d' x S). intros [H1 H2]. split; [|now apply IH].
  destruct S as (A & B & C). rewrite A. destruct (n_plan d) as [[a|] n k|g|a q]; rewrite ?B, ?C; try exact H1. destruct l; [|discriminate]. inversion F. reflexivity.
Qed.
Lemma same_pcurves l l' c t0 s1 : Forall2 same_params l l' -> pcurves l c t0 s1 -> pcurves l' c t0 s1.
Proof.
  intros F P i d' E'. assert (exists d, nth_error l i = Some d /\ same_params d d') as (d & E & S).
  { clear -F E'. revert i E'. induction F as [|d d2 l l' S F IH]; intros [|i] E'; cbn in *; try discriminate; eauto. injection E' as <-. eauto. }
  destruct (P i d E) as (A & B & C & D). destruct S as (_ & Eb & Ew). split; [|split; [|split; auto]]; intros; rewrite ?Eb, ?Ew; auto.
Qed.
Lemma final_plan_model l : final_plan (to_model l) = last_plan l.
Proof. unfold final_plan, last_plan, to_model, plans. rewrite map_map. reflexivity. Qed.
Lemma Forall2_nth {A B} (P : A -> B -> Prop) l : forall l', length l' = length l ->
  (forall i a b, nth_error l i = Some a -> nth_error l' i = Some b -> P a b) -> Forall2 P l l'.
Proof.
  induction l as [|a l IH]; intros [|b l'] Len H; try discriminate; constructor.
  - apply (H O); reflexivity.
  - apply IH; [cbn in Len; lia|]. intros i. exact (H (S i)).
Qed.
Lemma nth_Forall2 {A B} (P : A -> B -> Prop) l l' : Forall2 P l l' -> forall i a, nth_error l i = Some a -> exists b, nth_error l' i = Some b /\ P a b.
Proof. induction 1 as [|a b l l' H F IH]; intros [|i] c E; cbn in *; try discriminate; eauto. injection E as <-. eauto. Qed.

(** feedforward and backprop on one sample *)
Definition one_sample (d d2 : node R) : Prop :=
  n_layer d2 = n_layer d /\ same_params d d2 /\ (is_dense (n_plan d) -> n_data d2 RGradBs = n_data d RGradBs /\ n_data d2 RGradWs = n_data d RGradWs) /\
  (sound d -> sound d2).
Lemma fwd_sound d x : sound d -> sound (fwd d x).
Proof.
  intros (T1 & F & C). split; [exact T1|]. split; [exact F|]. cbn [fwd n_plan n_data]. destruct (n_plan d) as [| g |] eqn:E; auto.
  eapply off_grid_role; [|exact C]. unfold after_forward. rewrite E. destruct (n_layer d); reflexivity.
Qed.
Lemma bwd_sound d x dl full : sound d -> sound (bwd d x dl full).
Proof.
  intros (T1 & F & C). split; [exact T1|]. split; [exact F|]. cbn [bwd n_plan n_data]. unfold after_backward. pose proof (dims_pos _ _ F) as G.
  destruct (n_plan d) as [| g |]; auto. apply off_grid_backward; auto.
Qed.
Lemma sample_nodes lo x y (l : list (node R)) : Forall2 one_sample l (l_sample lo x y l).
Proof.
  apply Forall2_nth.
  { pose proof (f_equal (@length _) (plans_sample lo x y l)) as Q. unfold plans in Q. now rewrite !map_length in Q. }
  intros i d d2 E E2. unfold l_sample in E2. set (dv := loss_dval lo y (net_out l x)) in *. clearbody dv.
  assert (exists d1, nth_error (run_fwd l x) i = Some d1) as (d1 & E1).
  { destruct (same_model_fwd l x) as (_ & P & _). destruct (nth_plans l (run_fwd l x) i d P E) as (d1 & Q & _). eauto. }
  destruct (nth_run_fwd _ _ _ _ E1) as (d' & Ed & ->). assert (d' = d) by congruence. subst d'. clear Ed. set (v := net_out (firstn i l) x) in *. clearbody v.
  refine (run_back_nth (fun a b => forall d, a = fwd d v -> one_sample d b) _ false x dv _ i (fwd d v) d2 E1 E2 d eq_refl). clear d d2 E E1 E2.
  intros a x' dl' full _ d ->. unfold one_sample, same_params. cbn [bwd fwd n_layer n_plan]. split; [reflexivity|].
  destruct (after_backward_params (fwd d v) x' dl' full) as [B W]. split; [split; [reflexivity|split]|split].
  - change (after_backward (fwd d v) x' dl' full RB = n_data d RB). rewrite B. cbn [fwd n_data]. apply after_forward_other; discriminate.
  - intros f. change (after_backward (fwd d v) x' dl' full (RW f) = n_data d (RW f)). rewrite W. cbn [fwd n_data]. apply after_forward_other; discriminate.
  - intros De. cbn [bwd n_data]. unfold after_backward. cbn [fwd n_plan n_data]. destruct (n_plan d) as [a n k| |]; try destruct De.
    unfold fc_after_backward. cbv zeta. destruct full; rewrite !set_role_other by discriminate; rewrite !after_forward_other by discriminate; auto.
  - intros H. apply (bwd_sound (fwd d v)). now apply fwd_sound.
Qed.
Lemma accum_same d : same_params d (n_accum d).
Proof. unfold n_accum. destruct d as [[L|L|L|L|L|L] p s]; cbn [n_layer n_data n_plan]; repeat split; cbn [n_data]; unfold fc_after_accumulate; intros; now rewrite !set_role_other by discriminate. Qed.
Lemma accum_sound d : sound d -> sound (n_accum d).
Proof.
  unfold n_accum. destruct d as [[L|L|L|L|L|L] p s]; cbn [n_layer]; auto.
Qed.
Lemma accum_flagged d : flagged (n_accum d).
Proof. unfold n_accum, flagged. destruct d as [[L|L|L|L|L|L] p s]; exact Logic.I || reflexivity. Qed.
Lemma reset_same d : same_params d (n_reset d).
Proof. unfold n_reset. destruct d as [[L|L|L|L|L|L] p s]; cbn [n_layer n_data n_plan]; repeat split; cbn [n_data]; unfold fc_after_reset; intros; now rewrite !set_role_other by discriminate. Qed.
Lemma reset_sound d : sound d -> sound (n_reset d).
Proof.
  unfold n_reset. destruct d as [[L|L|L|L|L|L] p s]; cbn [n_layer]; auto.
Qed.
Lemma reset_acc d r j : sound d -> params_role r -> acc (n_plan d) (n_data (n_reset d)) r j = match n_plan d with PConv _ => acc (n_plan d) (n_data d) r j | _ => 0 end.
Proof.
  destruct d as [L p s]. intros (T1 & F & _) P. unfold n_reset. cbn [n_layer n_plan n_data] in *. destruct p as [a n k|g|a q].
  - destruct L as [L|L|L|L|L|L]; cbn [fits train_class] in *; try contradiction. cbn [n_data]. unfold acc, fc_after_reset. destruct r; try destruct P.
    + rewrite set_role_other, set_role_same by discriminate. reflexivity.
    + destruct (f =? 0)%Z; [|reflexivity]. now rewrite set_role_same.
  - destruct L as [L|L|L|L|L|L]; cbn [fits train_class] in *; try contradiction. reflexivity.
  - unfold acc. destruct r; reflexivity.
Qed.
(** what accumulating adds *)
Lemma accum_acc d d2 r j : sound d -> one_sample d d2 -> params_role r ->
  acc (n_plan d) (n_data (n_accum d2)) r j = acc (n_plan d) (n_data d) r j + gained (n_plan d) (n_data d) (n_data d2) r j.
Proof.
  intros (T1 & F & _) (EL & (EP & _) & Sm & _) P. unfold n_accum. rewrite EL, EP. destruct (n_plan d) as [a n k|g|a q] eqn:Ep.
  - destruct (n_layer d) as [L|L|L|L|L|L]; cbn [fits train_class] in *; try contradiction. cbn [n_data]. destruct (Sm Logic.I) as [S1 S2].
    unfold acc, gained, fc_after_accumulate. destruct r; try destruct P.
    + rewrite set_role_other, set_role_same, S1 by discriminate. reflexivity.
    + destruct (f =? 0)%Z; [|lra]. rewrite set_role_same, S2. reflexivity.
  - destruct (n_layer d) as [L|L|L|L|L|L]; cbn [fits train_class] in *; try contradiction. unfold acc, gained. destruct r; try destruct P; lra.
  - destruct (n_layer d) as [L|L|L|L|L|L]; cbn [fits train_class] in *; try contradiction. unfold acc, gained. destruct r; lra.
Qed.
(** what updating does *)
Lemma update_sound lr al d : sound d -> sound (n_update lr al d).
Proof.
  intros (T1 & F & C). destruct d as [L p s]. unfold n_update. cbn [n_layer n_plan n_data] in *.
  destruct L as [L|L|L|L|L|L]; cbn [train_class] in T1; try tauto; (split; [exact Logic.I|]); (split; [exact F|]); cbn [n_plan n_data]; auto; destruct p; cbn [fits] in F; try tauto.
Qed.
Lemma scaled_R al g : scaled (T := R) al g = g * al.
Proof. unfold scaled. cbn [eqb Num_R one mul]. unfold Reqb. destruct (Req_EM_T al 1) as [->|]; [lra|reflexivity]. Qed.
Lemma update_params lr al d r j : sound d -> flagged d -> params_role r ->
  n_data (n_update lr al d) r j = n_data d r j - lr * (al * acc (n_plan d) (n_data d) r j).
Proof.
  intros (T1 & F & _) Fl P. destruct d as [L p s]. unfold n_update, flagged in *. cbn [n_layer n_plan n_data] in *. destruct p as [a n k|g|a q].
  - destruct L as [L|L|L|L|L|L]; cbn [fits train_class] in *; try contradiction. cbn [n_data]. unfold acc, fc_after_gd, rGB, rGW. rewrite Fl. cbv zeta. destruct r; try destruct P.
    + rewrite set_role_other, set_role_same, scaled_R by discriminate. cbn [sub mul Num_R]. ring.
    + destruct (Z.eqb_spec f 0) as [->|N].
      * rewrite set_role_same, scaled_R. cbn [sub mul Num_R]. ring.
      * rewrite !set_role_other by congruence. lra.
  - destruct L as [L|L|L|L|L|L]; cbn [fits train_class] in *; try contradiction. cbn [n_data]. unfold acc, conv_after_gd. destruct r; try destruct P; cbn [sub mul Num_R]; ring.
  - destruct L as [L|L|L|L|L|L]; cbn [fits train_class] in *; try contradiction. cbn [n_data]. unfold acc. destruct r; lra.
Qed.
Lemma update_grads lr al d r j g : sound d -> n_plan d = PConv g -> params_role r ->
  n_data (n_update lr al d) (grad_role r) j = lr * (al * acc (n_plan d) (n_data d) r j).
Proof.
  intros (T1 & F & _) Ep P. destruct d as [L p s]. unfold n_update. cbn [n_layer n_plan n_data] in *. subst p.
  destruct L as [L|L|L|L|L|L]; cbn [fits train_class] in *; try contradiction. cbn [n_data]. unfold acc, conv_after_gd. destruct r; try destruct P; cbn [grad_role mul Num_R]; ring.
Qed.

(** ** samples, then rounds *)
Lemma total_gtotal l l2 : Forall sound l -> Forall2 one_sample l l2 -> forall s1,
  total_dot l l2 s1 = gtotal (plans l) (fun i r j => accs (map n_accum l2) i r j - accs l i r j) s1.
Proof.
  intros S F. revert S. induction F as [|d d2 l l2 O F IH]; intros S s1; [reflexivity|]. apply Forall_cons_iff in S as [S1 S2].
  cbn [total_dot plans map gtotal]. f_equal.
  - rewrite params_gdot. apply gdot_ext; [|reflexivity]. intros r j P. unfold accs. cbn [nth_error].
    replace (n_plan (n_accum d2)) with (n_plan d) by (destruct (accum_same d2) as (Q & _); rewrite Q; destruct O as (_ & (Q' & _) & _); congruence).
    rewrite (accum_acc d d2 r j S1 O (is_param_role _ _ _ P)). lra.
  - rewrite (IH S2). apply gtotal_ext; reflexivity.
Qed.
Lemma one_sample_same l l2 : Forall2 one_sample l l2 -> Forall2 same_params l l2.
Proof. induction 1 as [|d d2 l l2 O F IH]; constructor; auto. apply O. Qed.
Lemma one_sample_sound l l2 : Forall2 one_sample l l2 -> Forall sound l -> Forall sound l2.
Proof. induction 1 as [|d d2 l l2 O F IH]; intros S; [constructor|]. apply Forall_cons_iff in S as [S1 S2]. constructor; auto. now apply O. Qed.
Lemma map_same (f : node R -> node R) l : (forall d, same_params d (f d)) -> Forall2 same_params l (map f l).
Proof. intros H. induction l; constructor; auto. Qed.
Lemma map_sound (f : node R -> node R) l : (forall d, sound d -> sound (f d)) -> Forall sound l -> Forall sound (map f l).
Proof. intros H F. rewrite Forall_map. eapply Forall_impl; [|exact F]. exact H. Qed.
Section Rounds.
Context (lo : loss) (xs ys : Z -> Z -> R).
Notation l_present := (l_present (T := R) lo xs ys).
Notation l_round := (l_round (T := R) lo xs ys).
Lemma present_inv i l : Forall sound l -> Forall sound (l_present l i) /\ Forall2 same_params l (l_present l i) /\ Forall flagged (l_present l i).
Proof.
  intros S. pose proof (sample_nodes lo (xs i) (ys i) l) as F. unfold Descent.l_present. split; [|split].
  - apply map_sound; [apply accum_sound|]. eapply one_sample_sound; eauto.
  - eapply same_trans; [apply one_sample_same; exact F|apply map_same, accum_same].
  - rewrite Forall_map. apply Forall_forall. intros d _. apply accum_flagged.
Qed.
Lemma present_derive i l s0 : l <> [] -> Forall sound l -> wired s0 (plans l) -> smooth (to_model l) (xs i) -> loss_fits lo (last_plan l) (ys i) (real_net (to_model l) (xs i)) ->
  forall c t0 s1, pcurves l c t0 s1 ->
  is_derive (fun t => net_loss lo (last_plan l) (ys i) (real_net (with_all (plans l) (fun i => c i t)) (xs i))) t0
    (gtotal (plans l) (fun i' r j => accs (l_present l i) i' r j - accs l i' r j) s1).
Proof.
  intros Ne S W Sm Lf c t0 s1 Pc. pose proof (sound_fits l S) as F. pose proof (sound_clean l S) as Cl.
  unfold Descent.l_present. rewrite <- (total_gtotal l _ S (sample_nodes lo (xs i) (ys i) l)).
  unfold l_sample. rewrite (net_out_real l (xs i) F Sm Cl). apply (total_params lo (ys i) l s0 (xs i) c t0 s1); auto. now apply sound_train.
Qed.
Lemma presents_inv is : forall l, Forall sound l -> let l' := fold_left l_present is l in
  Forall sound l' /\ Forall2 same_params l l' /\ (is <> [] -> Forall flagged l').
Proof.
  induction is as [|i is IH]; intros l S; cbn [fold_left].
  - split; [exact S|]. split; [apply same_refl|congruence].
  - destruct (present_inv i l S) as (S1 & F1 & G1). destruct (IH _ S1) as (S2 & F2 & G2). split; [exact S2|]. split; [eapply same_trans; eauto|].
    intros _. destruct is as [|i' is]; [exact G1|]. apply G2. discriminate.
Qed.
Lemma with_all_final ps : forall c, final_plan (with_all ps c) = last ps (PConv (mk_geometry 0 0 0 0 0 0 0 0 0)).
Proof.
  intros c. unfold final_plan. f_equal. revert c. induction ps as [|p ps IH]; intros c; [reflexivity|]. cbn. f_equal. apply IH.
Qed.
Lemma presents_derive is : forall l s0, l <> [] -> Forall sound l -> wired s0 (plans l) -> smooth_on lo (to_model l) xs ys is ->
  forall c t0 s1, pcurves l c t0 s1 ->
  is_derive (fun t => sum_over (fun i => sample_loss lo (with_all (plans l) (fun i => c i t)) (xs i) (ys i)) is) t0
    (gtotal (plans l) (fun i' r j => accs (fold_left l_present is l) i' r j - accs l i' r j) s1).
Proof.
  induction is as [|i is IH]; intros l s0 Ne S W Sm c t0 s1 Pc; cbn [fold_left sum_over fold_right].
  - replace (gtotal _ _ s1) with 0; [apply (is_derive_const (K := R_AbsRing) (V := R_NormedModule))|].
    rewrite (gtotal_ext (plans l) _ (fun i' r j => 0 + 0) s1 (fun i r j => 1 * s1 i r j)) by (intros; lra). rewrite gtotal_scal, gtotal_plus.
    rewrite (gtotal_ext (plans l) (fun i' r j => 0) (fun i' r j => 0 + 0) s1 s1) by (intros; lra). rewrite gtotal_plus.
    assert (Z0 : gtotal (plans l) (fun _ _ _ => 0) s1 = gtotal (plans l) (fun _ _ _ => 0) s1 + gtotal (plans l) (fun _ _ _ => 0) s1).
    { rewrite <- gtotal_plus. apply gtotal_ext; intros; lra. } lra.
  - destruct (present_inv i l S) as (S1 & F1 & _). destruct (Sm i ltac:(cbn; auto)) as [Sm1 Lf1]. rewrite final_plan_model in Lf1.
    assert (Ep : plans (l_present l i) = plans l) by now apply same_plans.
    assert (D2 := IH (l_present l i) s0). rewrite Ep in D2. specialize (D2 ltac:(inversion F1; subst; [congruence|discriminate]) S1 W).
    assert (Sm2 : smooth_on lo (to_model (l_present l i)) xs ys is).
    { intros i' Hi'. destruct (Sm i' ltac:(cbn; auto)) as [A B]. split; [eapply same_smooth; eauto|]. rewrite (same_net _ _ F1).
      rewrite final_plan_model in *. unfold last_plan in *. now rewrite Ep. }
    specialize (D2 Sm2 c t0 s1 (same_pcurves _ _ _ _ _ F1 Pc)).
    pose proof (present_derive i l s0 Ne S W Sm1 Lf1 c t0 s1 Pc) as D1.
    evar_last.
    { apply (is_derive_plus (K := R_AbsRing) (V := R_NormedModule)); [|exact D2]. eapply is_derive_ext; [|exact D1]. intros t. cbv beta. unfold sample_loss.
      rewrite with_all_final. reflexivity. }
    unfold plus; cbn. rewrite <- gtotal_plus. apply gtotal_ext; intros; lra.
Qed.
(** the derivative of the mean loss, from the sums at the end of a round *)
Lemma mean_derive is l s0 : is <> [] -> l <> [] -> Forall sound l -> wired s0 (plans l) -> smooth_on lo (to_model l) xs ys is ->
  forall c t0 s1, pcurves l c t0 s1 ->
  is_derive (fun t => mean_loss lo (with_all (plans l) (fun i => c i t)) xs ys is) t0
    (gtotal (plans l) (fun i' r j => / INR (length is) * (accs (fold_left l_present is (map n_reset l)) i' r j - accs (map n_reset l) i' r j)) s1).
Proof.
  intros Hi Ne S W Sm c t0 s1 Pc. set (lr0 := map n_reset l). assert (F : Forall2 same_params l lr0) by apply map_same, reset_same.
  assert (Ep : plans lr0 = plans l) by now apply same_plans.
  pose proof (presents_derive is lr0 s0) as D. rewrite Ep in D. specialize (D ltac:(unfold lr0; destruct l; [congruence|discriminate])).
  specialize (D (map_sound n_reset l reset_sound S) W).
  assert (Sm2 : smooth_on lo (to_model lr0) xs ys is).
  { intros i' Hi'. destruct (Sm i' Hi') as [A B]. split; [eapply same_smooth; eauto|]. rewrite (same_net _ _ F).
    rewrite final_plan_model in *. unfold last_plan in *. now rewrite Ep. }
  specialize (D Sm2 c t0 s1 (same_pcurves _ _ _ _ _ F Pc)).
  apply (is_derive_scal _ _ (/ INR (length is))) in D. unfold scal in D; cbn in D; unfold mult in D; cbn in D.
  evar_last. { eapply is_derive_ext; [|exact D]. intros t. cbv beta. unfold mean_loss, Rdiv. apply Rmult_comm. }
  rewrite <- gtotal_scal. set (g := fun i' r j => accs (fold_left l_present is lr0) i' r j - accs lr0 i' r j).
  rewrite (gtotal_scal (plans l) g). clear. generalize (/ INR (length is)). intros q. revert g s1.
  assert (H : forall ps g s1, q * gtotal ps g s1 = gtotal ps (fun i r j => q * g i r j) s1).
  { induction ps as [|p ps IH]; intros g s1; cbn [gtotal]; [lra|]. rewrite Rmult_plus_distr_l, (IH (fun i => g (S i))). f_equal.
    destruct p as [a n k|h|a h]; cbn [gdot]; [| |lra]; rewrite Rmult_plus_distr_l, <- !rsum_scal; f_equal; apply rsum_ext; intros; try ring.
    rewrite <- rsum_scal. apply rsum_ext. intros; ring. }
  intros g s1. apply H.
Qed.
Lemma alpha_R (is : list Z) : div (T := R) one (ofZ (Z.of_nat (length is))) = / INR (length is).
Proof. cbn [div one ofZ Num_R]. rewrite <- INR_IZR_INZ. unfold Rdiv. lra. Qed.
Lemma nth_same l l' i d : Forall2 same_params l l' -> nth_error l i = Some d -> exists d', nth_error l' i = Some d' /\ same_params d d'.
Proof. intros F E. exact (nth_Forall2 _ _ _ F i d E). Qed.
Definition summed (is : list Z) (l : list (node R)) : list (node R) := fold_left l_present is (map n_reset l).
Lemma summed_inv is l : is <> [] -> Forall sound l -> Forall sound (summed is l) /\ Forall2 same_params l (summed is l) /\ Forall flagged (summed is l).
Proof.
  intros Hi S. destruct (presents_inv is (map n_reset l) (map_sound n_reset l reset_sound S)) as (A & B & C). split; [exact A|]. split; [|auto].
  eapply same_trans; [apply map_same, reset_same|exact B].
Qed.
Lemma round_nodes lr is l i d : is <> [] -> Forall sound l -> nth_error l i = Some d ->
  exists d', nth_error (l_round lr l is) i = Some d' /\ n_plan d' = n_plan d /\
    forall r j, params_role r -> n_data d' r j = n_data d r j - lr * (/ INR (length is) * accs (summed is l) i r j) /\
      forall g, n_plan d = PConv g -> n_data d' (grad_role r) j = lr * (/ INR (length is) * accs (summed is l) i r j).
Proof.
  intros Hi S E. destruct (summed_inv is l Hi S) as (S2 & F2 & G2). destruct (nth_same _ _ _ _ F2 E) as (d2 & E2 & Sp).
  pose proof (nth_error_In _ _ E2) as In2. rewrite Forall_forall in S2, G2. specialize (S2 d2 In2). specialize (G2 d2 In2).
  exists (n_update lr (/ INR (length is)) d2). split; [|split].
  - unfold Descent.l_round. rewrite alpha_R. exact (map_nth_error (n_update lr (/ INR (length is))) i (summed is l) E2).
  - destruct (alike_update lr (/ INR (length is)) d2) as (Q & _). rewrite Q. apply Sp.
  - intros r j P. assert (Ea : accs (summed is l) i r j = acc (n_plan d2) (n_data d2) r j) by (unfold accs; now rewrite E2). rewrite Ea. split.
    + rewrite (update_params lr (/ INR (length is)) d2 r j S2 G2 P). now rewrite (same_params_role d d2 r Sp P).
    + intros g Eg. apply (update_grads lr (/ INR (length is)) d2 r j g S2); [|exact P]. destruct Sp as (Q & _). congruence.
Qed.
Lemma round_sound lr is l : is <> [] -> Forall sound l -> Forall sound (l_round lr l is).
Proof. intros Hi S. unfold Descent.l_round. apply map_sound; [apply update_sound|]. now apply summed_inv. Qed.
Lemma round_plans lr is l : plans (l_round lr l is) = plans l.
Proof.
  unfold Descent.l_round. rewrite (proj1 (alike_map (n_update lr _) _ (alike_update _ _))). rewrite <- (proj1 (alike_map n_reset l alike_reset)).
  generalize (map n_reset l). induction is as [|i is IH]; intros l'; [reflexivity|]. cbn [fold_left]. rewrite IH. unfold Descent.l_present.
  rewrite (proj1 (alike_map n_accum _ alike_accum)). apply plans_sample.
Qed.
Lemma to_model_all l : to_model l = with_all (plans l) (datas l).
Proof.
  assert (H : forall c, (forall i d, nth_error l i = Some d -> c i = n_data d) -> to_model l = with_all (plans l) c).
  { induction l as [|d l IH]; intros c H; [reflexivity|]. cbn. f_equal; [now rewrite (H O d eq_refl)|]. apply IH. intros i e E. apply (H (S i) e E). }
  apply H. intros i d E. unfold datas. now rewrite E.
Qed.
Lemma with_all_ext ps : forall c c', (forall i, (i < length ps)%nat -> c i = c' i) -> with_all ps c = with_all ps c'.
Proof. induction ps as [|p ps IH]; intros c c' H; [reflexivity|]. cbn. rewrite (H O) by (cbn; lia). f_equal. apply IH. intros i Hi. apply H. cbn. lia. Qed.
Definition one_param (l : list (node R)) (i : nat) (r : role) (v : Z -> R) : nat -> contents R :=
  fun i' => if Nat.eqb i' i then set_role (datas l i) r v else datas l i'.
Lemma with_all_param l : forall i r v, with_all (plans l) (one_param l i r v) = with_param (to_model l) i r v.
Proof.
  induction l as [|d l IH]; intros [|i] r v; [reflexivity..| |].
  - cbn. f_equal. fold (plans l). fold (to_model l). rewrite (to_model_all l). reflexivity.
  - cbn. f_equal. exact (IH i r v).
Qed.
Lemma one_param_curve l i r j d : nth_error l i = Some d -> params_role r ->
  pcurves l (fun i' t => one_param l i r (upd (n_data d r) j t) i') (n_data d r j) (unit_dir i r j).
Proof.
  intros E P i' d' E'. unfold one_param, unit_dir. destruct (Nat.eqb_spec i' i) as [->|N].
  - assert (d' = d) by congruence. subst d'. unfold datas. rewrite E. destruct (ccurve_upd (n_data d) r j) as [A B]. split; [intros; apply A|split; [intros; apply A|split; intros; apply B]].
  - unfold datas. rewrite E'. split; [reflexivity|split; [reflexivity|split; intros; apply (is_derive_const (K := R_AbsRing) (V := R_NormedModule))]].
Qed.
Definition mean_grad (is : list Z) (l : list (node R)) : nat -> contents R :=
  fun i r j => / INR (length is) * (accs (summed is l) i r j - accs (map n_reset l) i r j).
Lemma mean_partial is l s0 i d r j : is <> [] -> Forall sound l -> wired s0 (plans l) -> smooth_on lo (to_model l) xs ys is ->
  nth_error l i = Some d -> is_param (n_plan d) r j ->
  partial (fun v => mean_loss lo (with_param (to_model l) i r v) xs ys is) (n_data d r) j (mean_grad is l i r j).
Proof.
  intros Hi S W Sm E P. assert (Ne : l <> []) by (intros ->; destruct i; discriminate).
  pose proof (mean_derive is l s0 Hi Ne S W Sm _ _ _ (one_param_curve l i r j d E (is_param_role _ _ _ P))) as D.
  rewrite (gtotal_unit (plans l) _ i (n_plan d) r j (map_nth_error n_plan i l E) P) in D.
  unfold partial. apply is_derive_Reals. eapply is_derive_ext; [|exact D]. intros t. cbv beta. now rewrite <- with_all_param.
Qed.
Lemma reset_accs l i d r j : Forall sound l -> nth_error l i = Some d -> params_role r ->
  accs (map n_reset l) i r j = match n_plan d with PConv _ => n_data d (grad_role r) j | _ => 0 end.
Proof.
  intros S E P. unfold accs. rewrite (map_nth_error n_reset i l E). replace (n_plan (n_reset d)) with (n_plan d) by (symmetry; apply (reset_same d)).
  rewrite Forall_forall in S. rewrite (reset_acc d r j (S d (nth_error_In _ _ E)) P). destruct (n_plan d); try reflexivity. unfold acc. destruct r; try destruct P; reflexivity.
Qed.
Lemma round_step lr is l s0 : is <> [] -> Forall sound l -> wired s0 (plans l) -> smooth_on lo (to_model l) xs ys is ->
  descent_step (fun th => mean_loss lo th xs ys is) lr (/ INR (length is)) (to_model l) (to_model (l_round lr l is)).
Proof.
  intros Hi S W Sm. split.
  { unfold to_model. rewrite !map_map. cbn [fst]. exact (round_plans lr is l). }
  intros i p s E. unfold to_model in E. rewrite nth_error_map in E. destruct (nth_error l i) as [d|] eqn:Ed; [|discriminate]. injection E as <- <-.
  destruct (round_nodes lr is l i d Hi S Ed) as (d' & E' & Ep & H). exists (n_data d'). split; [rewrite <- Ep; exact (nth_to_model _ i d' E')|].
  intros r j P. pose proof (is_param_role _ _ _ P) as Pr. destruct (H r j Pr) as [H1 H2]. exists (mean_grad is l i r j).
  split; [now apply (mean_partial is l s0 i d r j)|].
  pose proof (reset_accs l i d r j S Ed Pr) as Ra. unfold mean_grad. rewrite Ra.
  destruct (n_plan d) as [a n k|g|a q] eqn:Epl.
  - rewrite H1. lra.
  - specialize (H2 g eq_refl). split; [rewrite H1|rewrite H2]; ring.
  - rewrite H1. lra.
Qed.
Lemma rounds_descend lr iss : forall l s0, Forall (fun is => is <> []) iss -> Forall sound l -> wired s0 (plans l) ->
  descends lo xs ys lr iss (to_model l) (to_model (fold_left (l_round lr) iss l)).
Proof.
  induction iss as [|is iss IH]; intros l s0 Hi S W; cbn [fold_left descends]; [reflexivity|]. apply Forall_cons_iff in Hi as [H1 H2].
  exists (to_model (l_round lr l is)). split; [intros Sm; now apply (round_step lr is l s0)|].
  apply (IH _ s0 H2); [now apply round_sound|now rewrite round_plans].
Qed.
Lemma rounds_sound lr iss : forall l, Forall (fun is => is <> []) iss -> Forall sound l -> Forall sound (fold_left (l_round lr) iss l).
Proof. induction iss as [|is iss IH]; intros l Hi S; [exact S|]. apply Forall_cons_iff in Hi as [H1 H2]. cbn [fold_left]. apply IH; [exact H2|now apply round_sound]. Qed.

(** stochastic steps *)
Notation l_step := (l_step (T := R) lo xs ys).
Lemma update_unflagged lr d d2 r j : sound d -> unflagged d -> one_sample d d2 -> params_role r ->
  n_data (n_update lr 1 d2) r j = n_data d r j - lr * (gained (n_plan d) (n_data d) (n_data d2) r j + match n_plan d with PConv _ => n_data d (grad_role r) j | _ => 0 end) /\
  forall g, n_plan d = PConv g -> n_data (n_update lr 1 d2) (grad_role r) j = lr * (gained (n_plan d) (n_data d) (n_data d2) r j + n_data d (grad_role r) j).
Proof.
  intros (T1 & F & _) U (EL & Sp & Sm & _) P. pose proof (same_params_role d d2 r Sp P) as Er. destruct Sp as (EP & _).
  unfold n_update. rewrite EL. unfold unflagged in U. destruct (n_plan d) as [a n k|g|a q] eqn:Ep.
  - destruct (n_layer d) as [L|L|L|L|L|L]; cbn [fits train_class] in *; try contradiction. cbn [n_data]. split; [|discriminate]. rewrite <- Er.
    unfold gained, fc_after_gd, rGB, rGW. rewrite U. cbv zeta. destruct r; try destruct P.
    + rewrite set_role_other, set_role_same, scaled_R by discriminate. cbn [sub mul Num_R]. ring.
    + destruct (Z.eqb_spec f 0) as [->|N].
      * rewrite set_role_same, scaled_R. cbn [sub mul Num_R]. ring.
      * rewrite !set_role_other by congruence. lra.
  - destruct (n_layer d) as [L|L|L|L|L|L]; cbn [fits train_class] in *; try contradiction. cbn [n_data]. rewrite <- Er.
    unfold gained, conv_after_gd. destruct r; try destruct P; cbn [sub mul Num_R grad_role]; (split; [ring|intros; ring]).
  - destruct (n_layer d) as [L|L|L|L|L|L]; cbn [fits train_class] in *; try contradiction. cbn [n_data]. rewrite Er. split; [|discriminate]. unfold gained. destruct r; lra.
Qed.
Lemma step_step lr i l s0 : Forall sound l -> Forall unflagged l -> wired s0 (plans l) -> smooth_on lo (to_model l) xs ys [i] ->
  descent_step (fun th => mean_loss lo th xs ys [i]) lr (/ INR (length [i])) (to_model l) (to_model (l_step lr l i)).
Proof.
  intros S U W Sm. pose proof (sample_nodes lo (xs i) (ys i) l) as Fs. replace (/ INR (length [i])) with 1 by (cbn; field). split.
  { unfold to_model. rewrite !map_map. cbn [fst]. change (plans (l_step lr l i) = plans l). unfold Descent.l_step.
    rewrite (proj1 (alike_map (n_update lr one) _ (alike_update _ _))). apply plans_sample. }
  intros i' p s E. unfold to_model in E. rewrite nth_error_map in E. destruct (nth_error l i') as [d|] eqn:Ed; [|discriminate]. injection E as <- <-.
  destruct (nth_Forall2 _ _ _ Fs i' d Ed) as (d2 & E2 & Os). pose proof (nth_error_In _ _ Ed) as Ind. rewrite Forall_forall in U. specialize (U d Ind).
  assert (Sd : sound d) by (rewrite Forall_forall in S; auto).
  exists (n_data (n_update lr 1 d2)). split.
  { rewrite <- (proj1 (proj1 (proj2 Os))). rewrite <- (proj1 (alike_update lr 1 d2)). apply nth_to_model. exact (map_nth_error (n_update lr one) i' _ E2). }
  intros r j P. pose proof (is_param_role _ _ _ P) as Pr. exists (gained (n_plan d) (n_data d) (n_data d2) r j).
  destruct (update_unflagged lr d d2 r j Sd U Os Pr) as [H1 H2]. split.
  - assert (Ne : l <> []) by (intros ->; destruct i'; discriminate). destruct (Sm i ltac:(cbn; auto)) as [Sm1 Lf]. rewrite final_plan_model in Lf.
    pose proof (present_derive i l s0 Ne S W Sm1 Lf _ _ _ (one_param_curve l i' r j d Ed Pr)) as D.
    rewrite (gtotal_unit (plans l) _ i' (n_plan d) r j (map_nth_error n_plan i' l Ed) P) in D.
    unfold partial. apply is_derive_Reals. evar_last.
    { eapply is_derive_ext; [|exact D]. intros t. cbv beta. unfold mean_loss, sum_over, sample_loss. cbn [fold_right length INR].
      rewrite <- with_all_param. rewrite with_all_final. unfold last_plan. match goal with |- ?a = _ => change (a = (a + 0) / 1); generalize a; intros q end. change (q = (q + 0) / 1 :> R). field. }
    unfold accs, Descent.l_present. rewrite Ed, (map_nth_error n_accum i' _ E2).
    replace (n_plan (n_accum d2)) with (n_plan d) by (destruct (accum_same d2) as (Q & _); rewrite Q; destruct Os as (_ & (Q' & _) & _); congruence).
    rewrite (accum_acc d d2 r j Sd Os Pr). lra.
  - destruct (n_plan d) as [a n k|g|a q] eqn:Epl.
    + rewrite H1. lra.
    + specialize (H2 g eq_refl). split; [rewrite H1|rewrite H2]; ring.
    + rewrite H1. lra.
Qed.
Lemma step_sound lr i l : Forall sound l -> Forall sound (l_step lr l i).
Proof. intros S. apply map_sound; [apply update_sound|]. eapply one_sample_sound; [apply sample_nodes|exact S]. Qed.
Lemma step_unflagged lr i l : Forall unflagged l -> Forall unflagged (l_step lr l i).
Proof.
  intros U. unfold Descent.l_step. rewrite Forall_map. pose proof (sample_nodes lo (xs i) (ys i) l) as F.
  induction F as [|d d2 l l2 Os F IH]; [constructor|]. apply Forall_cons_iff in U as [U1 U2]. constructor; [|auto].
  destruct Os as (EL & _). unfold unflagged, n_update in *. rewrite EL. destruct (n_layer d); cbn [n_layer]; rewrite ?EL; auto.
Qed.
Lemma step_plans lr i l : plans (l_step lr l i) = plans l.
Proof. unfold Descent.l_step. rewrite (proj1 (alike_map (n_update lr one) _ (alike_update _ _))). apply plans_sample. Qed.
Lemma steps_descend lr is : forall l s0, Forall sound l -> Forall unflagged l -> wired s0 (plans l) ->
  descends lo xs ys lr (map (fun i => [i]) is) (to_model l) (to_model (fold_left (l_step lr) is l)).
Proof.
  induction is as [|i is IH]; intros l s0 S U W; cbn [fold_left map descends]; [reflexivity|].
  exists (to_model (l_step lr l i)). split; [intros Sm; now apply (step_step lr i l s0)|].
  apply (IH _ s0); [now apply step_sound|now apply step_unflagged|now rewrite step_plans].
Qed.

(** ** descent *)
Lemma round_derive is l s0 : is <> [] -> Forall sound l -> wired s0 (plans l) -> smooth_on lo (to_model l) xs ys is -> no_velocity (to_model l) ->
  is_derive (fun lr => mean_loss lo (to_model (l_round lr l is)) xs ys is) 0 (- gtotal (plans l) (mean_grad is l) (mean_grad is l)).
Proof.
  intros Hi S W Sm Nv. assert (Ne : l = [] \/ l <> []) by (destruct l; [left|right]; congruence).
  destruct Ne as [->|Ne]. { cbn [plans map gtotal]. rewrite Ropp_0. apply (is_derive_ext (fun _ => mean_loss lo [] xs ys is)); [|apply (is_derive_const (K := R_AbsRing) (V := R_NormedModule))].
    intros t. f_equal. pose proof (round_plans t is []) as Q. destruct (l_round t [] is); [reflexivity|discriminate]. }
  set (s1 := fun i r j => - (/ INR (length is) * accs (summed is l) i r j)).
  assert (Pc : pcurves l (fun i t => datas (l_round t l is) i) 0 s1).
  { intros i d E.
    assert (Q : forall t r j, params_role r -> datas (l_round t l is) i r j = n_data d r j + t * s1 i r j).
    { intros t r j P. destruct (round_nodes t is l i d Hi S E) as (d' & E' & _ & H). unfold datas. rewrite E'. rewrite (proj1 (H r j P)). unfold s1. ring. }
    assert (Dr : forall r j, params_role r -> is_derive (fun t => datas (l_round t l is) i r j) 0 (s1 i r j)).
    { intros r j P. apply (is_derive_ext (fun t => n_data d r j + t * s1 i r j)); [intros; now rewrite Q|]. auto_derive; auto. ring. }
    split; [intros; rewrite Q by exact Logic.I; ring|]. split; [intros; rewrite Q by exact Logic.I; ring|]. split; intros; apply Dr; exact Logic.I. }
  pose proof (mean_derive is l s0 Hi Ne S W Sm _ _ _ Pc) as D.
  evar_last.
  { eapply is_derive_ext; [|exact D]. intros t. cbv beta. f_equal. rewrite (to_model_all (l_round t l is)), round_plans. reflexivity. }
  fold (summed is l). fold (mean_grad is l). change (gtotal (plans l) (mean_grad is l) s1 = - gtotal (plans l) (mean_grad is l) (mean_grad is l)).
  rewrite (gtotal_ext (plans l) (mean_grad is l) (mean_grad is l) s1 (fun i r j => -1 * mean_grad is l i r j)); [rewrite gtotal_scal; ring|reflexivity|].
  intros i p r j Ep P. unfold plans in Ep. rewrite nth_error_map in Ep. destruct (nth_error l i) as [d|] eqn:Ed; [|discriminate]. injection Ep as <-.
  unfold s1, mean_grad. rewrite (reset_accs l i d r j S Ed (is_param_role _ _ _ P)). pose proof (Nv i (n_plan d) (n_data d) r j (nth_to_model l i d Ed) P) as V.
  destruct (n_plan d); rewrite ?V; lra.
Qed.
Lemma round_decreases is l s0 : is <> [] -> Forall sound l -> wired s0 (plans l) -> smooth_on lo (to_model l) xs ys is -> no_velocity (to_model l) ->
  not_stationary (fun th => mean_loss lo th xs ys is) (to_model l) ->
  exists eps, 0 < eps /\ forall lr, 0 < lr < eps -> mean_loss lo (to_model (l_round lr l is)) xs ys is < mean_loss lo (to_model l) xs ys is.
Proof.
  intros Hi S W Sm Nv (i & p & s & r & j & g & E & P & Pa & Ng).
  unfold to_model in E. rewrite nth_error_map in E. destruct (nth_error l i) as [d|] eqn:Ed; [|discriminate]. injection E as <- <-.
  assert (G : mean_grad is l i r j = g).
  { pose proof (mean_partial is l s0 i d r j Hi S W Sm Ed P) as Q. unfold partial in *. eapply uniqueness_limite; [exact Q|exact Pa]. }
  pose proof (gtotal_self_pos (plans l) (mean_grad is l) i (n_plan d) r j (map_nth_error n_plan i l Ed) P ltac:(rewrite G; exact Ng)) as Pos.
  pose proof (round_derive is l s0 Hi S W Sm Nv) as D. set (phi := fun lr => mean_loss lo (to_model (l_round lr l is)) xs ys is) in *.
  set (K := gtotal (plans l) (mean_grad is l) (mean_grad is l)) in *.
  assert (E0 : phi 0 = mean_loss lo (to_model l) xs ys is).
  { unfold phi, mean_loss. f_equal. assert (F0 : Forall2 same_params l (l_round 0 l is)).
    { apply Forall2_nth. { pose proof (f_equal (@length _) (round_plans 0 is l)) as Q. unfold plans in Q. now rewrite !map_length in Q. }
      intros i' a b Ea Eb. destruct (round_nodes 0 is l i' a Hi S Ea) as (b' & Eb' & Ep & H). assert (b' = b) by congruence. subst b'. split; [exact Ep|].
      split; [|intros f]; apply functional_extensionality; intros j'; [rewrite (proj1 (H RB j' Logic.I))|rewrite (proj1 (H (RW f) j' Logic.I))]; ring. }
    unfold sum_over. clear -F0. generalize dependent (l_round 0 l is). intros l2 F0. induction is as [|i' is1 IH]; [reflexivity|]. cbn [fold_right]. rewrite IH. f_equal. unfold sample_loss.
    rewrite (same_net _ _ F0), !final_plan_model. unfold last_plan. now rewrite (same_plans _ _ F0). }
  apply is_derive_Reals in D. change (derivable_pt_lim phi 0 (- K)) in D. destruct (D (K / 2) ltac:(lra)) as (del & Hd). exists (pos del). split; [apply cond_pos|]. intros lr [L1 L2].
  specialize (Hd lr ltac:(lra) ltac:(rewrite Rabs_pos_eq; lra)). rewrite Rplus_0_l, E0 in Hd. apply Rabs_def2 in Hd as [Hd _].
  assert (Q : (phi lr - mean_loss lo (to_model l) xs ys is) / lr < - (K / 2)) by lra.
  apply (Rmult_lt_compat_r lr) in Q; [|lra]. unfold Rdiv in Q at 1. rewrite Rmult_assoc, Rinv_l, Rmult_1_r in Q by lra.
  change (phi lr < mean_loss lo (to_model l) xs ys is). nra.
Qed.
End Rounds.

(** ** networks with the same parameters *)
Definition msame (a b : plan * contents R) : Prop := fst b = fst a /\ snd b RB = snd a RB /\ forall f, snd b (RW f) = snd a (RW f).
Lemma msame_layer a b x : msame a b -> real_layer (fst b) (snd b) x = real_layer (fst a) (snd a) x.
Proof.
  intros (A & B & C). rewrite A. destruct (fst a) as [[f|] n k|g|f q]; cbn [real_layer]; rewrite ?B, ?C; try reflexivity.
  f_equal. apply functional_extensionality. exact C.
Qed.
Lemma msame_net th th' : Forall2 msame th th' -> forall x, real_net th' x = real_net th x.
Proof. induction 1 as [|a b th th' S F IH]; intros x; [reflexivity|]. rewrite !real_net_cons, (msame_layer a b x S). apply IH. Qed.
Lemma msame_plans th th' : Forall2 msame th th' -> map fst th' = map fst th.
Proof. induction 1 as [|a b th th' S F IH]; [reflexivity|]. cbn. rewrite IH. f_equal. apply S. Qed.
Lemma msame_mean lo xs ys th th' is : Forall2 msame th th' -> mean_loss lo th' xs ys is = mean_loss lo th xs ys is.
Proof.
  intros F. unfold mean_loss. f_equal. unfold sum_over. induction is as [|i is IH]; [reflexivity|]. cbn [fold_right]. rewrite IH. f_equal.
  unfold sample_loss, final_plan. now rewrite (msame_net _ _ F), (msame_plans _ _ F).
Qed.
Lemma msame_with th th' : Forall2 msame th th' -> forall i r v, Forall2 msame (with_param th i r v) (with_param th' i r v).
Proof.
  induction 1 as [|[p s] [p' s'] th th' S F IH]; intros [|i] r v; cbn [with_param]; constructor; auto.
  destruct S as (A & B & C). cbn [fst snd] in *. split; [exact A|]. cbn [snd]. unfold set_role. split.
  - destruct (role_eq_dec RB r); auto.
  - intros f. destruct (role_eq_dec (RW f) r); auto.
Qed.
Lemma same_msame l l' : Forall2 same_params l l' -> Forall2 msame (to_model l) (to_model l').
Proof. induction 1 as [|d d' l l' S F IH]; constructor; auto. Qed.
Lemma msame_smooth_on lo xs ys is l l' : Forall2 same_params l l' -> smooth_on lo (to_model l) xs ys is -> smooth_on lo (to_model l') xs ys is.
Proof.
  intros F Sm i Hi. destruct (Sm i Hi) as [A B]. split; [eapply same_smooth; eauto|]. rewrite (same_net _ _ F), final_plan_model in *. unfold last_plan in *. now rewrite (same_plans _ _ F).
Qed.
Lemma msame_stationary lo xs ys is l l' : Forall2 same_params l l' ->
  not_stationary (fun th => mean_loss lo th xs ys is) (to_model l) -> not_stationary (fun th => mean_loss lo th xs ys is) (to_model l').
Proof.
  intros F (i & p & s & r & j & g & E & P & Pa & Ng). pose proof (same_msame _ _ F) as F2. destruct (nth_Forall2 _ _ _ F2 i (p, s) E) as ([p' s'] & E' & (A & B & C)).
  cbn [fst snd] in *. subst p'. exists i, p, s', r, j, g. split; [exact E'|]. split; [exact P|]. split; [|exact Ng].
  assert (Er : s' r = s r) by (pose proof (is_param_role _ _ _ P) as Q; destruct r; try destruct Q; auto). rewrite Er.
  unfold partial in *. apply is_derive_Reals. apply is_derive_Reals in Pa. eapply is_derive_ext; [|exact Pa]. intros t. cbv beta. symmetry. apply msame_mean. now apply msame_with.
Qed.
Lemma model_same l l' : same_model l l' -> Forall2 same_params l l'.
Proof.
  intros (_ & P & H). apply Forall2_nth. { pose proof (f_equal (@length _) P) as Q. unfold plans in Q. now rewrite !map_length in Q. }
  intros i d d' E E'. destruct (nth_plans l l' i d P E) as (d2 & E2 & Ep). assert (d2 = d') by congruence. subst d2.
  split; [exact Ep|]. split; [|intros f]; apply (H i d d'); auto; discriminate.
Qed.
(** without pooling the output computed is the function, at every point *)
Lemma net_out_all l : forall x, Forall (fun d => fits (n_layer d) (n_plan d)) l -> Forall (fun d => match n_plan d with PPool _ _ => False | _ => True end) l ->
  net_out l x = real_net (to_model l) x.
Proof.
  induction l as [|d l IH]; intros x F N; [reflexivity|]. apply Forall_cons_iff in F as [F1 F2]. apply Forall_cons_iff in N as [N1 N2].
  unfold net_out. cbn [fold_left to_model map]. rewrite real_net_cons. cbn [fst snd].
  assert (E : node_out d x = real_layer (n_plan d) (n_data d) x).
  { destruct d as [L p s]. unfold node_out. cbn [n_layer n_plan n_data] in *. apply functional_extensionality. intros j. destruct p as [[a|] n k|g|a q]; try destruct N1.
    - unfold dense_out. cbn [act_val real_layer]. unfold dense. rewrite std_is_scalar. reflexivity.
    - unfold dense_out. cbn [real_layer]. rewrite softmax_std; [reflexivity|]. destruct L as [L|L|L|L|L|L]; cbn [fits] in F1; try contradiction; now apply F1.
    - unfold conv_out. cbn [real_layer]. rewrite conv_val_R. reflexivity. }
  rewrite E. exact (IH _ F2 N2).
Qed.

(** * The chain rule through a whole network (proofs for C65) *)
From Coq Require Import QArith Reals Lra FunctionalExtensionality.
From Coquelicot Require Import Coquelicot.
From Verif Require Import Mem Scalar MemSpec MemLemmas Lique LiqueSpec LiqueProofs LiqueProofs2 Linear LinearProofs Functions FunctionSpec FunctionProofs
  Optimizer Layer LayerSpec FCProofs Cells ConvSpec ConvProofs ConvProofs2 PoolSpec PoolProofs RSum RealSpec ActivationProofs LossProofs NetSpec Vjp ConvVjp
  PropFunctions PropFC PropConv PropPool Net NetPlan NetProofs NetBack NetReal.
Local Open Scope R_scope.

(** [F] has derivative [rsum n (g * x')] along every curve through [x0] *)
Definition grad_of (F : (Z -> R) -> R) (n : Z) (x0 g : Z -> R) : Prop :=
  forall (cx : R -> Z -> R) t0 x1, (forall i, (0 <= i < n)%Z -> cx t0 i = x0 i) ->
    (forall i, (0 <= i < n)%Z -> is_derive (fun t => cx t i) t0 (x1 i)) ->
    is_derive (fun t => F (cx t)) t0 (rsum n (fun i => g i * x1 i)).

(** ** losses *)
Lemma grad_sum n (G : Z -> R -> R) x0 g : (forall i, (0 <= i < n)%Z -> is_derive (G i) (x0 i) (g i)) ->
  grad_of (fun x => rsum n (fun i => G i (x i))) n x0 g.
Proof.
  intros H cx t0 x1 C D. apply (is_derive_rsum n (fun i t => G i (cx t i))). intros i Hi.
  evar_last. { apply (is_derive_comp (G i) (fun t => cx t i)); [rewrite C by auto; apply H; auto|apply D; auto]. }
  unfold scal; cbn. unfold mult; cbn. lra.
Qed.
Lemma grad_scal c F n x0 g : grad_of F n x0 g -> grad_of (fun x => c * F x) n x0 (fun i => c * g i).
Proof.
  intros H cx t0 x1 C D. evar_last. { apply (is_derive_scal (fun t => F (cx t))). apply H; eauto. }
  rewrite <- rsum_scal. apply rsum_ext. intros. ring.
Qed.
Lemma grad_ext F G n x0 g h : (forall x, F x = G x) -> (forall i, (0 <= i < n)%Z -> g i = h i) -> grad_of F n x0 g -> grad_of G n x0 h.
Proof.
  intros E Eg H cx t0 x1 C D. apply (is_derive_ext (fun t => F (cx t))); [intros; apply E|].
  rewrite <- (rsum_ext n (fun i => g i * x1 i)) by (intros i Hi; now rewrite Eg). now apply H.
Qed.
Lemma d_ln_cosh t p : is_derive (fun v => ln (cosh (v - t))) p (tanh (p - t)).
Proof.
  pose proof (cosh_pos (p - t)).
  assert (D : is_derive (fun v => cosh (v - t)) p (sinh (p - t))).
  { replace (sinh (p - t)) with (1 * sinh (p - t)) by lra.
    apply (is_derive_comp cosh (fun v => v - t)); [apply is_derive_cosh|]. auto_derive; auto. }
  replace (tanh (p - t)) with (sinh (p - t) * / cosh (p - t)) by reflexivity.
  apply (is_derive_comp ln (fun v => cosh (v - t))); [|auto]. apply is_derive_Reals, derivable_pt_lim_ln. auto.
Qed.
Lemma grad_std_loss lo n t y : lo = MSE \/ lo = LC \/ lo = MSLE /\ (forall i, (0 <= i < n)%Z -> -1 < t i /\ -1 < y i) ->
  grad_of (std_loss lo n t) n y (loss_dval lo t y).
Proof.
  intros [-> | [-> | [-> H]]].
  - apply (grad_ext (fun p => / 2 * rsum n (fun i => (t i - p i) ^ 2)) _ n y (fun i => / 2 * (2 * (y i - t i)))).
    + reflexivity. + intros i _. cbn. lra.
    + apply (grad_scal (/ 2) (fun p => rsum n (fun i => (t i - p i) ^ 2))). apply (grad_sum n (fun i v => (t i - v) ^ 2)). intros i Hi. auto_derive; auto. ring.
  - apply (grad_ext (fun p => rsum n (fun i => ln (cosh (p i - t i)))) _ n y (fun i => tanh (y i - t i))).
    + reflexivity. + intros i _. reflexivity.
    + apply (grad_sum n (fun i v => ln (cosh (v - t i)))). intros i Hi. apply d_ln_cosh.
  - apply (grad_ext (fun p => / 2 * rsum n (fun i => (ln ((1 + p i) / (1 + t i))) ^ 2)) _ n y (fun i => / 2 * (2 * ln ((1 + y i) / (1 + t i)) / (1 + y i)))).
    + reflexivity.
    + intros i _. cbn [loss_dval add div one nlog Num_R]. rewrite (Rplus_comm (y i)), (Rplus_comm (t i)). unfold Rdiv. lra.
    + apply (grad_scal (/ 2) (fun p => rsum n (fun i => (ln ((1 + p i) / (1 + t i))) ^ 2))).
      apply (grad_sum n (fun i v => (ln ((1 + v) / (1 + t i))) ^ 2)). intros i Hi. destruct (H i Hi).
      assert (0 < (1 + y i) / (1 + t i)) by (apply Rdiv_lt_0_compat; lra). auto_derive; [auto|]. unfold Rdiv in *. field. lra.
Qed.
Lemma grad_ce_softmax n t z : (0 < n)%Z -> rsum n t = 1 -> grad_of (fun z => cross_entropy n t (std_softmax n z)) n z (fun i => std_softmax n z i - t i).
Proof.
  intros Hn Ht. apply (grad_ext (fun z => ln (rsum n (fun j => exp (z j))) - rsum n (fun j => t j * z j)) _ n z (fun i => std_softmax n z i - t i)).
  { intros q. rewrite ce_softmax_eq by lia. rewrite Ht. lra. } { reflexivity. }
  intros cx t0 x1 C D. pose proof (sumexp_pos n (cx t0) Hn) as Hp.
  assert (Es : rsum n (fun j => exp (z j)) = rsum n (fun j => exp (cx t0 j))) by (apply rsum_ext; intros; now rewrite C).
  evar_last.
  { apply (is_derive_minus (K := R_AbsRing) (V := R_NormedModule)).
    - apply (is_derive_comp ln (fun t => rsum n (fun j => exp (cx t j)))).
      + apply is_derive_Reals, derivable_pt_lim_ln. exact Hp.
      + apply (is_derive_rsum n (fun j t => exp (cx t j)) (fun j => x1 j * exp (cx t0 j))). intros j Hj.
        apply (is_derive_comp exp (fun t => cx t j)); [|now apply D]. apply is_derive_Reals, derivable_pt_lim_exp.
    - apply (is_derive_rsum n (fun j u => t j * cx u j) (fun j => t j * x1 j)). intros j Hj. apply (is_derive_scal (fun u => cx u j)). now apply D. }
  unfold std_softmax. rewrite Es. set (S := rsum n (fun j => exp (cx t0 j))) in *.
  unfold minus, plus, opp, scal; cbn. unfold mult; cbn.
  rewrite (rsum_ext n (fun i => (exp (z i) / S - t i) * x1 i) (fun i => x1 i * exp (cx t0 i) * / S + -1 * (t i * x1 i)))
    by (intros i Hi; rewrite C by auto; unfold Rdiv; ring).
  rewrite rsum_plus, rsum_scal_r, rsum_scal. lra.
Qed.
Lemma softmax_std k (z : Z -> R) i : (0 < k)%Z -> act_val SoftMax k z i = std_softmax k z i.
Proof.
  intros Hn. cbn [act_val mul nexp sub div one Num_R]. rewrite <- (softmax_shift k z (- vmax k z) i Hn).
  pose proof (sumexp_pos k (fun j => z j + - vmax k z) Hn) as Hp. cbn beta in Hp. unfold std_softmax.
  change (zsum k (fun j => exp (z j - vmax k z))) with (rsum k (fun j => exp (z j + - vmax k z))). unfold Rminus at 1. field. lra.
Qed.

(** ** one layer *)
(** the layer without a final SoftMax *)
Definition lin (p : plan) : plan := match p with PDense SoftMax n k => PDense (Functions.Scalar Identity) n k | p => p end.
Definition out_fun (p : plan) (z : Z -> R) : Z -> R := match p with PDense SoftMax _ k => std_softmax k z | _ => z end.
Lemma real_layer_lin p s x : real_layer p s x = out_fun p (real_layer (lin p) s x).
Proof. destruct p as [[a|] n k|g|a q]; reflexivity. Qed.
Definition smooth1 (p : plan) (s : contents R) (x : Z -> R) : Prop :=
  match p with
  | PDense (Functions.Scalar a) n k => a <> GELU /\ forall j, (0 <= j < k)%Z -> ~ corner a (dense_pre n k (s RB) (s (RW 0)) x j)
  | PDense SoftMax _ _ => True
  | PConv g => off_grid_zero g s
  | PPool _ _ => False
  end.
Lemma node_out_real (d : node R) x : fits (n_layer d) (n_plan d) -> smooth1 (n_plan d) (n_data d) x -> node_out d x = real_layer (n_plan d) (n_data d) x.
Proof.
  destruct d as [L p s]. unfold node_out. cbn [n_layer n_plan n_data]. intros F S. destruct p as [[a|] n k|g|a q].
  - apply functional_extensionality. intros j. unfold dense_out. cbn [act_val real_layer]. unfold dense. rewrite std_is_scalar. reflexivity.
  - apply functional_extensionality. intros j. unfold dense_out. cbn [real_layer]. rewrite softmax_std; [reflexivity|].
    destruct L as [L|L|L|L|L|L]; cbn [fits] in F; try tauto; now apply F.
  - apply functional_extensionality. intros o. unfold conv_out. cbn [real_layer]. rewrite conv_val_R. reflexivity.
  - destruct S.
Qed.
(** what backward adds up along a direction [s1] of the parameters *)
Definition params_dot (p : plan) (s s2 s1 : contents R) : R :=
  match p with
  | PDense _ n k => rsum k (fun j => s2 RGradB j * s1 RB j) + rsum (n * k) (fun o => s2 (RGradW 0) o * s1 (RW 0) o)
  | PConv g => rsum (g_f g) (fun f => (s2 RGradB f - s RGradB f) * s1 RB f) +
      rsum (g_f g) (fun f => rsum (g_d g * g_fh g * g_fw g) (fun o => (s2 (RGradW f) o - s (RGradW f) o) * s1 (RW f) o))
  | PPool _ _ => 0
  end.
Lemma after_backward_full (d : node R) x dl r : r <> RDelta -> after_backward d x dl true r = after_backward d x dl false r.
Proof.
  intros N. unfold after_backward. destruct (n_plan d); try reflexivity. unfold fc_after_backward. cbv zeta. now rewrite set_role_other.
Qed.
Lemma params_dot_full p s (d : node R) x dl s1 full : params_dot p s (after_backward d x dl true) s1 = params_dot p s (after_backward d x dl full) s1.
Proof.
  destruct full; [reflexivity|]. destruct p; cbn [params_dot]; try reflexivity; rewrite ?(after_backward_full d x dl) by discriminate; [reflexivity|].
  f_equal. apply rsum_ext. intros f _. now rewrite (after_backward_full d x dl) by discriminate.
Qed.
Lemma params_dot_0 p s s2 : params_dot p s s2 (fun _ _ => 0) = 0.
Proof.
  destruct p; cbn [params_dot]; rewrite ?rsum_zero; try lra. rewrite (rsum_all0 (g_f g) (fun f => rsum _ _)); [lra|]. intros. apply rsum_zero.
Qed.
(** curve of contents *)
Definition ccurve (c : R -> contents R) (t0 : R) (s s1 : contents R) : Prop :=
  (forall r j, c t0 r j = s r j) /\ forall r j, is_derive (fun t => c t r j) t0 (s1 r j).
Lemma ccurve_const s t0 : ccurve (fun _ => s) t0 s (fun _ _ => 0).
Proof. split; [reflexivity|]. intros. apply (is_derive_const (K := R_AbsRing) (V := R_NormedModule)). Qed.
Lemma dims_pos L p : fits L p -> match p with PDense _ n k => (0 <= n)%Z /\ (0 <= k)%Z | PConv g => geometry_ok g | _ => True end.
Proof. destruct L as [L|L|L|L|L|L], p as [a n k|g|a q]; cbn [fits]; try tauto; intros F; try apply F; split; apply F. Qed.
Lemma layer_step (d : node R) x dl c cx t0 s1 x1 :
  let p := n_plan d in let s := n_data d in let s2 := after_backward (fwd d x) x dl true in
  train_class (n_layer d) -> fits (n_layer d) p -> smooth1 p s x -> ccurve c t0 s s1 ->
  (forall i, (0 <= i < in_count p)%Z -> cx t0 i = x i) -> (forall i, (0 <= i < in_count p)%Z -> is_derive (fun t => cx t i) t0 (x1 i)) ->
  exists y1, (forall j, (0 <= j < out_count p)%Z -> real_layer (lin p) (c t0) (cx t0) j = real_layer (lin p) s x j) /\
    (forall j, (0 <= j < out_count p)%Z -> is_derive (fun t => real_layer (lin p) (c t) (cx t) j) t0 (y1 j)) /\
    rsum (out_count p) (fun j => dl j * y1 j) = params_dot p s s2 s1 + rsum (in_count p) (fun i => s2 RDelta i * x1 i).
Proof.
  destruct d as [L p s]. cbn [n_layer n_plan n_data]. cbv zeta. intros Tr F S [Cc Dc] Cx Dx. pose proof (dims_pos L p F) as Pos.
  destruct p as [a n k|g|a q]; [| |destruct S].
  - destruct Pos as [Hn Hk]. destruct L as [L|L|L|L|L|L]; cbn [fits train_class] in *; try tauto. cbn [in_count out_count] in *.
    set (a' := match a with Functions.Scalar a => a | SoftMax => Identity end).
    set (z := dense_pre n k (s RB) (s (RW 0)) x). set (D := fun j => scalar_df a' (z j)).
    set (s2 := after_backward (fwd (mk_node (LFC L) (PDense a n k) s) x) x dl true).
    assert (HD : forall j, (0 <= j < k)%Z -> is_derive (std_act a') (z j) (D j)).
    { intros j Hj. destruct a as [a|]; cbn in a'.
      - apply act_derive; [apply S|apply S; exact Hj].
      - apply act_derive; [discriminate|intros []]. }
    assert (EB : forall j, s2 RGradB j = D j * dl j).
    { intros j. unfold s2, after_backward, fwd. cbn [n_plan n_data]. unfold fc_after_backward, after_forward. cbv zeta. cbn [n_plan n_layer n_data].
      rewrite (set_role_other _ RDelta _ RGradB), (set_role_other _ (RGradW 0) _ RGradB), set_role_same by discriminate. unfold fc_gradB.
      rewrite (set_role_other _ RValue _ RBuff), set_role_same by discriminate. destruct a as [a|]; reflexivity. }
    assert (EW : forall i j, (0 <= i < n)%Z -> (0 <= j < k)%Z -> s2 (RGradW 0) (i * k + j)%Z = x i * s2 RGradB j).
    { intros i j Hi Hj. unfold s2, after_backward. cbn [n_plan fwd]. unfold fc_after_backward. cbv zeta.
      rewrite (set_role_other _ RDelta _ (RGradW 0)), set_role_same by discriminate.
      rewrite (set_role_other _ RDelta _ RGradB), (set_role_other _ (RGradW 0) _ RGradB), set_role_same by discriminate.
      unfold fc_gradW. rewrite Z.div_add_l, Z.div_small, Z.add_0_r by lia. now rewrite Z.add_comm, Z.mod_add, Z.mod_small by lia. }
    assert (ED : forall i, (0 <= i < n)%Z -> s2 RDelta i = rsum k (fun j => s (RW 0) (i * k + j)%Z * s2 RGradB j)).
    { intros i Hi. unfold s2 at 1. unfold after_backward. cbn [n_plan fwd]. unfold fc_after_backward. cbv zeta. rewrite set_role_same. unfold fc_delta.
      apply rsum_ext. intros j Hj. unfold s2, after_backward. cbn [n_plan fwd]. unfold fc_after_backward. cbv zeta.
      rewrite (set_role_other _ RDelta _ RGradB), (set_role_other _ (RGradW 0) _ RGradB), set_role_same by discriminate. reflexivity. }
    exists (dense_tangent D n k (s (RW 0)) x (s1 RB) (s1 (RW 0)) x1).
    assert (Hpre : forall j, dense_pre n k (c t0 RB) (c t0 (RW 0)) (cx t0) j = z j).
    { intros j. unfold z, dense_pre. rewrite Cc. f_equal. apply rsum_ext. intros i Hi. now rewrite Cc, Cx. }
    assert (El : lin (PDense a n k) = PDense (Functions.Scalar a') n k) by (destruct a; reflexivity). rewrite El. cbn [real_layer].
    split; [|split].
    + intros j _. unfold dense. now rewrite Hpre.
    + intros j Hj. evar_last.
      {
        apply (dense_curve a' n k D (fun t => c t RB) (fun t => c t (RW 0)) cx (s1 RB) (s1 (RW 0)) x1); auto. rewrite Hpre. auto. }
      unfold dense_tangent. f_equal. f_equal. apply rsum_ext. intros i Hi. now rewrite Cc, Cx.
    + cbn [params_dot]. apply (dense_vjp n k D (s (RW 0)) x (s1 RB) (s1 (RW 0)) x1 dl (s2 RGradB) (s2 (RGradW 0)) (s2 RDelta)); auto.
  - destruct L as [L|L|L|L|L|L]; cbn [fits train_class] in *; try tauto. cbn [in_count out_count smooth1 lin real_layer params_dot] in *.
    set (d := mk_node (LConv L) (PConv g) s).
    assert (Es : n_data (fwd d x) = set_role s RValue (node_out d x)) by reflexivity.
    assert (Zf : off_grid_zero g (n_data (fwd d x))) by (eapply off_grid_role; [|exact S]; rewrite Es; apply set_role_other; discriminate).
    set (s2 := after_backward (fwd d x) x dl true). assert (E2 : s2 = conv_after_backward g x dl (n_data (fwd d x))) by reflexivity.
    set (y1 := fun o => conv_tangent g (fun f => s (RW f)) x (s1 RB) (fun f => s1 (RW f)) x1 (o / out_w g / out_h g)%Z ((o / out_w g) mod out_h g)%Z (o mod out_w g)%Z).
    pose proof (out_h_pos g Pos) as OH. pose proof (out_w_pos g Pos) as OW. assert (GF : (0 <= g_f g)%Z) by (unfold geometry_ok in Pos; lia).
    assert (D1 : forall j, (0 <= j < g_f g * out_h g * out_w g)%Z -> is_derive (fun t => correlate g (c t RB) (fun f => c t (RW f)) (cx t) j) t0 (y1 j)).
    { intros j Hj. unfold correlate, y1. apply correlate_curve; auto.
      assert (0 < out_h g * out_w g)%Z by nia. split; [apply Z.div_pos; [apply Z.div_pos; lia|lia]|].
      rewrite Z.div_div by lia. apply Z.div_lt_upper_bound; [nia|]. nia. }
    exists y1. split; [|split; [exact D1|]].
    { intros j Hj. unfold correlate, correlate_at. rewrite Cc. f_equal. apply rsum_ext. intros i Hi. apply rsum_ext. intros i' Hi'. apply rsum_ext. intros cc Hcc.
      rewrite Cc. f_equal. now apply padded_same. }
    assert (W1 : is_derive (fun t => weighted (g_f g * out_h g * out_w g) dl (correlate g (c t RB) (fun f => c t (RW f)) (cx t))) t0 (rsum (g_f g * out_h g * out_w g) (fun j => dl j * y1 j))).
    { unfold weighted. apply (is_derive_rsum (g_f g * out_h g * out_w g) (fun j t => dl j * correlate g (c t RB) (fun f => c t (RW f)) (cx t) j)).
      intros j Hj. apply (is_derive_scal (fun t => correlate g (c t RB) (fun f => c t (RW f)) (cx t) j)). now apply D1. }
    pose proof (step_curve g Pos (n_data (fwd d x)) Zf x dl (fun t => c t RB) (fun t f => c t (RW f)) cx (s1 RB) (fun f => s1 (RW f)) x1 t0) as W2.
    specialize (W2 ltac:(intros; cbv beta; rewrite Cc, Es, set_role_other by discriminate; reflexivity) Cx (fun f _ => Dc RB f) (fun f o _ _ => Dc (RW f) o) Dx).
    rewrite <- E2 in W2. rewrite Es in W2. rewrite (set_role_other s RValue _ RGradB) in W2 by discriminate.
    rewrite <- (is_derive_unique _ _ _ W1). rewrite (is_derive_unique _ _ _ W2). f_equal.
Qed.

(** ** the whole network *)
Definition to_model (l : list (node R)) : model := map (fun d => (n_plan d, n_data d)) l.
Fixpoint set_contents (l : model) (i : nat) (c : contents R) : model :=
  match l, i with
  | [], _ => []
  | (p, _) :: l, O => (p, c) :: l
  | d :: l, S i => d :: set_contents l i c
  end.
Lemma with_param_set l : forall i r v p s, nth_error l i = Some (p, s) -> with_param l i r v = set_contents l i (set_role s r v).
Proof.
  induction l as [|[q u] l IH]; intros [|i] r v p s E; cbn in *; try discriminate.
  - now injection E as -> ->.
  - f_equal. eapply IH; exact E.
Qed.
Definition last_plan (l : list (node R)) : plan := last (plans l) (PConv (mk_geometry 0 0 0 0 0 0 0 0 0)).
Lemma real_net_cons d l x : real_net (d :: l) x = real_net l (real_layer (fst d) (snd d) x). Proof. reflexivity. Qed.
Lemma smooth_cons p s l x : smooth ((p, s) :: l) x -> clean ((p, s) :: l) -> smooth1 p s x /\ smooth l (real_layer p s x) /\ clean l /\ (l <> [] -> lin p = p).
Proof.
  intros [S1 S2] C. apply Forall_cons_iff in C as [C1 C2]. cbn [fst snd] in C1.
  destruct p as [[a|] n k|g|a q]; (split; [|split; [exact S2|split; [exact C2|]]]); cbn [smooth1 lin]; try tauto; congruence.
Qed.
Section Chain.
Context (lo : loss) (tv : Z -> R).
Lemma loss_step (d : node R) x : fits (n_layer d) (n_plan d) -> smooth1 (n_plan d) (n_data d) x ->
  loss_fits lo (n_plan d) tv (real_layer (n_plan d) (n_data d) x) ->
  grad_of (fun z => net_loss lo (n_plan d) tv (out_fun (n_plan d) z)) (out_count (n_plan d)) (real_layer (lin (n_plan d)) (n_data d) x)
    (loss_dval lo tv (real_layer (n_plan d) (n_data d) x)).
Proof.
  destruct d as [L p s]. cbn [n_layer n_plan n_data]. intros F S Lf. destruct p as [[a|] n k|g|a q]; [| | |destruct S].
  - cbn [net_loss out_fun lin out_count] in *. now apply grad_std_loss.
  - cbn [net_loss out_fun lin out_count] in *. destruct Lf as [Hl Ht].
    assert (Hk : (0 < k)%Z) by (destruct L as [L|L|L|L|L|L]; cbn [fits] in F; try tauto; now apply F).
    set (z := real_layer (PDense (Functions.Scalar Identity) n k) s x).
    apply (grad_ext (fun z => cross_entropy k tv (std_softmax k z)) _ k z (fun i => std_softmax k z i - tv i)); [reflexivity| |now apply grad_ce_softmax].
    intros i Hi. assert (Ez : real_layer (PDense SoftMax n k) s x i = std_softmax k z i) by reflexivity.
    destruct Hl as [-> | ->]; cbn [loss_dval sub Num_R]; rewrite Ez; reflexivity.
  - cbn [net_loss out_fun lin out_count] in *. now apply grad_std_loss.
Qed.
(** the contents after feedforward and backprop *)
Definition trained (l : list (node R)) (x : Z -> R) (full : bool) : list (node R) :=
  run_back (run_fwd l x) x full (loss_dval lo tv (real_net (to_model l) x)).
Lemma count_match (d e : node R) (l : list (node R)) s0 : fits (n_layer d) (n_plan d) -> fits (n_layer e) (n_plan e) -> wired s0 (plans (d :: e :: l)) -> in_count (n_plan e) = out_count (n_plan d).
Proof.
  intros Fd Fe W. cbn in W. destruct W as (_ & W & _). rewrite <- (feeds_count (n_layer e) (n_plan e) _ Fe W). now apply fits_counts in Fd.
Qed.
Definition Jloss (l : list (node R)) (y : Z -> R) : R := net_loss lo (last_plan l) tv y.
Lemma chain_rule l : forall s0 x, l <> [] -> Forall train_class (layers l) -> Forall (fun d => fits (n_layer d) (n_plan d)) l -> wired s0 (plans l) ->
  smooth (to_model l) x -> clean (to_model l) -> loss_fits lo (last_plan l) tv (real_net (to_model l) x) ->
  (exists e r, trained l x true = e :: r /\
     grad_of (fun x => Jloss l (real_net (to_model l) x)) (match l with d :: _ => in_count (n_plan d) | [] => 0%Z end) x (n_data e RDelta)) /\
  (forall full i d d2 c t0 s1, nth_error l i = Some d -> nth_error (trained l x full) i = Some d2 -> ccurve c t0 (n_data d) s1 ->
     is_derive (fun t => Jloss l (real_net (set_contents (to_model l) i (c t)) x)) t0 (params_dot (n_plan d) (n_data d) (n_data d2) s1)).
Proof.
  induction l as [|d l IH]; intros s0 x Ne Tr F W Sm Cl Lf; [congruence|]. clear Ne.
  cbn [layers map] in Tr. apply Forall_cons_iff in Tr as [T1 T2]. apply Forall_cons_iff in F as [F1 F2].
  cbn [to_model map] in Sm, Cl. apply (smooth_cons _ _ (to_model l)) in Sm as (S1 & S2 & C2 & Lin); [|exact Cl].
  pose proof (node_out_real d x F1 S1) as No.
  destruct l as [|e l].
  - clear IH Lin. cbn [to_model map] in *. unfold last_plan in *. cbn [plans map last] in *.
    assert (Ern : real_net [(n_plan d, n_data d)] x = real_layer (n_plan d) (n_data d) x) by reflexivity. rewrite Ern in *.
    pose proof (loss_step d x F1 S1 Lf) as G. set (dl := loss_dval lo tv (real_layer (n_plan d) (n_data d) x)) in *.
    assert (Et : forall full, trained [d] x full = [bwd (fwd d x) x dl full]) by reflexivity.
    split.
    + exists (bwd (fwd d x) x dl true), []. split; [reflexivity|]. intros cx t0 x1 Cx Dx.
      destruct (layer_step d x dl (fun _ => n_data d) cx t0 (fun _ _ => 0) x1 T1 F1 S1 (ccurve_const _ _) Cx Dx) as (y1 & D0 & D1 & E1).
      cbn [bwd n_data]. evar_last.
      { apply (is_derive_ext (fun t => net_loss lo (n_plan d) tv (out_fun (n_plan d) (real_layer (lin (n_plan d)) (n_data d) (cx t))))).
        { intros t. rewrite <- real_layer_lin. reflexivity. }
        apply (G (fun t => real_layer (lin (n_plan d)) (n_data d) (cx t)) t0 y1); [exact D0|exact D1]. }
      rewrite E1, params_dot_0. lra.
    + intros full i d1 d2 c t0 s1 E1 E2 Cc. rewrite Et in E2. destruct i as [|[|i]]; cbn in E1, E2; try discriminate.
      injection E1 as <-. injection E2 as <-. cbn [bwd n_data].
      destruct (layer_step d x dl c (fun _ => x) t0 s1 (fun _ => 0) T1 F1 S1 Cc) as (y1 & D0 & D1 & E1); [reflexivity|intros; apply const_curve|].
      rewrite params_dot_full with (full := full) in E1. evar_last.
      { apply (is_derive_ext (fun t => net_loss lo (n_plan d) tv (out_fun (n_plan d) (real_layer (lin (n_plan d)) (c t) x)))).
        { intros t. rewrite <- real_layer_lin. reflexivity. }
        apply (G (fun t => real_layer (lin (n_plan d)) (c t) x) t0 y1); [exact D0|exact D1]. }
      rewrite E1, rsum_zero. lra.
  - specialize (IH (p_out (n_plan d)) (node_out d x) ltac:(discriminate) T2 F2). rewrite No in IH.
    pose proof (count_match d e l s0 F1 ltac:(apply Forall_cons_iff in F2; tauto) W) as Cm.
    cbn [plans map wired] in W. destruct W as [_ W]. specialize (IH W S2 C2 Lf). destruct IH as [(e' & r & Et & GB) GA].
    specialize (Lin ltac:(discriminate)).
    assert (Et' : forall full, trained (d :: e :: l) x full = bwd (fwd d x) x (n_data e' RDelta) full :: e' :: r).
    { intros full. unfold trained in *.
      change (match run_back (run_fwd (e :: l) (node_out d x)) (n_data (fwd d x) RValue) true (loss_dval lo tv (real_net (to_model (e :: l)) (real_layer (n_plan d) (n_data d) x))) with
              | [] => [bwd (fwd d x) x (loss_dval lo tv (real_net (to_model (e :: l)) (real_layer (n_plan d) (n_data d) x))) full]
              | e0 :: r0 => bwd (fwd d x) x (n_data e0 RDelta) full :: e0 :: r0 end = bwd (fwd d x) x (n_data e' RDelta) full :: e' :: r).
      change (n_data (fwd d x) RValue) with (after_forward d x RValue). rewrite after_forward_value, No, Et. reflexivity. }
    cbv beta iota in GB.
    assert (Ej : forall x, Jloss (d :: e :: l) (real_net (to_model (d :: e :: l)) x) = Jloss (e :: l) (real_net (to_model (e :: l)) (real_layer (n_plan d) (n_data d) x))) by reflexivity.
    set (dl := n_data e' RDelta) in *. rewrite Cm in GB. rewrite <- Lin in GB at 2.
    split.
    + eexists _, _. split; [apply Et'|]. intros cx t0 x1 Cx Dx.
      destruct (layer_step d x dl (fun _ => n_data d) cx t0 (fun _ _ => 0) x1 T1 F1 S1 (ccurve_const _ _) Cx Dx) as (y1 & D0 & D1 & E1).
      cbn [bwd n_data]. evar_last.
      { apply (is_derive_ext (fun t => Jloss (e :: l) (real_net (to_model (e :: l)) (real_layer (lin (n_plan d)) (n_data d) (cx t))))).
        { intros t. rewrite Lin. reflexivity. }
        apply (GB (fun t => real_layer (lin (n_plan d)) (n_data d) (cx t)) t0 y1); [exact D0|exact D1]. }
      rewrite E1, params_dot_0. lra.
    + intros full i d1 d2 c t0 s1 E1 E2 Cc. rewrite Et' in E2. destruct i as [|i]; cbn in E1, E2.
      * injection E1 as <-. injection E2 as <-. cbn [bwd n_data].
        destruct (layer_step d x dl c (fun _ => x) t0 s1 (fun _ => 0) T1 F1 S1 Cc) as (y1 & D0 & D1 & E1); [reflexivity|intros; apply const_curve|].
        rewrite params_dot_full with (full := full) in E1. evar_last.
        { apply (is_derive_ext (fun t => Jloss (e :: l) (real_net (to_model (e :: l)) (real_layer (lin (n_plan d)) (c t) x)))).
          { intros t. rewrite Lin. reflexivity. }
          apply (GB (fun t => real_layer (lin (n_plan d)) (c t) x) t0 y1); [exact D0|exact D1]. }
        rewrite E1, rsum_zero. lra.
      * rewrite <- Et in E2. apply (is_derive_ext (fun t => Jloss (e :: l) (real_net (set_contents (to_model (e :: l)) i (c t)) (real_layer (n_plan d) (n_data d) x)))).
        { intros t. reflexivity. }
        apply (GA true i d1 d2 c t0 s1 E1 E2 Cc).
Qed.
End Chain.

(** * Properties C43-C50: optimizers *)
From Coq Require Import QArith Reals Lra.
From Verif Require Import Mem Scalar MemSpec MemLemmas Lique LiqueProofs LinearProofs Optimizer Bufs OptimizerProofs OptimizerSpec OptimizerHist RealSpec Skel.
Local Open Scope R_scope.

Section AnyScalar.
Context {T : Type} `{NT : Num T} {Nm : Type} `{NI : Names Nm}.

(** A newly constructed optimizer with learning rate [lr]. *)
Definition new_optimizer (lr : T) (o : opt T) : Prop :=
  o = grad_descent lr \/ (exists decay, o = sto_grad_descent lr decay) \/
  (exists mu, o = momentum_opt lr mu) \/ (exists mu, o = nestorov_opt lr mu) \/
  o = ada_grad lr \/ (exists beta, o = rms_prop lr beta) \/
  (exists b1 b2, o = adam lr b1 b2).
Lemma new_fresh lr o : new_optimizer lr o -> fresh_opt lr o.
Proof.
  unfold new_optimizer. intros H. decompose [or ex] H; subst; repeat split.
Qed.

(** Every call of [update] in every history succeeds (no undefined behaviour) and touches only the
    updated tensor, the optimizer's own memory and possibly the gradient. *)
Theorem C49_update_safe_and_local (addr : ptr -> Z) (P : Nm -> ptr) (N : Nm -> Z) lr0 o0 m0 w cs lr o m k gp g :
  distinct_tensors addr P N -> new_optimizer lr0 o0 -> (forall k, holds m0 (P k) (N k) (w k)) ->
  history addr P N lr0 o0 m0 cs lr o m -> holds m gp (N k) g -> separate_gradient addr P N o gp (N k) ->
  exists o' m', opt_update addr o (P k, N k) (gp, N k) m = Ok (o', m') /\
    (forall q c v, holds m q c v -> disjoint q c (P k) (N k) -> disjoint q c gp (N k) ->
       (forall r, In r (opt_memory o (addr (P k))) -> disjoint q c r (N k)) -> holds m' q c v).
Proof.
  intros Ht Hn Hw H Hg Hs. apply new_fresh in Hn.
  destruct (history_progress addr P N lr0 o0 m0 w cs lr o m k gp g Ht Hn Hw H Hg Hs) as (o' & m' & E & _ & _ & F & _). eauto.
Qed.

(** A tensor's trajectory depends only on its own calls: not for Adam (below). *)
Theorem C49_own_calls_decide_partial (addr : ptr -> Z) (P : Nm -> ptr) (N : Nm -> Z) lr0 o0 w m0 cs lr o m m0' cs' lr' o' m' k v v' :
  distinct_tensors addr P N -> new_optimizer lr0 o0 -> (forall b1 b2, o0 <> adam lr0 b1 b2) ->
  (forall k, holds m0 (P k) (N k) (w k)) -> (forall k, holds m0' (P k) (N k) (w k)) ->
  history addr P N lr0 o0 m0 cs lr o m -> history addr P N lr0 o0 m0' cs' lr' o' m' ->
  filter (fun c => same (c_tensor c) k) cs = filter (fun c => same (c_tensor c) k) cs' ->
  holds m (P k) (N k) v -> holds m' (P k) (N k) v' -> forall j, (0 <= j < N k)%Z -> v j = v' j.
Proof.
  intros Ht Hn Hna Hw Hw' H H' E Hv Hv' j Hj. pose proof (new_fresh _ _ Hn) as Hf.
  assert (Hk : not_adam (o_kind o0)).
  { unfold new_optimizer in Hn. decompose [or ex] Hn; subst; cbn; auto. eapply Hna. reflexivity. }
  pose proof (history_params addr P N lr0 o0 m0 w cs lr o m k Ht Hf Hk Hw H j Hj) as A.
  pose proof (history_params addr P N lr0 o0 m0' w cs' lr' o' m' k Ht Hf Hk Hw' H' j Hj) as A'.
  rewrite (Hv j Hj) in A. rewrite (Hv' j Hj) in A'. unfold own_calls in A, A'. rewrite E in A. congruence.
Qed.

(** C50 for the optimizers with state *)
Theorem C50_gradient_unchanged_partial (addr : ptr -> Z) (P : Nm -> ptr) (N : Nm -> Z) lr0 o0 m0 w cs lr o m k gp g o' m' :
  distinct_tensors addr P N -> new_optimizer lr0 o0 ->
  o0 <> grad_descent lr0 -> (forall d, o0 <> sto_grad_descent lr0 d) ->
  (forall k, holds m0 (P k) (N k) (w k)) ->
  history addr P N lr0 o0 m0 cs lr o m -> holds m gp (N k) g -> separate_gradient addr P N o gp (N k) ->
  opt_update addr o (P k, N k) (gp, N k) m = Ok (o', m') -> holds m' gp (N k) g.
Proof.
  intros Ht Hn H1 H2 Hw H Hg Hs E. pose proof (new_fresh _ _ Hn) as Hf.
  pose proof (history_inv addr P N lr0 o0 m0 w cs lr o m Ht Hf Hw H) as HI. destruct (hrun _ _ _) as [[X t1] t2]. destruct HI as (_ & Ek & _).
  destruct (history_progress addr P N lr0 o0 m0 w cs lr o m k gp g Ht Hf Hw H Hg Hs) as (o1 & m1 & E1 & _ & A & _ & _).
  rewrite E in E1. injection E1 as <- <-. apply A. rewrite Ek.
  unfold new_optimizer in Hn. decompose [or ex] Hn; subst; cbn; try tauto; exfalso; eapply H2; reflexivity.
Qed.
(** GradDescent and StoGradDescent leave the gradient multiplied by the learning rate *)
Theorem C50_gradient_scaled (addr : ptr -> Z) (P : Nm -> ptr) (N : Nm -> Z) lr0 o0 m0 w cs lr o m k gp g o' m' :
  distinct_tensors addr P N -> o0 = grad_descent lr0 \/ (exists d, o0 = sto_grad_descent lr0 d) ->
  (forall k, holds m0 (P k) (N k) (w k)) ->
  history addr P N lr0 o0 m0 cs lr o m -> holds m gp (N k) g -> separate_gradient addr P N o gp (N k) ->
  opt_update addr o (P k, N k) (gp, N k) m = Ok (o', m') -> holds m' gp (N k) (fun j => mul (g j) lr).
Proof.
  intros Ht Hn Hw H Hg Hs E.
  assert (Hf : fresh_opt lr0 o0) by (decompose [or ex] Hn; subst; repeat split).
  pose proof (history_inv addr P N lr0 o0 m0 w cs lr o m Ht Hf Hw H) as HI. destruct (hrun _ _ _) as [[X t1] t2]. destruct HI as (_ & Ek & _).
  destruct (history_progress addr P N lr0 o0 m0 w cs lr o m k gp g Ht Hf Hw H Hg Hs) as (o1 & m1 & E1 & A & _ & _ & _).
  rewrite E in E1. injection E1 as <- <-. apply A. rewrite Ek. decompose [or ex] Hn; subst; exact I.
Qed.
End AnyScalar.

(** In exact arithmetic this changes every non-zero component unless the learning rate is 1. *)
Theorem C50_gradient_unchanged_refuted {Nm : Type} `{NI : Names Nm} (addr : ptr -> Z) (P : Nm -> ptr) (N : Nm -> Z) lr0 (o0 : opt R) m0 w cs lr o m k gp g o' m' j :
  distinct_tensors addr P N -> o0 = grad_descent lr0 \/ (exists d, o0 = sto_grad_descent lr0 d) ->
  (forall k, holds m0 (P k) (N k) (w k)) ->
  history addr P N lr0 o0 m0 cs lr o m -> holds m gp (N k) g -> separate_gradient addr P N o gp (N k) ->
  opt_update addr o (P k, N k) (gp, N k) m = Ok (o', m') ->
  (0 <= j < N k)%Z -> g j <> 0 -> lr <> 1 -> elem m' gp j <> Some (Some (g j)).
Proof.
  intros Ht Hn Hw H Hg Hs E Hj Hgj Hlr F.
  pose proof (C50_gradient_scaled addr P N lr0 o0 m0 w cs lr o m k gp g o' m' Ht Hn Hw H Hg Hs E j Hj) as A.
  rewrite A in F. injection F as F. cbn in F. apply Hlr. apply Rmult_eq_reg_l with (g j); lra.
Qed.

(** ** C43-C47: the rules, exact arithmetic.  Each theorem: for every history of a new optimizer on
    any tensors, each element of each tensor is where the textbook rule takes it. *)
Section Rules.
Context {Nm : Type} `{NI : Names Nm} (addr : ptr -> Z) (P : Nm -> ptr) (N : Nm -> Z) (w : Nm -> Z -> R) (m0 : mem R).
Context (Ht : distinct_tensors addr P N) (Hw : forall k, holds m0 (P k) (N k) (w k)).

Lemma inv_sqrt_R x : invert_sqrt x = / sqrt (eps9 + x).
Proof.
  unfold invert_sqrt. cbn. unfold eps9. replace (Q2R (1 # 1000000000)) with (/ 10 ^ 9) by (unfold Q2R; cbn [Qnum Qden]; lra).
  unfold Rdiv. now rewrite Rmult_1_l.
Qed.

Theorem C43_grad_descent_rule lr0 cs lr o m k : history addr P N lr0 (grad_descent lr0) m0 cs lr o m ->
  holds m (P k) (N k) (fun j => gd_rule (w k j) (own_calls k j cs)).
Proof.
  intros H. eapply holds_ext; [|eapply (history_params addr P N lr0 (grad_descent lr0) m0 w cs lr o m k); eauto; [repeat split|exact I]].
  intros j _. cbn [o_kind grad_descent opt_new].
  symmetry. match goal with |- _ = e_w (fold_left ?f _ _) => enough (G : forall l x v s, gd_rule x l = e_w (fold_left f l (mk_est x v s))) by apply G end.
  induction l as [|[lr1 g] l IH]; intros x v s; [reflexivity|]. cbn [fold_left fst snd elem_step gd_rule].
  rewrite <- IH. f_equal. cbn. lra.
Qed.
Theorem C43_sto_grad_descent_rule lr0 decay cs lr o m k : history addr P N lr0 (sto_grad_descent lr0 decay) m0 cs lr o m ->
  holds m (P k) (N k) (fun j => sgd_rule (1 - lr0 * decay) (w k j) (own_calls k j cs)).
Proof.
  intros H. eapply holds_ext; [|eapply (history_params addr P N lr0 (sto_grad_descent lr0 decay) m0 w cs lr o m k); eauto; [repeat split|exact I]].
  intros j _. cbn [o_kind sto_grad_descent opt_new].
  symmetry. match goal with |- _ = e_w (fold_left ?f _ _) => enough (G : forall l x v s, sgd_rule (1 - lr0 * decay) x l = e_w (fold_left f l (mk_est x v s))) by apply G end.
  induction l as [|[lr1 g] l IH]; intros x v s; [reflexivity|]. cbn [fold_left fst snd elem_step sgd_rule].
  rewrite <- IH. f_equal. cbn. lra.
Qed.
Theorem C44_momentum_rule lr0 mu cs lr o m k : history addr P N lr0 (momentum_opt lr0 mu) m0 cs lr o m ->
  holds m (P k) (N k) (fun j => momentum_rule mu (w k j) 0 (own_calls k j cs)).
Proof.
  intros H. eapply holds_ext; [|eapply (history_params addr P N lr0 (momentum_opt lr0 mu) m0 w cs lr o m k); eauto; [repeat split|exact I]].
  intros j _. cbn [o_kind momentum_opt opt_new].
  symmetry. match goal with |- _ = e_w (fold_left ?f _ _) => enough (G : forall l x v s, momentum_rule mu x v l = e_w (fold_left f l (mk_est x v s))) by apply G end.
  induction l as [|[lr1 g] l IH]; intros x v s; [reflexivity|]. cbn [fold_left fst snd elem_step momentum_rule]. cbv zeta.
  rewrite <- IH. cbn. f_equal; lra.
Qed.
Theorem C45_nestorov_rule lr0 mu cs lr o m k : history addr P N lr0 (nestorov_opt lr0 mu) m0 cs lr o m ->
  holds m (P k) (N k) (fun j => nestorov_rule mu (w k j) 0 (own_calls k j cs)).
Proof.
  intros H. eapply holds_ext; [|eapply (history_params addr P N lr0 (nestorov_opt lr0 mu) m0 w cs lr o m k); eauto; [repeat split|exact I]].
  intros j _. cbn [o_kind nestorov_opt opt_new].
  symmetry. match goal with |- _ = e_w (fold_left ?f _ _) => enough (G : forall l x v s, nestorov_rule mu x v l = e_w (fold_left f l (mk_est x v s))) by apply G end.
  induction l as [|[lr1 g] l IH]; intros x v s; [reflexivity|]. cbn [fold_left fst snd elem_step nestorov_rule]. cbv zeta.
  rewrite <- IH. cbn. f_equal; lra.
Qed.
Theorem C46_adagrad_rule lr0 cs lr o m k : history addr P N lr0 (ada_grad lr0) m0 cs lr o m ->
  holds m (P k) (N k) (fun j => adagrad_rule (w k j) 0 (own_calls k j cs)).
Proof.
  intros H. eapply holds_ext; [|eapply (history_params addr P N lr0 (ada_grad lr0) m0 w cs lr o m k); eauto; [repeat split|exact I]].
  intros j _. cbn [o_kind ada_grad opt_new].
  symmetry. match goal with |- _ = e_w (fold_left ?f _ _) => enough (G : forall l x v s, adagrad_rule x v l = e_w (fold_left f l (mk_est x v s))) by apply G end.
  induction l as [|[lr1 g] l IH]; intros x v s; [reflexivity|]. cbn [fold_left fst snd elem_step adagrad_rule]. cbv zeta.
  rewrite <- IH, inv_sqrt_R. cbn [add mul sub Num_R]. replace (v + g * g) with (v + g ^ 2) by ring. f_equal. unfold Rdiv. ring.
Qed.
Theorem C47_rmsprop_rule lr0 beta cs lr o m k : history addr P N lr0 (rms_prop lr0 beta) m0 cs lr o m ->
  holds m (P k) (N k) (fun j => rmsprop_rule beta (w k j) 0 (own_calls k j cs)).
Proof.
  intros H. eapply holds_ext; [|eapply (history_params addr P N lr0 (rms_prop lr0 beta) m0 w cs lr o m k); eauto; [repeat split|exact I]].
  intros j _. cbn [o_kind rms_prop opt_new].
  symmetry. match goal with |- _ = e_w (fold_left ?f _ _) => enough (G : forall l x v s, rmsprop_rule beta x v l = e_w (fold_left f l (mk_est x v s))) by apply G end.
  induction l as [|[lr1 g] l IH]; intros x v s; [reflexivity|]. cbn [fold_left fst snd elem_step rmsprop_rule]. cbv zeta.
  rewrite <- IH, inv_sqrt_R. cbn [add mul sub one Num_R]. replace (v * beta + g * g * (1 - beta)) with (beta * v + (1 - beta) * g ^ 2) by ring.
  f_equal. unfold Rdiv. ring.
Qed.

(** bounded steps *)
Lemma sqrt_ge_abs (a g : R) : 0 <= a -> a * g ^ 2 <= 1 -> 0 <= 1. Proof. intros; lra. Qed.
Lemma step_le lr g x c : 0 < c -> 0 < x -> (c * g) ^ 2 <= x -> Rabs (lr * g / sqrt x) <= Rabs lr / c.
Proof.
  intros Hc Hx Hg. assert (Hs : 0 < sqrt x) by now apply sqrt_lt_R0.
  unfold Rdiv. rewrite !Rabs_mult, (Rabs_inv (sqrt x)), (Rabs_right (sqrt x)) by lra.
  rewrite Rmult_assoc. apply Rmult_le_compat_l; [apply Rabs_pos|].
  assert (Hcg : c * Rabs g <= sqrt x).
  { rewrite <- (sqrt_pow2 (c * Rabs g)); [|apply Rmult_le_pos; [lra|apply Rabs_pos]]. apply sqrt_le_1_alt.
    eapply Rle_trans; [|exact Hg]. right. rewrite !Rpow_mult_distr. f_equal. apply pow2_abs. }
  apply Rmult_le_reg_r with (sqrt x); [lra|]. apply Rmult_le_reg_l with c; [lra|].
  replace (c * (Rabs g * / sqrt x * sqrt x)) with (c * Rabs g) by (field; lra).
  replace (c * (/ c * sqrt x)) with (sqrt x) by (field; lra). exact Hcg.
Qed.
Lemma eps9_pos : 0 < eps9. Proof. unfold eps9. apply Rinv_0_lt_compat. lra. Qed.
Lemma adagrad_step lr g : forall l x s, 0 <= s -> Rabs (adagrad_rule x s (l ++ [(lr, g)]) - adagrad_rule x s l) <= Rabs lr.
Proof.
  induction l as [|[lr' g'] l IH]; intros x s Hs; cbn [app adagrad_rule]; cbv zeta.
  - pose proof eps9_pos. assert (0 <= g ^ 2) by apply pow2_ge_0.
    replace (_ - x) with (- (lr * g / sqrt (eps9 + (s + g ^ 2)))) by ring. rewrite Rabs_Ropp.
    eapply Rle_trans; [apply (step_le _ _ _ 1); [lra|lra|]|right; field]. rewrite Rmult_1_l. lra.
  - apply IH. assert (0 <= g' ^ 2) by apply pow2_ge_0. lra.
Qed.
Lemma rmsprop_step beta lr g : 0 <= beta < 1 -> forall l x s, 0 <= s ->
  Rabs (rmsprop_rule beta x s (l ++ [(lr, g)]) - rmsprop_rule beta x s l) <= Rabs lr / sqrt (1 - beta).
Proof.
  intros Hb. induction l as [|[lr' g'] l IH]; intros x s Hs; cbn [app rmsprop_rule]; cbv zeta.
  - pose proof eps9_pos. assert (0 <= g ^ 2) by apply pow2_ge_0. assert (0 <= beta * s) by nra. assert (0 <= (1 - beta) * g ^ 2) by nra.
    replace (_ - x) with (- (lr * g / sqrt (eps9 + (beta * s + (1 - beta) * g ^ 2)))) by ring. rewrite Rabs_Ropp.
    apply step_le; [apply sqrt_lt_R0; lra|lra|]. rewrite Rpow_mult_distr, pow2_sqrt by lra. lra.
  - apply IH. assert (0 <= g' ^ 2) by apply pow2_ge_0. nra.
Qed.
Lemma own_calls_snoc (k : Nm) (j : Z) (cs : list (call R Nm)) c :
  own_calls k j (cs ++ [c]) = own_calls k j cs ++ if same (c_tensor c) k then [(c_lr c, c_grad c j)] else [].
Proof.
  unfold own_calls. rewrite filter_app, map_app. f_equal. cbn. destruct (same (c_tensor c) k); reflexivity.
Qed.
Theorem C46_adagrad_step_bound lr0 cs lr o m k gp g o' m' : history addr P N lr0 (ada_grad lr0) m0 cs lr o m ->
  holds m gp (N k) g -> separate_gradient addr P N o gp (N k) -> opt_update addr o (P k, N k) (gp, N k) m = Ok (o', m') ->
  forall j v v', (0 <= j < N k)%Z -> elem m (P k) j = Some (Some v) -> elem m' (P k) j = Some (Some v') -> Rabs (v' - v) <= Rabs lr.
Proof.
  intros H Hg Hs E j v v' Hj Ev Ev'.
  pose proof (C46_adagrad_rule lr0 _ _ _ _ k H j Hj) as A.
  assert (H' : history addr P N lr0 (ada_grad lr0) m0 (cs ++ [mk_call k lr g]) lr o' m') by (eapply h_update; eauto).
  pose proof (C46_adagrad_rule lr0 _ _ _ _ k H' j Hj) as A'. rewrite Ev in A. rewrite Ev' in A'. injection A as ->. injection A' as ->.
  rewrite own_calls_snoc. cbn [c_tensor c_lr c_grad]. rewrite same_refl. apply adagrad_step. lra.
Qed.
Theorem C47_rmsprop_step_bound lr0 beta cs lr o m k gp g o' m' : 0 <= beta < 1 -> history addr P N lr0 (rms_prop lr0 beta) m0 cs lr o m ->
  holds m gp (N k) g -> separate_gradient addr P N o gp (N k) -> opt_update addr o (P k, N k) (gp, N k) m = Ok (o', m') ->
  forall j v v', (0 <= j < N k)%Z -> elem m (P k) j = Some (Some v) -> elem m' (P k) j = Some (Some v') -> Rabs (v' - v) <= Rabs lr / sqrt (1 - beta).
Proof.
  intros Hb H Hg Hs E j v v' Hj Ev Ev'.
  pose proof (C47_rmsprop_rule lr0 beta _ _ _ _ k H j Hj) as A.
  assert (H' : history addr P N lr0 (rms_prop lr0 beta) m0 (cs ++ [mk_call k lr g]) lr o' m') by (eapply h_update; eauto).
  pose proof (C47_rmsprop_rule lr0 beta _ _ _ _ k H' j Hj) as A'. rewrite Ev in A. rewrite Ev' in A'. injection A as ->. injection A' as ->.
  rewrite own_calls_snoc. cbn [c_tensor c_lr c_grad]. rewrite same_refl. apply rmsprop_step; lra.
Qed.

(** ** C48 *)
(** Adam's rule with the iteration number counting the calls on all tensors *)
Lemma tpow_R b n : tpow b n = b ^ n. Proof. induction n; cbn; [reflexivity|]. rewrite IHn. cbn. ring. Qed.
Theorem C48_adam_rule_partial lr0 b1 b2 cs lr o m k : history addr P N lr0 (adam lr0 b1 b2) m0 cs lr o m ->
  holds m (P k) (N k) (fun j => adam_rule b1 b2 (w k j) 0 0 (own_numbered k j cs)).
Proof.
  intros H. eapply holds_ext; [|eapply (history_adam addr P N lr0 (adam lr0 b1 b2) m0 w cs lr o m k b1 b2); eauto; [repeat split|reflexivity]].
  intros j _. cbn [o_kind adam opt_new].
  symmetry. match goal with |- _ = e_w (fold_left ?f _ _) => enough (G : forall l x v s, adam_rule b1 b2 x v s l = e_w (fold_left f l (mk_est x v s))) by apply G end.
  induction l as [|[n [lr1 g]] l IH]; intros x v s; [reflexivity|]. cbn [fold_left fst snd elem_step adam_rule]. cbv zeta.
  rewrite <- IH, inv_sqrt_R, !tpow_R. cbn [add mul sub div one Num_R].
  replace (v * b1 + (1 - b1) * g) with (b1 * v + (1 - b1) * g) by ring.
  replace (s * b2 + g * g * (1 - b2)) with (b2 * s + (1 - b2) * g ^ 2) by ring.
  replace (1 / (1 - b2 ^ n) * (b2 * s + (1 - b2) * g ^ 2)) with ((b2 * s + (1 - b2) * g ^ 2) / (1 - b2 ^ n)) by (unfold Rdiv; ring).
  f_equal. unfold Rdiv. ring.
Qed.
Lemma numbered_all (A : Type) (f : A -> bool) l : forall n, (forall x, In x l -> f x = true) ->
  filter (fun nc => f (snd nc)) (numbered n l) = numbered n l.
Proof.
  induction l as [|x l IH]; intros n H; [reflexivity|]. cbn. rewrite (H x (or_introl eq_refl)). f_equal. apply IH. intros y Hy. apply H. now right.
Qed.
Lemma numbered_map (A B : Type) (f : A -> B) l : forall n, numbered n (map f l) = map (fun nc => (fst nc, f (snd nc))) (numbered n l).
Proof. induction l as [|x l IH]; intros n; [reflexivity|]. cbn. f_equal. apply IH. Qed.
(** With a single tensor this is the textbook rule. *)
Theorem C48_adam_single_tensor_partial lr0 b1 b2 cs lr o m k : history addr P N lr0 (adam lr0 b1 b2) m0 cs lr o m ->
  (forall c, In c cs -> c_tensor c = k) ->
  holds m (P k) (N k) (fun j => adam_rule b1 b2 (w k j) 0 0 (numbered 1 (own_calls k j cs))).
Proof.
  intros H Hk. eapply holds_ext; [|eapply C48_adam_rule_partial; eauto]. intros j _. f_equal. unfold own_numbered, own_calls.
  rewrite numbered_map, (numbered_all _ (fun c => same (c_tensor c) k)).
  - enough (E : filter (fun c => same (c_tensor c) k) cs = cs) by now rewrite E. clear -Hk. induction cs as [|c cs IH]; [reflexivity|]. cbn. rewrite (Hk c (or_introl eq_refl)), same_refl. f_equal.
    apply IH. intros c' Hc. apply Hk. now right.
  - intros c Hc. rewrite (Hk c Hc). apply same_refl.
Qed.
End Rules.

(** ** Refutations for Adam: the powers of beta1 and beta2 advance on every call, whichever tensor it is for *)
Lemma adam_factor b1 b2 g : 0 < b1 < 1 -> 0 < b2 < 1 -> 1 + b2 < (1 + b1) ^ 2 -> g <> 0 ->
  ((1 - b1) * g / (1 - b1 ^ 2)) / sqrt (eps9 + (1 - b2) * g ^ 2 / (1 - b2 ^ 2)) <>
  ((1 - b1) * g / (1 - b1 ^ 1)) / sqrt (eps9 + (1 - b2) * g ^ 2 / (1 - b2 ^ 1)).
Proof.
  intros H1 H2 Hb Hg E. pose proof eps9_pos as He.
  assert (Hg2 : 0 < g ^ 2) by nra.
  replace ((1 - b1) * g / (1 - b1 ^ 2)) with (g / (1 + b1)) in E by (field; nra).
  replace ((1 - b1) * g / (1 - b1 ^ 1)) with g in E by (field; lra).
  replace ((1 - b2) * g ^ 2 / (1 - b2 ^ 2)) with (g ^ 2 / (1 + b2)) in E by (field; nra).
  replace ((1 - b2) * g ^ 2 / (1 - b2 ^ 1)) with (g ^ 2) in E by (field; lra).
  set (A := eps9 + g ^ 2 / (1 + b2)) in *. set (B := eps9 + g ^ 2) in *.
  assert (HA : 0 < A) by (unfold A; apply Rplus_lt_0_compat; [lra|apply Rdiv_lt_0_compat; lra]).
  assert (HB : 0 < B) by (unfold B; lra).
  assert (SA : 0 < sqrt A) by now apply sqrt_lt_R0. assert (SB : 0 < sqrt B) by now apply sqrt_lt_R0.
  assert (E2 : sqrt B = (1 + b1) * sqrt A).
  { clear -E SA SB H1 Hg. revert E SA SB. generalize (sqrt A) as a, (sqrt B) as b. intros a b E SA SB.
    replace g with (g / (1 + b1) / a * ((1 + b1) * a)) in E at 2 by (field; lra).
    assert (E' : g / (1 + b1) / a * b = g / (1 + b1) / a * ((1 + b1) * a)) by (rewrite E at 1; field; lra).
    apply Rmult_eq_reg_l in E'; auto.
    unfold Rdiv; repeat (apply Rmult_integral_contrapositive; split); auto; apply Rinv_neq_0_compat; lra. }
  assert (E3 : B = (1 + b1) ^ 2 * A).
  { rewrite <- (sqrt_sqrt B) by lra. rewrite E2. rewrite <- (sqrt_sqrt A) at 3 by lra. ring. }
  unfold A, B in E3.
  assert (E4 : (1 + b1) ^ 2 * (g ^ 2 / (1 + b2)) > g ^ 2).
  { replace ((1 + b1) ^ 2 * (g ^ 2 / (1 + b2))) with (g ^ 2 * ((1 + b1) ^ 2 / (1 + b2))) by (field; lra).
    rewrite <- (Rmult_1_r (g ^ 2)) at 2. apply Rmult_lt_compat_l; [lra|].
    apply Rmult_lt_reg_r with (1 + b2); [lra|]. replace ((1 + b1) ^ 2 / (1 + b2) * (1 + b2)) with ((1 + b1) ^ 2) by (field; lra). lra. }
  assert ((1 + b1) ^ 2 * eps9 > eps9) by nra. nra.
Qed.

(** In every history in which one tensor is updated once and then another for the first time, with a
    non-zero gradient and learning rate, the second one is not where its own first iteration would take it
    (for all usual beta1, beta2, in particular the defaults 0.9, 0.999). *)
Theorem C48_adam_two_tensors_refuted {Nm : Type} `{NI : Names Nm} (addr : ptr -> Z) (P : Nm -> ptr) (N : Nm -> Z) w m0 lr0 b1 b2 c0 c1 lr o m j :
  distinct_tensors addr P N -> (forall k, holds m0 (P k) (N k) (w k)) ->
  history addr P N lr0 (adam lr0 b1 b2) m0 [c0; c1] lr o m -> c_tensor c0 <> c_tensor c1 -> let k := c_tensor c1 in
  0 < b1 < 1 -> 0 < b2 < 1 -> 1 + b2 < (1 + b1) ^ 2 ->
  (0 <= j < N k)%Z -> c_grad c1 j <> 0 -> c_lr c1 <> 0 ->
  elem m (P k) j <> Some (Some (adam_rule b1 b2 (w k j) 0 0 (numbered 1 (own_calls k j [c0; c1])))).
Proof.
  intros Ht Hw H E0 k H1 H2 Hb Hj Hg Hl F.
  pose proof (C48_adam_rule_partial addr P N w m0 Ht Hw lr0 b1 b2 _ lr o m k H j Hj) as A. rewrite F in A. injection A as A.
  unfold own_numbered, own_calls in A. cbn [filter numbered map fst snd] in A. assert (E1 : same (c_tensor c0) k = false) by (destruct (same_spec (c_tensor c0) k); [contradiction|reflexivity]).
  rewrite E1 in A. unfold k in A. rewrite same_refl in A. cbn [map numbered fst snd adam_rule] in A. fold k in A.
  set (lr1 := c_lr c1) in *. set (g := c_grad c1 j) in *. cbv zeta in A.
  rewrite !Rmult_0_r, !Rplus_0_l in A.
  apply (adam_factor b1 b2 g H1 H2 Hb Hg). apply Rmult_eq_reg_l with lr1; auto. unfold Rdiv in *. lra.
Qed.

(** A concrete program with two one-element tensors (blocks 0 and 1), gradients in blocks 2 and 3. *)
Definition ex_addr (p : ptr) : Z := match p with Null => 0%Z | Ptr b o => (4096 * Z.of_nat b + o + 1)%Z end.
Definition ex_P (k : nat) : ptr := match k with 0%nat => Ptr 0 0 | 1%nat => Ptr 1 0 | _ => Ptr (k + 4) 0 end.
Definition ex_N (k : nat) : Z := match k with 0%nat | 1%nat => 1%Z | _ => 0%Z end.
Definition ex_m (w0 w1 g0 g1 : R) : mem R := [Some [Some w0]; Some [Some w1]; Some [Some g0]; Some [Some g1]].
Definition ex_w (w0 w1 : R) (k : nat) (j : Z) : R := match k with 0%nat => w0 | _ => w1 end.
Lemma ex_distinct : distinct_tensors ex_addr ex_P ex_N.
Proof.
  split; [|split].
  - intros [|[|k]] [|[|k']]; unfold ex_addr, ex_P; intros; lia.
  - intros [|[|k]] [|[|k']] H b i; cbn; intros; try lia.
  - intros [|[|k]]; cbn; lia.
Qed.
Lemma ex_holds w0 w1 g0 g1 k : holds (ex_m w0 w1 g0 g1) (ex_P k) (ex_N k) (ex_w w0 w1 k).
Proof.
  destruct k as [|[|k]]; intros i Hi; cbn in Hi; try lia; replace i with 0%Z by lia; reflexivity.
Qed.
Lemma ex_grad b w0 w1 g0 g1 : (b = 2 \/ b = 3)%nat -> holds (ex_m w0 w1 g0 g1) (Ptr b 0) 1 (fun _ => if Nat.eqb b 2 then g0 else g1).
Proof. intros [-> | ->] i Hi; replace i with 0%Z by lia; reflexivity. Qed.
Lemma ex_sep lr0 (o : opt R) b : new_optimizer lr0 o -> (b = 2 \/ b = 3)%nat -> separate_gradient ex_addr ex_P ex_N o (Ptr b 0) 1.
Proof.
  intros Ho Hb. apply new_fresh in Ho as (_ & E1 & E2 & E3 & _). split.
  - intros [|[|k]] b' i [-> Hi]; cbn; intros [E Hi2]; lia.
  - intros k q. unfold opt_memory. rewrite E1, E2, E3. cbn. intros [<-|[<-|[<-|[]]]] b' i _ [].
Qed.
(** tensor 0 is updated with gradient [g0], then tensor 1 with gradient [g1] *)
Lemma ex_history lr0 (o0 : opt R) w0 w1 g0 g1 : new_optimizer lr0 o0 ->
  exists o m, history ex_addr ex_P ex_N lr0 o0 (ex_m w0 w1 g0 g1) [mk_call 0%nat lr0 (fun _ => g0); mk_call 1%nat lr0 (fun _ => g1)] lr0 o m.
Proof.
  intros Ho. pose proof (new_fresh _ _ Ho) as Hf.
  pose proof (h_start ex_addr ex_P ex_N lr0 o0 (ex_m w0 w1 g0 g1)) as H0.
  destruct (history_progress ex_addr ex_P ex_N lr0 o0 _ (ex_w w0 w1) [] lr0 o0 _ 0%nat (Ptr 2 0) (fun _ => g0) ex_distinct Hf (ex_holds w0 w1 g0 g1) H0)
    as (o1 & m1 & E1 & _ & _ & F1 & S1); [apply (ex_grad 2); auto|apply (ex_sep lr0 o0 2); auto|].
  assert (H1 : history ex_addr ex_P ex_N lr0 o0 (ex_m w0 w1 g0 g1) [mk_call 0%nat lr0 (fun _ => g0)] lr0 o1 m1).
  { eapply (h_update ex_addr ex_P ex_N lr0 o0 _ [] lr0 o0 _ 0%nat (Ptr 2 0)); [exact H0|apply (ex_grad 2); auto|apply (ex_sep lr0 o0 2); auto|exact E1]. }
  assert (Hg : holds m1 (Ptr 3 0) 1 (fun _ => g1)).
  { apply F1; [apply (ex_grad 3); auto| | |].
    - intros b i [-> _] [E _]. discriminate.
    - intros b i [-> _] [E _]. discriminate.
    - intros r Hr. apply (ex_sep lr0 o0 3) in Hr; auto. }
  assert (Hs : separate_gradient ex_addr ex_P ex_N o1 (Ptr 3 0) 1).
  { apply S1; [|apply (ex_sep lr0 o0 3); auto]. eapply holds_room. apply (ex_grad 3); auto. }
  destruct (history_progress ex_addr ex_P ex_N lr0 o0 _ (ex_w w0 w1) _ lr0 o1 m1 1%nat (Ptr 3 0) (fun _ => g1) ex_distinct Hf (ex_holds w0 w1 g0 g1) H1 Hg Hs)
    as (o2 & m2 & E2 & _).
  exists o2, m2.
  eapply (h_update ex_addr ex_P ex_N lr0 o0 _ [mk_call 0%nat lr0 (fun _ => g0)] lr0 o1 m1 1%nat (Ptr 3 0) (fun _ => g1)); [exact H1|exact Hg|exact Hs|exact E2].
Qed.
(** tensor 1 alone *)
Lemma ex_history1 lr0 (o0 : opt R) w0 w1 g0 g1 : new_optimizer lr0 o0 ->
  exists o m, history ex_addr ex_P ex_N lr0 o0 (ex_m w0 w1 g0 g1) [mk_call 1%nat lr0 (fun _ => g1)] lr0 o m.
Proof.
  intros Ho. pose proof (new_fresh _ _ Ho) as Hf.
  pose proof (h_start ex_addr ex_P ex_N lr0 o0 (ex_m w0 w1 g0 g1)) as H0.
  destruct (history_progress ex_addr ex_P ex_N lr0 o0 _ (ex_w w0 w1) [] lr0 o0 _ 1%nat (Ptr 3 0) (fun _ => g1) ex_distinct Hf (ex_holds w0 w1 g0 g1) H0)
    as (o1 & m1 & E1 & _); [apply (ex_grad 3); auto|apply (ex_sep lr0 o0 3); auto|].
  exists o1, m1.
  eapply (h_update ex_addr ex_P ex_N lr0 o0 _ [] lr0 o0 _ 1%nat (Ptr 3 0)); [exact H0|apply (ex_grad 3); auto|apply (ex_sep lr0 o0 3); auto|exact E1].
Qed.

(** Adam: the same calls on tensor 1 give a different result when tensor 0 is updated in between *)
Theorem C49_adam_tensors_interfere_refuted (lr b1 b2 w0 w1 g0 g1 : R) :
  0 < b1 < 1 -> 0 < b2 < 1 -> 1 + b2 < (1 + b1) ^ 2 -> g1 <> 0 -> lr <> 0 ->
  exists cs cs' o m o' m' v v',
    history ex_addr ex_P ex_N lr (adam lr b1 b2) (ex_m w0 w1 g0 g1) cs lr o m /\
    history ex_addr ex_P ex_N lr (adam lr b1 b2) (ex_m w0 w1 g0 g1) cs' lr o' m' /\
    filter (fun c => same (c_tensor c) 1%nat) cs = filter (fun c => same (c_tensor c) 1%nat) cs' /\
    elem m (ex_P 1) 0 = Some (Some v) /\ elem m' (ex_P 1) 0 = Some (Some v') /\ v <> v'.
Proof.
  intros H1 H2 Hb Hg Hl. set (o0 := adam lr b1 b2). assert (Hn : new_optimizer lr o0) by (do 6 right; unfold o0; eauto).
  destruct (ex_history lr o0 w0 w1 g0 g1 Hn) as (o & m & H). destruct (ex_history1 lr o0 w0 w1 g0 g1 Hn) as (o' & m' & H').
  do 6 eexists. exists (adam_rule b1 b2 w1 0 0 [(2%nat, (lr, g1))]), (adam_rule b1 b2 w1 0 0 [(1%nat, (lr, g1))]).
  split; [exact H|]. split; [exact H'|]. split; [reflexivity|]. split; [|split].
  - pose proof (C48_adam_rule_partial ex_addr ex_P ex_N (ex_w w0 w1) _ ex_distinct (ex_holds w0 w1 g0 g1) lr b1 b2 _ _ _ _ 1%nat H 0%Z ltac:(cbn; lia)) as A. rewrite A. reflexivity.
  - pose proof (C48_adam_rule_partial ex_addr ex_P ex_N (ex_w w0 w1) _ ex_distinct (ex_holds w0 w1 g0 g1) lr b1 b2 _ _ _ _ 1%nat H' 0%Z ltac:(cbn; lia)) as A. rewrite A. reflexivity.
  - cbn [adam_rule]. cbv zeta. rewrite !Rmult_0_r, !Rplus_0_l. intros A.
    apply (adam_factor b1 b2 g1 H1 H2 Hb Hg). apply Rmult_eq_reg_l with lr; auto. unfold Rdiv in *. lra.
Qed.

Module Examples.
(** hypotheses of the theorems are met: for every optimizer there is a two-call history; here the
    values it ends with, for Momentum with lr 1/2 and momentum 9/10 *)
Example ex_momentum : exists cs o m, history ex_addr ex_P ex_N (/ 2) (momentum_opt (/ 2) (9 / 10)) (ex_m 1 2 4 6) cs (/ 2) o m /\
  length cs = 2%nat /\ elem m (ex_P 1) 0 = Some (Some (2 - 3)).
Proof.
  destruct (ex_history (/ 2) (momentum_opt (/ 2) (9 / 10)) 1 2 4 6) as (o & m & H); [unfold new_optimizer; eauto 10|].
  do 3 eexists. split; [exact H|]. split; [reflexivity|].
  rewrite (C44_momentum_rule ex_addr ex_P ex_N (ex_w 1 2) _ ex_distinct (ex_holds 1 2 4 6) _ _ _ _ _ _ 1%nat H 0%Z ltac:(cbn; lia)).
  do 2 f_equal. cbn. lra.
Qed.
(** the gradient of the gradient-descent example really changes: 4 becomes 2 *)
Example ex_gd_gradient : exists o m, opt_update ex_addr (grad_descent (/ 2)) (ex_P 0, 1%Z) (Ptr 2 0, 1%Z) (ex_m 1 2 4 6) = Ok (o, m) /\
  elem m (Ptr 2 0) 0 = Some (Some (4 * / 2)).
Proof. do 2 eexists. split; reflexivity. Qed.
(** changing the rate between calls: created with rate 1/2, changed to 1/4 before the call *)
Example ex_rate_change : exists o m, history ex_addr ex_P ex_N (/ 2) (grad_descent (/ 2)) (ex_m 1 2 4 6) [mk_call 1%nat (/ 4) (fun _ => 6)] (/ 4) o m /\
  elem m (ex_P 1) 0 = Some (Some (2 - / 4 * 6)).
Proof.
  set (m0 := ex_m 1 2 4 6). set (o0 := grad_descent (/ 2)). set (o1 := set_learning_rate o0 (/ 4)).
  assert (H1 : history ex_addr ex_P ex_N (/ 2) o0 m0 [] (/ 4) o1 m0) by (eapply h_learning_rate, h_start).
  assert (E : exists o m, opt_update ex_addr o1 (ex_P 1, 1%Z) (Ptr 3 0, 1%Z) m0 = Ok (o, m)) by (do 2 eexists; reflexivity).
  destruct E as (o & m & E). exists o, m.
  assert (H2 : history ex_addr ex_P ex_N (/ 2) o0 m0 [mk_call 1%nat (/ 4) (fun _ => 6)] (/ 4) o m).
  { eapply (h_update ex_addr ex_P ex_N (/ 2) o0 m0 [] (/ 4) o1 m0 1%nat (Ptr 3 0)); [exact H1|apply (ex_grad 3); auto| |exact E].
    apply (ex_sep (/ 4) o1 3); [|auto]. left. reflexivity. }
  split; [exact H2|].
  rewrite (C43_grad_descent_rule ex_addr ex_P ex_N (ex_w 1 2) _ ex_distinct (ex_holds 1 2 4 6) _ _ _ _ _ 1%nat H2 0%Z ltac:(cbn; lia)).
  reflexivity.
Qed.
(** with the default coefficients the condition of the Adam refutations holds *)
Example ex_adam_defaults : 0 < 0.9 < 1 /\ 0 < 0.999 < 1 /\ 1 + 0.999 < (1 + 0.9) ^ 2.
Proof. lra. Qed.
End Examples.

Print Assumptions C49_update_safe_and_local.
Print Assumptions C50_gradient_unchanged_partial.
Print Assumptions C48_adam_rule_partial.
Print Assumptions C49_adam_tensors_interfere_refuted.

(** ** C84 *)
(** The state tables are keyed by address and never cleaned: when a tensor is destroyed and another one
    with more elements is later created at the same address, the next update runs out of the old state
    buffer (shown for Momentum, for any sizes and contents). *)
Section Reuse.
Context {T : Type} `{NT : Num T}.
Lemma skel_elem_none (m m' : mem T) b n : skel m' = skel m -> nth_error (skel m) b = Some (Some n) -> elem m' (Ptr b 0) (Z.of_nat n) = None.
Proof.
  intros E H. rewrite <- E in H. unfold skel in H. rewrite nth_error_map in H. destruct (nth_error m' b) as [[l|]|] eqn:El; try discriminate.
  injection H as H. cbn. unfold cell. rewrite El. unfold znth. destruct (_ <=? _)%Z; [|reflexivity].
  apply nth_error_None. lia.
Qed.
Lemma get_fresh (key n : Z) (m : mem T) (rt : range * table) m' : opt_get table_new key n m = Ok (rt, m') ->
  fst rt = (Ptr (length m) 0, n) /\ snd rt key = (Ptr (length m) 0, n) /\ skel m' = skel m ++ [Some (Z.to_nat n)].
Proof.
  unfold opt_get. cbn [table_new fst]. intros H. apply bind_inv in H as (p & m1 & H1 & H).
  unfold alloc in H1. injection H1 as <- <-. apply bind_inv in H as ([] & m2 & H2 & H). injection H as <- <-.
  split; [reflexivity|]. split; [cbn; now rewrite Z.eqb_refl|]. rewrite (still_assign_val _ _ _ _ _ _ _ H2).
  unfold skel. rewrite map_app. cbn. now rewrite repeat_length.
Qed.
Theorem C84_state_survives_tensor_refuted (addr : ptr -> Z) (lr mu : T) p0 n0 g0 (m : mem T) o m1 m2 p1 n1 g1 :
  opt_update addr (momentum_opt lr mu) (p0, n0) (g0, n0) m = Ok (o, m1) ->
  (0 <= n0 < n1)%Z -> addr p1 = addr p0 ->
  (forall b, (length m <= b < length m1)%nat -> nth_error m2 b = nth_error m1 b) ->
  forall r, opt_update addr o (p1, n1) (g1, n1) m2 <> Ok r.
Proof.
  intros H Hn Ea Hkeep [ro rm] Hr.
  unfold opt_update in H. cbn [o_kind momentum_opt opt_new o_buff o_m fst snd] in H.
  apply bind_inv in H as ([bf tb] & ma & Hb & H). apply get_fresh in Hb as (E1 & E2 & E3). cbn [fst snd] in E1, E2. subst bf.
  apply bind_inv in H as ([v tm] & mb & Hb & H). apply get_fresh in Hb as (F1 & F2 & F3). cbn [fst snd] in F1, F2. subst v.
  apply bind_inv in H as ([] & mc & H1 & H). apply bind_inv in H as ([] & md & H2 & H). apply bind_inv in H as ([] & me & H3 & H).
  apply bind_inv in H as ([] & mf & H4 & H). injection H as <- <-.
  assert (Em : length ma = S (length m)).
  { assert (E : length (skel ma) = length ma) by (unfold skel; apply map_length). rewrite E3, app_length in E. unfold skel in E. rewrite map_length in E. cbn in E. lia. }
  assert (Sk : skel mf = (skel m ++ [Some (Z.to_nat n0)]) ++ [Some (Z.to_nat n0)]).
  { rewrite (still_assign_src _ _ _ _ _ _ _ H4), (still_assign_src _ _ _ _ _ _ _ H3), (still_assign_val_src _ _ _ _ _ _ _ _ H2), (still_assign_val _ _ _ _ _ _ _ H1), F3, E3. reflexivity. }
  assert (Lf : length mf = S (S (length m))).
  { assert (E : length (skel mf) = length mf) by (unfold skel; apply map_length). rewrite Sk, !app_length in E. unfold skel in E. rewrite map_length in E. cbn in E. lia. }
  assert (Hb2 : nth_error (skel m2) (length ma) = Some (Some (Z.to_nat n0))).
  { unfold skel. rewrite nth_error_map, Hkeep by lia. rewrite <- nth_error_map. change (map (option_map (length (A:=option T))) mf) with (skel mf).
    rewrite Sk, nth_error_app2; rewrite app_length; unfold skel; rewrite map_length; cbn [length]; [|lia]. replace (length ma - (length m + 1))%nat with 0%nat by lia. reflexivity. }
  unfold opt_update in Hr. cbn [o_kind o_buff o_m fst snd] in Hr. rewrite Ea in Hr. unfold opt_get in Hr. rewrite E2, F2 in Hr. cbn [fst] in Hr.
  apply bind_inv in Hr as ([bf' tb'] & n0' & Q0 & Hr). injection Q0 as <- <- <-.
  apply bind_inv in Hr as ([v' tm'] & n0' & Q0 & Hr). injection Q0 as <- <- <-.
  apply bind_inv in Hr as ([] & na & Q1 & Hr). apply bind_inv in Hr as ([] & nb & Q2 & Hr). apply bind_inv in Hr as ([] & nc & Q3 & Hr).
  apply bind_inv in Hr as ([] & nd & Q4 & Hr). unfold r_op in Q4. cbn [fst snd] in Q4. unfold assign_src in Q4.
  apply (mfor_inv 0 n1 _ nc nd n0) in Q4 as (x1 & x2 & X1 & X2); [| |lia].
  - apply bind_inv in X2 as (y & x3 & X3 & _). apply load_inv in X3 as [_ X3].
    assert (Sn : skel x1 = skel m2).
    { rewrite X1, (still_assign_src _ _ _ _ _ _ _ Q3), (still_assign_val_src _ _ _ _ _ _ _ _ Q2), (still_assign_val _ _ _ _ _ _ _ Q1). reflexivity. }
    pose proof (skel_elem_none m2 x1 _ _ Sn Hb2) as X4. rewrite Z2Nat.id in X4 by lia. congruence.
  - intros i. apply still_bind; [apply still_load|]. intros. apply still_op_assign.
Qed.
(** What does hold: at an address that has never been updated, whatever other tensors have been updated
    before, an update does to memory exactly what a new optimizer with the same settings does - it starts
    from zero state.  (For Adam also the step powers, which all tensors share, must still be one: C49.) *)
Definition same_effect {A B} (r : res (A * mem T)) (r' : res (B * mem T)) : Prop :=
  match r, r' with Ok (_, m1), Ok (_, m1') => m1 = m1' | UB k, UB k' => k = k' | _, _ => False end.
Lemma same_bind {A B C} (c : M T A) (k : A -> M T B) (k' : A -> M T C) (m : mem T) :
  (forall a m1, same_effect (k a m1) (k' a m1)) -> same_effect (bind c k m) (bind c k' m).
Proof. intros H. unfold bind. destruct (c m) as [[a m1]|e]; [apply H|exact eq_refl]. Qed.
Lemma bind_get_null {B} (t : table) (key n : Z) (k : range * table -> M T B) (m : mem T) : fst (t key) = Null ->
  bind (opt_get t key n) k m = bind (let* p := alloc n in assign_val p n OpCpy zero ;;; ret p) (fun p => k ((p, n), fun x => if x =? key then (p, n) else t x)%Z) m.
Proof.
  intros H. unfold opt_get. rewrite H. unfold bind, ret.
  destruct (alloc n m) as [[p m1]|e]; [|reflexivity]. destruct (assign_val p n OpCpy zero m1) as [[[] m2]|e]; reflexivity.
Qed.
Theorem C84_unused_address_partial (addr : ptr -> Z) (o : opt T) (param grad : range) (m : mem T) :
  fst (o_buff o (addr (fst param))) = Null -> fst (o_m o (addr (fst param))) = Null -> fst (o_s o (addr (fst param))) = Null ->
  (match o_kind o with Adam _ _ _ _ => o_t1 o = one /\ o_t2 o = one | _ => True end) ->
  same_effect (opt_update addr o param grad m) (opt_update addr (opt_new (o_kind o) (o_lr o)) param grad m).
Proof.
  intros H1 H2 H3 H4. unfold opt_update. cbn [opt_new o_kind o_lr o_buff o_m o_s o_t1 o_t2].
  destruct (o_kind o); try (destruct H4 as [-> ->]);
    repeat (rewrite !bind_get_null by (assumption || reflexivity); apply same_bind; intros ? ?; cbv beta iota);
    repeat (apply same_bind; intros ? ?); exact eq_refl.
Qed.
End Reuse.
(** the situation: a one-element tensor at block 0 is updated, destroyed, and a two-element tensor
    (block 4 of the model) is created at the same machine address *)
Example ex_reuse : let addr := fun p => match p with Ptr 4 _ => 1 | Ptr b _ => Z.of_nat b + 1 | Null => 0 end%Z in
  exists o m1, opt_update (T := Q) addr (momentum_opt (1#2) (9#10)) (Ptr 0 0, 1%Z) (Ptr 1 0, 1%Z) [Some [Some (1#1)]; Some [Some (4#1); Some (4#1)]] = Ok (o, m1) /\
  opt_update addr o (Ptr 4 0, 2%Z) (Ptr 1 0, 2%Z) (set_nth 0 None m1 ++ [Some [Some (1#1); Some (2#1)]]) = UB OutOfBounds.
Proof. cbv zeta. do 2 eexists. split; vm_compute; reflexivity. Qed.
Print Assumptions C84_state_survives_tensor_refuted.
Print Assumptions C84_unused_address_partial.

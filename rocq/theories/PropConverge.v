(** * Properties C118-C121: what the optimizers guarantee when they minimise a function (exact arithmetic) *)
From Coq Require Import Reals Lra Permutation.
From Verif Require Import Mem Scalar MemSpec MemLemmas Optimizer OptimizerSpec RealSpec RSum ConvexSpec Convex PropOptimizers.
Local Open Scope R_scope.

Lemma gd_snoc w l a g : gd_rule w (l ++ [(a, g)]) = gd_rule w l - a * g.
Proof. revert w. induction l as [|[a' g'] l IH]; intros w; cbn [app gd_rule]; [reflexivity|apply IH]. Qed.
Lemma sgd_snoc al w l a g : sgd_rule al w (l ++ [(a, g)]) = al * sgd_rule al w l - a * g.
Proof. revert w. induction l as [|[a' g'] l IH]; intros w; cbn [app sgd_rule]; [reflexivity|apply IH]. Qed.
Definition vel (mu : R) (v : R) (l : list (R * R)) : R := fold_left (fun v c => mu * v - fst c * snd c) l v.
Lemma vel_snoc mu v l a g : vel mu v (l ++ [(a, g)]) = mu * vel mu v l - a * g.
Proof. unfold vel. now rewrite fold_left_app. Qed.
Lemma momentum_snoc mu w v l a g : momentum_rule mu w v (l ++ [(a, g)]) = momentum_rule mu w v l + (mu * vel mu v l - a * g).
Proof. revert w v. induction l as [|[a' g'] l IH]; intros w v; cbn [app momentum_rule]; cbv zeta; [reflexivity|]. rewrite IH. reflexivity. Qed.
Lemma nestorov_snoc mu w v l a g : nestorov_rule mu w v (l ++ [(a, g)]) = nestorov_rule mu w v l - a * g + mu * (mu * vel mu v l - a * g).
Proof. revert w v. induction l as [|[a' g'] l IH]; intros w v; cbn [app nestorov_rule]; cbv zeta; [reflexivity|]. rewrite IH. reflexivity. Qed.
Definition squares (s : R) (l : list (R * R)) : R := fold_left (fun s c => s + snd c ^ 2) l s.
Lemma squares_snoc s l a g : squares s (l ++ [(a, g)]) = squares s l + g ^ 2.
Proof. unfold squares. now rewrite fold_left_app. Qed.
Lemma adagrad_snoc w s l a g : adagrad_rule w s (l ++ [(a, g)]) = adagrad_rule w s l - a * g / sqrt (eps9 + (squares s l + g ^ 2)).
Proof. revert w s. induction l as [|[a' g'] l IH]; intros w s; cbn [app adagrad_rule]; cbv zeta; [reflexivity|]. rewrite IH. reflexivity. Qed.

(** The program: any number of tensors, [w] their values at the beginning; the tensors in [ks] are
    trained. *)
Section Converge.
Context {Nm : Type} `{NI : Names Nm} (addr : ptr -> Z) (P : Nm -> ptr) (N : Nm -> Z) (ks : list Nm) (w : Nm -> Z -> R) (m0 : mem R).
Context (Ht : distinct_tensors addr P N) (Hw : forall k, holds m0 (P k) (N k) (w k)) (ND : NoDup ks).
Context (F : @point Nm -> R) (G : @point Nm -> @point Nm).
Notation dot := (dot ks N).
Notation norm2 := (norm2 ks N).
Notation agree := (agree ks N).
(** [x]: the values the tensors have at the end. *)
Definition ends_at (m : mem R) (x : @point Nm) : Prop := forall k, In k ks -> holds m (P k) (N k) (x k).

Lemma ends_agree m x y : ends_at m x -> (forall k, In k ks -> holds m (P k) (N k) (y k)) -> agree x y.
Proof. intros A B k j I Hj. pose proof (A k I j Hj) as A'. pose proof (B k I j Hj) as B'. congruence. Qed.

(** ** C118: gradient descent *)
Lemma gd_path lr0 rs lr o m x : rounds addr P N ks lr0 (grad_descent lr0) m0 rs lr o m -> ends_at m x ->
  path N ks gd_rule w rs /\ agree x (fun k j => gd_rule (w k j) (inputs rs k j)).
Proof.
  intros H E. destruct (rounds_path addr P N ks ND gd_rule w lr0 (grad_descent lr0) m0) with (rs := rs) (lr := lr) (o := o) (m := m) as [Pa En]; auto.
  - intros. eapply C43_grad_descent_rule; eauto.
  - split; [exact Pa|]. eapply ends_agree; eauto.
Qed.
Definition good_rates (L : R) (rs : list (round Nm)) : Prop := Forall (fun r => 0 <= r_rate r /\ r_rate r * L <= 1) rs.

(** the next point of a gradient-descent path *)
Lemma gd_next rs r rs2 x : path N ks gd_rule w (rs ++ r :: rs2) -> agree x (fun k j => gd_rule (w k j) (inputs (rs ++ [r]) k j)) ->
  agree x (fun k j => r_at r k j - r_rate r * r_grad r k j).
Proof.
  intros Pa E. eapply agree_trans; [exact E|]. intros k j I Hj. rewrite inputs_snoc, gd_snoc. now rewrite (Pa rs r rs2 eq_refl k j I Hj).
Qed.

Theorem C118_decreases L lr0 rs lr o m x : smooth ks N L F G -> rounds addr P N ks lr0 (grad_descent lr0) m0 rs lr o m ->
  follows ks N G rs -> good_rates L rs -> ends_at m x ->
  forall rs1 r rs2, rs = rs1 ++ r :: rs2 -> F x + over (r :: rs2) (fun r => r_rate r / 2 * norm2 (r_grad r)) <= F (r_at r).
Proof.
  intros S H Fo Ra En. destruct (gd_path _ _ _ _ _ _ H En) as [Pa Ex]. clear H En m o lr.
  intros rs1 r rs2 E. revert r rs2 x Ex E. 
  assert (Q : forall rs2 rs1 r x, path N ks gd_rule w (rs1 ++ r :: rs2) -> follows ks N G (rs1 ++ r :: rs2) -> good_rates L (rs1 ++ r :: rs2) ->
    agree x (fun k j => gd_rule (w k j) (inputs (rs1 ++ r :: rs2) k j)) -> F x + over (r :: rs2) (fun r => r_rate r / 2 * norm2 (r_grad r)) <= F (r_at r)).
  { clear -S. induction rs2 as [|q rs2 IH]; intros rs1 r x Pa Fo Ra Ex.
    - assert (Fr := Forall_elt _ _ _ Fo). assert (Rr := Forall_elt _ _ _ Ra). cbv beta in Fr, Rr. destruct Rr as [R0 R1]. rewrite over_one. apply (step_down ks N F G L) with (x := r_at r) (g := r_grad r); auto.
      eapply gd_next; eauto.
    - pose proof (IH (rs1 ++ [r]) q x) as Q. rewrite <- app_assoc in Q. specialize (Q Pa Fo Ra Ex).
      assert (Fr := Forall_elt _ _ _ Fo). assert (Rr := Forall_elt _ _ _ Ra). cbv beta in Fr, Rr. destruct Rr as [R0 R1].
      assert (D : F (r_at q) + r_rate r / 2 * norm2 (r_grad r) <= F (r_at r)).
      { apply (step_down ks N F G L) with (x := r_at r) (g := r_grad r); auto. apply (gd_next rs1 r (q :: rs2)); [exact Pa|].
        apply (Pa (rs1 ++ [r]) q rs2). now rewrite <- app_assoc. }
      change (over (r :: q :: rs2) ?f) with (f r + over (q :: rs2) f). lra. }
  intros r rs2 x Ex ->. eapply Q; eauto.
Qed.
(** ... so if [F] is bounded below, some round saw a small gradient. *)
Theorem C118_gradient_vanishes L lr0 rs lr o m B : smooth ks N L F G -> (forall y, B <= F y) -> rounds addr P N ks lr0 (grad_descent lr0) m0 rs lr o m ->
  follows ks N G rs -> good_rates L rs -> rs <> [] ->
  exists r, In r rs /\ norm2 (r_grad r) * over rs (@r_rate Nm) <= 2 * (F w - B).
Proof.
  intros S Bd H Fo Ra Ne.
  destruct (rounds_path addr P N ks ND gd_rule w lr0 (grad_descent lr0) m0) with (rs := rs) (lr := lr) (o := o) (m := m) as [Pa En]; auto.
  { intros. eapply C43_grad_descent_rule; eauto. }
  destruct rs as [|r0 rs]; [contradiction|].
  pose proof (C118_decreases L lr0 _ lr o m _ S H Fo Ra En [] r0 rs eq_refl) as D.
  assert (E0 : F (r_at r0) = F w) by (eapply smooth_ext; [exact S|]; apply (Pa [] r0 rs eq_refl)).
  apply over_some; [exact Ne| |].
  - eapply Forall_impl; [|exact Ra]. cbv beta. tauto.
  - rewrite E0 in D. specialize (Bd (fun k j => gd_rule (w k j) (inputs (r0 :: rs) k j))).
    rewrite (over_ext _ _ (fun r => / 2 * (r_rate r * norm2 (r_grad r)))) in D by (intros; field). rewrite over_scal in D. lra.
Qed.
(** Convex functions: the gap to any other point decays like 1/(number of rounds). *)
Theorem C118_convex L lr0 rs lr o m x z : smooth ks N L F G -> convex ks N F G -> rounds addr P N ks lr0 (grad_descent lr0) m0 rs lr o m ->
  follows ks N G rs -> good_rates L rs -> ends_at m x ->
  2 * over rs (@r_rate Nm) * (F x - F z) <= norm2 (minus w z).
Proof.
  intros S C H Fo Ra En. destruct (gd_path _ _ _ _ _ _ H En) as [Pa Ex]. clear H En m o lr.
  enough (Q : 2 * over rs (@r_rate Nm) * (F x - F z) + norm2 (minus x z) <= norm2 (minus w z)) by (pose proof (norm2_nonneg ks N (minus x z)); lra).
  revert x Ex. induction rs as [|r rs IH] using rev_ind; intros x Ex.
  - unfold over. cbn [fold_right]. rewrite Rmult_0_r, Rmult_0_l. right. rewrite Rplus_0_l. apply dot_agree; intros k j I Hj; unfold minus; rewrite (Ex k j I Hj); reflexivity.
  - unfold follows, good_rates in *. apply Forall_app in Fo as [Fo Fr]. apply Forall_app in Ra as [Ra Rr]. apply Forall_inv in Fr. apply Forall_inv in Rr. destruct Rr as [R0 R1].
    pose proof (proj1 (path_snoc N ks gd_rule w rs r) Pa) as [Pa' Er]. specialize (IH Fo Ra Pa' (r_at r) Er).
    assert (St : agree x (fun k j => r_at r k j - r_rate r * r_grad r k j)) by (eapply (gd_next rs r []); eauto).
    pose proof (step_down ks N F G L _ _ _ _ S R0 R1 Fr St) as D. pose proof (step_dist ks N _ _ _ _ z St) as Di.
    pose proof (convex_at ks N F G _ _ _ (C (r_at r) z) Fr) as Cv.
    rewrite over_app, over_one.
    assert (A0 : 0 <= over rs (@r_rate Nm)). { apply over_nonneg. eapply Forall_impl; [|exact Ra]. cbv beta. tauto. }
    rewrite Di. pose proof (norm2_nonneg ks N (r_grad r)) as Ng.
    set (nn := norm2 (r_grad r)) in *. set (d := dot (r_grad r) (minus (r_at r) z)) in *. set (a := r_rate r) in *. set (A := over rs (@r_rate Nm)) in *. set (q := norm2 (minus (r_at r) z)) in *.
    clearbody nn d a A q. clear -IH D Cv R0 A0 Ng.
    assert (M1 : A * (F x) <= A * F (r_at r)) by (apply Rmult_le_compat_l; [exact A0|]; assert (0 <= a / 2 * nn) by (apply Rmult_le_pos; lra); lra).
    assert (M2 : a * (F x + a / 2 * nn) <= a * F (r_at r)) by (apply Rmult_le_compat_l; lra).
    assert (M3 : a * (F (r_at r) - F z) <= a * d) by (apply Rmult_le_compat_l; lra).
    lra.
Qed.
Lemma strong_path c L rs x z : smooth ks N L F G -> strongly_convex ks N c F G -> 0 <= c <= L -> minimum F z ->
  path N ks gd_rule w rs -> follows ks N G rs -> good_rates L rs -> agree x (fun k j => gd_rule (w k j) (inputs rs k j)) ->
  norm2 (minus x z) <= product_over rs (fun r => 1 - c * r_rate r) * norm2 (minus w z).
Proof.
  intros S C Hc Mz Pa Fo Ra Ex.
  revert x Ex. induction rs as [|r rs IH] using rev_ind; intros x Ex.
  - unfold product_over. cbn [fold_right]. rewrite Rmult_1_l. right. apply dot_agree; intros k j I Hj; unfold minus; rewrite (Ex k j I Hj); reflexivity.
  - unfold follows, good_rates in *. apply Forall_app in Fo as [Fo Fr]. apply Forall_app in Ra as [Ra Rr]. apply Forall_inv in Fr. apply Forall_inv in Rr. destruct Rr as [R0 R1].
    pose proof (proj1 (path_snoc N ks gd_rule w rs r) Pa) as [Pa' Er]. specialize (IH Pa' Fo Ra (r_at r) Er).
    assert (St : agree x (fun k j => r_at r k j - r_rate r * r_grad r k j)) by (eapply (gd_next rs r []); eauto).
    pose proof (step_down ks N F G L _ _ _ _ S R0 R1 Fr St) as D. pose proof (step_dist ks N _ _ _ _ z St) as Di.
    pose proof (strong_at ks N F G c _ _ _ (C (r_at r) z) Fr) as Cv. pose proof (Mz x) as Mx.
    rewrite product_app. unfold product_over at 2. cbn [fold_right]. rewrite Rmult_1_r.
    rewrite Di. pose proof (norm2_nonneg ks N (r_grad r)) as Ng.
    set (nn := norm2 (r_grad r)) in *. set (d := dot (r_grad r) (minus (r_at r) z)) in *. set (a := r_rate r) in *. set (A := product_over rs (fun r => 1 - c * r_rate r)) in *. set (q := norm2 (minus (r_at r) z)) in *.
    set (p := norm2 (minus w z)) in *. clearbody nn d a A q p. clear -IH D Cv R0 R1 Ng Mx Hc.
    assert (M2 : a * (F x + a / 2 * nn) <= a * F (r_at r)) by (apply Rmult_le_compat_l; lra).
    assert (M3 : a * (F (r_at r) - F z + c / 2 * q) <= a * d) by (apply Rmult_le_compat_l; lra).
    assert (M4 : a * F z <= a * F x) by (apply Rmult_le_compat_l; lra).
    assert (M5 : 0 <= 1 - c * a). { assert (c * a <= L * a) by (apply Rmult_le_compat_r; lra). lra. }
    assert (M6 : (1 - c * a) * q <= (1 - c * a) * (A * p)) by (apply Rmult_le_compat_l; lra). lra.
Qed.
(** Strongly convex functions: the distance to the minimum shrinks by a factor in every round. *)
Theorem C118_strongly_convex c L lr0 rs lr o m x z : smooth ks N L F G -> strongly_convex ks N c F G -> 0 <= c <= L -> minimum F z ->
  rounds addr P N ks lr0 (grad_descent lr0) m0 rs lr o m -> follows ks N G rs -> good_rates L rs -> ends_at m x ->
  norm2 (minus x z) <= product_over rs (fun r => 1 - c * r_rate r) * norm2 (minus w z).
Proof. intros S C Hc Mz H Fo Ra En. destruct (gd_path _ _ _ _ _ _ H En) as [Pa Ex]. eapply strong_path; eauto. Qed.
(** Online learning: every round may have its own convex function [f r], of which it uses a subgradient. *)
Theorem C118_online lr0 rs lr o m (f : round Nm -> @point Nm -> R) z : rounds addr P N ks lr0 (grad_descent lr0) m0 rs lr o m ->
  Forall (fun r => 0 <= r_rate r /\ subgradient ks N (f r) (r_at r) (r_grad r)) rs ->
  over rs (fun r => r_rate r * (f r (r_at r) - f r z)) <= norm2 (minus w z) / 2 + over rs (fun r => r_rate r ^ 2 / 2 * norm2 (r_grad r)).
Proof.
  clear F G.
  intros H Su.
  destruct (rounds_path addr P N ks ND gd_rule w lr0 (grad_descent lr0) m0) with (rs := rs) (lr := lr) (o := o) (m := m) as [Pa En]; auto.
  { intros. eapply C43_grad_descent_rule; eauto. } clear H En m o lr.
  set (X := fun rs => (fun k j => gd_rule (w k j) (inputs rs k j)) : @point Nm).
  enough (Q : over rs (fun r => r_rate r * (f r (r_at r) - f r z)) + norm2 (minus (X rs) z) / 2 <= norm2 (minus w z) / 2 + over rs (fun r => r_rate r ^ 2 / 2 * norm2 (r_grad r)))
    by (pose proof (norm2_nonneg ks N (minus (X rs) z)); lra).
  induction rs as [|r rs IH] using rev_ind.
  - unfold over. cbn [fold_right]. right. rewrite Rplus_0_r, Rplus_0_l. reflexivity.
  - apply Forall_app in Su as [Su Sr]. apply Forall_inv in Sr. destruct Sr as [R0 Sr].
    pose proof (proj1 (path_snoc N ks gd_rule w rs r) Pa) as [Pa' Er]. specialize (IH Su Pa').
    rewrite !over_app, !over_one.
    assert (St : agree (X (rs ++ [r])) (fun k j => r_at r k j - r_rate r * r_grad r k j)) by (eapply (gd_next rs r []); [exact Pa|apply agree_refl]).
    pose proof (step_dist ks N _ _ _ _ z St) as Di. rewrite Di.
    assert (E0 : norm2 (minus (r_at r) z) = norm2 (minus (X rs) z)) by (apply dot_agree; intros k j I Hj; unfold minus; rewrite (Er k j I Hj); reflexivity). rewrite E0.
    specialize (Sr z). rewrite dot_minus in Sr. rewrite dot_minus.
    assert (M : r_rate r * (f r (r_at r) - f r z) <= r_rate r * (dot (r_grad r) (r_at r) - dot (r_grad r) z)) by (apply Rmult_le_compat_l; lra). lra.
Qed.
(** ** C119: momentum *)
Theorem C119_momentum mu a L lr0 rs lr o m z : 0 <= mu < 1 -> 0 < a -> 0 < L -> a * L <= 1 - mu ->
  smooth ks N L F G -> convex ks N F G -> minimum F z ->
  rounds addr P N ks lr0 (momentum_opt lr0 mu) m0 rs lr o m -> follows ks N G rs -> Forall (fun r => r_rate r = a) rs ->
  over rs (fun r => F (r_at r) - F z) <= (1 - mu) / (2 * a) * norm2 (minus w z) + mu / (1 - mu) * (F w - F z).
Proof.
  intros Hm A0 L0 AL S C Mz H Fo Ra. set (ru := fun x l => momentum_rule mu x 0 l).
  destruct (rounds_path addr P N ks ND ru w lr0 (momentum_opt lr0 mu) m0) with (rs := rs) (lr := lr) (o := o) (m := m) as [Pa _]; auto.
  { intros. eapply C44_momentum_rule; eauto. } clear H m o lr.
  set (X := fun rs => (fun k j => ru (w k j) (inputs rs k j)) : @point Nm).
  set (V := fun rs => (fun k j => vel mu 0 (inputs rs k j)) : @point Nm).
  set (e := mu / (1 - mu)). set (b := a / (1 - mu)).
  assert (Ee : e * (1 - mu) = mu) by (unfold e; field; lra). assert (Eb : b * (1 - mu) = a) by (unfold b; field; lra).
  assert (B0 : 0 < b) by (unfold b; apply Rdiv_lt_0_compat; lra).
  assert (e0 : 0 <= e) by (unfold e; apply Rmult_le_pos; [lra|]; left; apply Rinv_0_lt_compat; lra).
  assert (BL : b * L <= 1). { apply Rmult_le_reg_r with (1 - mu); [lra|]. replace (b * L * (1 - mu)) with (b * (1 - mu) * L) by ring. rewrite Eb. lra. }
  enough (Q : 2 * b * (over rs (fun r => F (r_at r) - F z) + e * (F (minus (X rs) (V rs)) - F w)) + norm2 (minus (fun k j => X rs k j + e * V rs k j) z) <= norm2 (minus w z)).
  { pose proof (norm2_nonneg ks N (minus (fun k j => X rs k j + e * V rs k j) z)). pose proof (Mz (minus (X rs) (V rs))) as Mp.
    assert (e * F z <= e * F (minus (X rs) (V rs))) by (apply Rmult_le_compat_l; lra).
    assert (Q2 : 2 * b * (over rs (fun r => F (r_at r) - F z) + e * (F z - F w)) <= norm2 (minus w z)).
    { apply Rle_trans with (2 * b * (over rs (fun r => F (r_at r) - F z) + e * (F (minus (X rs) (V rs)) - F w))); [apply Rmult_le_compat_l; lra|lra]. }
    assert (Q3 : over rs (fun r => F (r_at r) - F z) + e * (F z - F w) <= norm2 (minus w z) / (2 * b)).
    { apply Rmult_le_reg_l with (2 * b); [lra|]. replace (2 * b * (norm2 (minus w z) / (2 * b))) with (norm2 (minus w z)) by (field; lra). exact Q2. }
    replace ((1 - mu) / (2 * a)) with (/ (2 * b)) by (unfold b; field; lra). unfold Rdiv in Q3. lra. }
  induction rs as [|r rs IH] using rev_ind.
  - unfold over. cbn [fold_right].
    assert (E0 : norm2 (minus (fun k j => X [] k j + e * V [] k j) z) = norm2 (minus w z)) by (apply dot_agree; intros k j I Hj; unfold minus, X, V, ru, vel; cbn [inputs map momentum_rule fold_left]; ring).
    assert (E1 : F (minus (X []) (V [])) = F w) by (eapply smooth_ext; [exact S|]; intros k j I Hj; unfold minus, X, V, ru, vel; cbn [inputs map momentum_rule fold_left]; ring).
    rewrite E0, E1. lra.
  - unfold follows in *. apply Forall_app in Fo as [Fo Fr]. apply Forall_app in Ra as [Ra Rr]. apply Forall_inv in Fr. apply Forall_inv in Rr.
    pose proof (proj1 (path_snoc N ks ru w rs r) Pa) as [Pa' Er]. specialize (IH Fo Ra Pa'). rewrite over_app, over_one.
    set (g := r_grad r) in *. set (x := r_at r) in *.
    assert (Ep : F (minus (X (rs ++ [r])) (V (rs ++ [r]))) = F x).
    { eapply smooth_ext; [exact S|]. intros k j I Hj. rewrite (Er k j I Hj). unfold minus, X, V, ru. rewrite inputs_snoc, momentum_snoc, vel_snoc. ring. }
    assert (En : norm2 (minus (fun k j => X (rs ++ [r]) k j + e * V (rs ++ [r]) k j) z) =
      norm2 (minus (fun k j => X rs k j + e * V rs k j) z) - 2 * b * (dot g (minus x z) + e * dot g (V rs)) + b ^ 2 * norm2 g).
    { rewrite (step_dist ks N b (fun k j => X rs k j + e * V rs k j) _ g z).
      - f_equal. f_equal. f_equal. unfold ConvexSpec.dot. rewrite <- tot_scal, <- tot_plus. apply tot_ext. intros k j I Hj. unfold minus. rewrite (Er k j I Hj). unfold X. ring.
      - intros k j I Hj. unfold X, V, ru. rewrite inputs_snoc, momentum_snoc, vel_snoc, Rr. fold g. set (v := vel mu 0 (inputs rs k j)).
        unfold e, b. field. lra. }
    pose proof (gap_gradient ks N F G L x z g L0 S C Mz Fr) as Gg.
    assert (Cp : F x - dot g (V rs) <= F (minus (X rs) (V rs))).
    { pose proof (C x (minus (X rs) (V rs))) as Cx.
      replace (dot (G x) (minus (minus (X rs) (V rs)) x)) with (- dot g (V rs)) in Cx; [lra|].
      replace (- dot g (V rs)) with ((-1) * dot g (V rs)) by ring. unfold ConvexSpec.dot. rewrite <- tot_scal. apply tot_ext. intros k j I Hj. rewrite <- (Fr k j I Hj). unfold minus. rewrite (Er k j I Hj). unfold X. ring. }
    rewrite Ep, En. pose proof (norm2_nonneg ks N g) as Ng.
    set (nn := norm2 g) in *. set (d := dot g (minus x z)) in *. set (dv := dot g (V rs)) in *.
    set (q := norm2 (minus (fun k j => X rs k j + e * V rs k j) z)) in *. set (fp := F (minus (X rs) (V rs))) in *. set (O := over rs (fun r => F (r_at r) - F z)) in *.
    clearbody nn d dv q fp O e b. clear -IH Gg Cp Ng B0 e0 BL L0.
    assert (M1 : b * (F x - F z + nn / (2 * L)) <= b * d) by (apply Rmult_le_compat_l; lra).
    assert (M2 : b * (e * (F x - dv)) <= b * (e * fp)) by (apply Rmult_le_compat_l; [lra|]; apply Rmult_le_compat_l; lra).
    assert (M3 : b ^ 2 * nn <= 2 * b * (nn / (2 * L))).
    { replace (2 * b * (nn / (2 * L))) with (b * nn * / L) by (field; lra). replace (b ^ 2 * nn) with (b * nn * b) by ring.
      apply Rmult_le_compat_l; [apply Rmult_le_pos; lra|]. apply Rmult_le_reg_r with L; [lra|]. rewrite Rinv_l by lra. lra. }
    lra.
Qed.
Lemma over_length (rs : list (round Nm)) : over rs (fun _ => 1) = INR (length rs).
Proof. unfold over. induction rs as [|r rs IH]; [reflexivity|]. cbn [fold_right length]. rewrite S_INR, IH. ring. Qed.
(** ... so the best of the visited points approaches the minimum. *)
Theorem C119_best_point mu a L lr0 rs lr o m z : 0 <= mu < 1 -> 0 < a -> 0 < L -> a * L <= 1 - mu ->
  smooth ks N L F G -> convex ks N F G -> minimum F z ->
  rounds addr P N ks lr0 (momentum_opt lr0 mu) m0 rs lr o m -> follows ks N G rs -> Forall (fun r => r_rate r = a) rs -> rs <> [] ->
  exists r, In r rs /\ F (r_at r) - F z <= ((1 - mu) / (2 * a) * norm2 (minus w z) + mu / (1 - mu) * (F w - F z)) / INR (length rs).
Proof.
  intros Hm A0 L0 AL S C Mz H Fo Ra Ne. pose proof (C119_momentum mu a L lr0 rs lr o m z Hm A0 L0 AL S C Mz H Fo Ra) as Q.
  rewrite (over_ext _ _ (fun r => 1 * (F (r_at r) - F z))) in Q by (intros; ring).
  destruct (over_some rs (fun r => F (r_at r) - F z) (fun _ => 1) _ Ne ltac:(apply Forall_forall; intros; lra) Q) as (r & I & B).
  exists r. split; [exact I|]. rewrite over_length in B. assert (L1 : 0 < INR (length rs)) by (apply lt_0_INR; destruct rs; [contradiction|cbn; lia]).
  apply Rmult_le_reg_r with (INR (length rs)); [exact L1|].
  match goal with |- _ <= ?c / ?n * ?n => replace (c / n * n) with c by (field; lra) end. exact B.
Qed.

(** ** C120: Nesterov's accelerated descent *)
Theorem C120_accelerated c L lr0 rs lr o m x z : 0 < c <= L -> smooth ks N L F G -> strongly_convex ks N c F G -> minimum F z ->
  let q := sqrt (c / L) in
  rounds addr P N ks lr0 (nestorov_opt lr0 ((1 - q) / (1 + q))) m0 rs lr o m -> follows ks N G rs -> Forall (fun r => r_rate r = / L) rs -> ends_at m x ->
  c / 2 * norm2 (minus x z) <= (1 - q) ^ length rs * (F w - F z + c / 2 * norm2 (minus w z)).
Proof.
  intros [C0 CL] S C Mz q H Fo Ra Ex. set (mu := (1 - q) / (1 + q)) in *. set (ru := fun x l => nestorov_rule mu x 0 l).
  destruct (rounds_path addr P N ks ND ru w lr0 (nestorov_opt lr0 mu) m0) with (rs := rs) (lr := lr) (o := o) (m := m) as [Pa En]; auto.
  { intros. eapply C45_nestorov_rule; eauto. }
  pose proof (ends_agree m x _ Ex En) as Ax. clear H Ex En m o lr.
  set (Y := fun rs => (fun k j => ru (w k j) (inputs rs k j)) : @point Nm).
  set (V := fun rs => (fun k j => vel mu 0 (inputs rs k j)) : @point Nm).
  assert (Q0 : 0 < q) by (apply sqrt_lt_R0, Rdiv_lt_0_compat; lra).
  assert (Q2 : q * q = c / L) by (apply sqrt_sqrt; left; apply Rdiv_lt_0_compat; lra).
  assert (Q1 : q <= 1). { rewrite <- sqrt_1. apply sqrt_le_1_alt. apply Rmult_le_reg_r with L; [lra|]. unfold Rdiv. rewrite Rmult_assoc, Rinv_l by lra. lra. }
  assert (Ec : c = q * q * L) by (rewrite Q2; field; lra).
  assert (Em : mu * (1 + q) = 1 - q) by (unfold mu; field; lra).
  set (s := fun rs => (fun k j => Y rs k j - mu * V rs k j) : @point Nm).
  set (Z := fun rs => (fun k j => Y rs k j + mu / q * V rs k j) : @point Nm).
  assert (Pot : F (s rs) - F z + c / 2 * norm2 (minus (Z rs) z) <= (1 - q) ^ length rs * (F w - F z + c / 2 * norm2 (minus w z))).
  { clear Ax. induction rs as [|r rs IH] using rev_ind.
    - cbn [length pow]. rewrite Rmult_1_l. right. f_equal; [f_equal|f_equal].
      + eapply smooth_ext; [exact S|]. intros k j I Hj. unfold s, Y, V, ru, vel. cbn [inputs map nestorov_rule fold_left]. ring.
      + apply dot_agree; intros k j I Hj; unfold minus, Z, Y, V, ru, vel; cbn [inputs map nestorov_rule fold_left]; ring.
    - unfold follows in *. apply Forall_app in Fo as [Fo Fr]. apply Forall_app in Ra as [Ra Rr]. apply Forall_inv in Fr. apply Forall_inv in Rr.
      pose proof (proj1 (path_snoc N ks ru w rs r) Pa) as [Pa' Er]. specialize (IH Fo Ra Pa').
      set (g := r_grad r) in *. set (y := r_at r) in *. set (a := / L) in *.
      assert (AL : a * L = 1) by (unfold a; field; lra). assert (A0 : 0 < a) by (unfold a; apply Rinv_0_lt_compat; lra).
      assert (St : agree (s (rs ++ [r])) (fun k j => y k j - a * g k j)).
      { intros k j I Hj. rewrite (Er k j I Hj). unfold s, Y, V, ru. rewrite inputs_snoc, nestorov_snoc, vel_snoc, Rr. fold g. ring. }
      pose proof (step_down ks N F G L a y (s (rs ++ [r])) g S ltac:(lra) ltac:(lra) Fr St) as D.
      set (U := (fun k j => y k j + (1 - q) * (mu / q) * V rs k j) : @point Nm).
      assert (Ez : agree (Z (rs ++ [r])) (fun k j => U k j - a / q * g k j)).
      { intros k j I Hj. unfold U. rewrite (Er k j I Hj). unfold Z, Y, V, ru. rewrite inputs_snoc, nestorov_snoc, vel_snoc, Rr. fold g.
        set (v := vel mu 0 (inputs rs k j)). set (yy := nestorov_rule mu (w k j) 0 (inputs rs k j)). set (gg := g k j).
        unfold mu. field. lra. }
      pose proof (step_dist ks N (a / q) U (Z (rs ++ [r])) g z Ez) as Dz.
      assert (Du : norm2 (minus U z) <= (1 - q) * norm2 (minus (Z rs) z) + q * norm2 (minus y z)).
      { unfold ConvexSpec.norm2, ConvexSpec.dot. rewrite <- !tot_scal, <- tot_plus. apply tot_le. intros k j I Hj. unfold minus, U, Z. rewrite (Er k j I Hj). fold (Y rs k j).
        set (A := Y rs k j + mu / q * V rs k j - z k j). set (B := Y rs k j - z k j).
        replace (Y rs k j + (1 - q) * (mu / q) * V rs k j - z k j) with ((1 - q) * A + q * B) by (unfold A, B; ring).
        assert (0 <= q * (1 - q) * (A - B) ^ 2) by (apply Rmult_le_pos; [apply Rmult_le_pos; lra|apply pow2_ge_0]).
        replace ((1 - q) * (A * A) + q * (B * B)) with (((1 - q) * A + q * B) * ((1 - q) * A + q * B) + q * (1 - q) * (A - B) ^ 2) by ring. lra. }
      assert (Dg : q * dot g (minus U z) = q * dot g (minus y z) + (1 - q) * (mu * dot g (V rs))).
      { unfold ConvexSpec.dot. rewrite <- !tot_scal, <- tot_plus. apply tot_ext. intros k j I Hj. unfold minus, U. field. lra. }
      assert (Cs : F y - mu * dot g (V rs) <= F (s rs)).
      { pose proof (C y (s rs)) as Cx. pose proof (norm2_nonneg ks N (minus (s rs) y)) as Np.
        replace (dot (G y) (minus (s rs) y)) with (- mu * dot g (V rs)) in Cx.
        - assert (0 <= c / 2 * norm2 (minus (s rs) y)) by (apply Rmult_le_pos; lra). lra.
        - unfold ConvexSpec.dot. rewrite <- tot_scal. apply tot_ext. intros k j I Hj. rewrite <- (Fr k j I Hj). unfold minus, s. rewrite (Er k j I Hj). unfold Y. ring. }
      pose proof (strong_at ks N F G c y z g (C y z) Fr) as Cz.
      rewrite app_length, Nat.add_comm. cbn [length Nat.add pow]. rewrite Rmult_assoc.
      eapply Rle_trans; [|apply Rmult_le_compat_l; [lra|exact IH]]. rewrite Dz. pose proof (norm2_nonneg ks N g) as Ng.
      set (F1 := F (s (rs ++ [r]))) in *. set (F0 := F (s rs)) in *. set (Fy := F y) in *. set (Fz := F z) in *.
      set (nn := norm2 g) in *. set (du := dot g (minus U z)) in *. set (dy := dot g (minus y z)) in *. set (dv := dot g (V rs)) in *.
      set (nu := norm2 (minus U z)) in *. set (nz := norm2 (minus (Z rs) z)) in *. set (ny := norm2 (minus y z)) in *.
      clearbody F1 F0 Fy Fz nn du dy dv nu nz ny. clear -D Du Dg Cs Cz Ec AL A0 Q0 Q1 C0 Em.
      assert (K1 : c / 2 * (2 * (a / q) * du) = q * du). { rewrite Ec. replace (q * q * L / 2 * (2 * (a / q) * du)) with (q * du * (a * L)) by (field; lra). rewrite AL. ring. }
      assert (K2 : c / 2 * ((a / q) ^ 2 * nn) = a / 2 * nn). { rewrite Ec. replace (q * q * L / 2 * ((a / q) ^ 2 * nn)) with (a / 2 * nn * (a * L)) by (field; lra). rewrite AL. ring. }
      assert (K3 : c / 2 * nu <= c / 2 * ((1 - q) * nz + q * ny)) by (apply Rmult_le_compat_l; lra).
      assert (K4 : q * (Fy - Fz + c / 2 * ny) <= q * dy) by (apply Rmult_le_compat_l; lra).
      assert (K5 : (1 - q) * (Fy - mu * dv) <= (1 - q) * F0) by (apply Rmult_le_compat_l; lra).
      replace (c / 2 * (nu - 2 * (a / q) * du + (a / q) ^ 2 * nn)) with (c / 2 * nu - c / 2 * (2 * (a / q) * du) + c / 2 * ((a / q) ^ 2 * nn)) by ring.
      rewrite K1, K2, Dg. lra. }
  eapply Rle_trans; [|exact Pot].
  assert (Es : F z + c / 2 * norm2 (minus (s rs) z) <= F (s rs)).
  { pose proof (C z (s rs)) as Cs. replace (dot (G z) (minus (s rs) z)) with 0 in Cs; [lra|]. symmetry. rewrite <- (tot_0 ks N). apply tot_ext. intros k j I Hj.
    rewrite (minimum_flat ks N F G L z ltac:(lra) S Mz k j I Hj). ring. }
  assert (Cx : norm2 (minus x z) <= / (1 + q) * norm2 (minus (s rs) z) + q / (1 + q) * norm2 (minus (Z rs) z)).
  { unfold ConvexSpec.norm2, ConvexSpec.dot. rewrite <- !tot_scal, <- tot_plus. apply tot_le. intros k j I Hj. unfold minus, s, Z. rewrite (Ax k j I Hj). fold (Y rs k j).
    set (A := Y rs k j - mu * V rs k j - z k j). set (B := Y rs k j + mu / q * V rs k j - z k j).
    replace (Y rs k j - z k j) with ((A + q * B) / (1 + q)) by (unfold A, B; field; lra).
    assert (0 <= q * (A - B) ^ 2 / (1 + q) ^ 2). { apply Rmult_le_pos; [apply Rmult_le_pos; [lra|apply pow2_ge_0]|]. left. apply Rinv_0_lt_compat. apply pow_lt. lra. }
    replace (/ (1 + q) * (A * A) + q / (1 + q) * (B * B)) with ((A + q * B) / (1 + q) * ((A + q * B) / (1 + q)) + q * (A - B) ^ 2 / (1 + q) ^ 2) by (field; lra). lra. }
  pose proof (norm2_nonneg ks N (minus (s rs) z)) as N1. pose proof (norm2_nonneg ks N (minus (Z rs) z)) as N2.
  assert (I1 : / (1 + q) <= 1) by (rewrite <- Rinv_1; apply Rinv_le_contravar; lra). assert (I2 : q / (1 + q) <= 1) by (apply Rmult_le_reg_r with (1 + q); [lra|]; unfold Rdiv; rewrite Rmult_assoc, Rinv_l by lra; lra).
  assert (norm2 (minus x z) <= norm2 (minus (s rs) z) + norm2 (minus (Z rs) z)).
  { assert (/ (1 + q) * norm2 (minus (s rs) z) <= 1 * norm2 (minus (s rs) z)) by (apply Rmult_le_compat_r; lra).
    assert (q / (1 + q) * norm2 (minus (Z rs) z) <= 1 * norm2 (minus (Z rs) z)) by (apply Rmult_le_compat_r; lra). lra. }
  assert (c / 2 * norm2 (minus x z) <= c / 2 * (norm2 (minus (s rs) z) + norm2 (minus (Z rs) z))) by (apply Rmult_le_compat_l; lra). lra.
Qed.

(** ** C121: AdaGrad's regret *)
Lemma adagrad_regret a D z : 0 < a -> forall l (w0 : R), Forall (fun c => fst c = a) l ->
  (forall l1 c l2, l = l1 ++ c :: l2 -> Rabs (adagrad_rule w0 0 l1 - z) <= D) -> Rabs (w0 - z) <= D ->
  fold_right (fun n s => match nth_error l n with Some c => snd c * (adagrad_rule w0 0 (firstn n l) - z) | None => 0 end + s) 0 (seq 0 (length l)) <=
    (D ^ 2 / (2 * a) + a) * sqrt (eps9 + squares 0 l) - sqrt (eps9 + squares 0 l) / (2 * a) * (adagrad_rule w0 0 l - z) ^ 2.
Proof.
  intros A0 l w0 Ra B B0.
  assert (Sq : forall l s, 0 <= s -> s <= squares s l). { clear. induction l as [|[a g] l IH]; intros s Hs; [unfold squares; cbn; lra|]. cbn [squares fold_left snd]. change (s <= squares (s + g ^ 2) l). pose proof (pow2_ge_0 g). specialize (IH (s + g ^ 2) ltac:(lra)). lra. }
  assert (I2a : 0 < / (2 * a)) by (apply Rinv_0_lt_compat; lra).
  assert (P2 : forall u, Rabs u <= D -> u ^ 2 <= D ^ 2). { intros u Hu. rewrite <- (pow2_abs u). apply pow_incr. split; [apply Rabs_pos|exact Hu]. }
  induction l as [|[a' g] l IH] using rev_ind.
  - cbn [length seq fold_right squares fold_left adagrad_rule]. specialize (P2 _ B0). pose proof (sqrt_pos (eps9 + squares 0 [])). unfold squares in *. cbn [fold_left] in *.
    set (d := sqrt (eps9 + 0)) in *. clearbody d. assert (0 <= d * (/ (2 * a) * (D ^ 2 - (w0 - z) ^ 2))) by (apply Rmult_le_pos; [lra|]; apply Rmult_le_pos; lra).
    assert (0 <= a * d) by (apply Rmult_le_pos; lra). unfold Rdiv. lra.
  - apply Forall_app in Ra as [Ra Rr]. apply Forall_inv in Rr. cbn [fst] in Rr. subst a'.
    assert (B' : forall l1 c l2, l = l1 ++ c :: l2 -> Rabs (adagrad_rule w0 0 l1 - z) <= D) by (intros l1 c l2 ->; apply (B l1 c (l2 ++ [(a, g)])); now rewrite <- app_assoc).
    specialize (IH Ra B'). pose proof (B l (a, g) [] eq_refl) as Bl.
    rewrite app_length. cbn [length]. rewrite seq_app, fold_right_app. cbn [seq fold_right Nat.add].
    rewrite nth_error_app2, Nat.sub_diag by lia. cbn [nth_error snd]. rewrite firstn_app, firstn_all, Nat.sub_diag. cbn [firstn]. rewrite app_nil_r, Rplus_0_r.
    set (f := fun (n : nat) (s : R) => _ + s) in IH. 
    match goal with |- fold_right ?h ?b ?sq <= _ => assert (Fr : fold_right h b sq = fold_right f 0 sq + b) end.
    { assert (Hs : forall n, In n (seq 0 (length l)) -> (n < length l)%nat) by (intros n Hn; apply in_seq in Hn; lia).
      set (bb := g * (adagrad_rule w0 0 l - z)). clearbody bb. revert Hs. generalize (seq 0 (length l)). induction l0 as [|n sq IHs]; intros Hs; cbn [fold_right]; [ring|].
      rewrite IHs by (intros; apply Hs; now right). set (T := fold_right f 0 sq). unfold f. clearbody T. pose proof (Hs n (or_introl eq_refl)) as Hn. rewrite nth_error_app1, firstn_app by exact Hn.
      replace (n - length l)%nat with 0%nat by lia. cbn [firstn]. rewrite app_nil_r. ring. }
    rewrite Fr. clear Fr. rewrite squares_snoc, adagrad_snoc.
    set (x := adagrad_rule w0 0 l) in *. set (S0 := squares 0 l) in *. assert (S0p : 0 <= S0) by (apply Sq; lra). clearbody S0 x.
    pose proof eps9_pos as E9. pose proof (pow2_ge_0 g) as G2.
    set (d := sqrt (eps9 + S0)) in *. set (d' := sqrt (eps9 + (S0 + g ^ 2))).
    assert (dp : 0 < d) by (apply sqrt_lt_R0; lra). assert (dp' : 0 < d') by (apply sqrt_lt_R0; lra).
    assert (dd : d <= d') by (apply sqrt_le_1_alt; lra).
    assert (gg : g ^ 2 = d' * d' - d * d) by (unfold d, d'; rewrite !sqrt_sqrt by lra; ring).
    specialize (P2 _ Bl). clearbody d d'. set (T := fold_right f 0 (seq 0 (length l))) in *. clearbody T.
    (* g (x - z) = d'/(2a) ((x-z)^2 - (x'-z)^2) + a g^2/(2 d') *)
    assert (Id : g * (x - z) = d' / (2 * a) * ((x - z) ^ 2 - (x - a * g / d' - z) ^ 2) + a * (g ^ 2 / (2 * d'))) by (field; lra).
    assert (Gd : g ^ 2 / (2 * d') <= d' - d).
    { apply Rmult_le_reg_r with (2 * d'); [lra|]. unfold Rdiv. rewrite Rmult_assoc, Rinv_l by lra. rewrite gg. nra. }
    assert (M1 : a * (g ^ 2 / (2 * d')) <= a * (d' - d)) by (apply Rmult_le_compat_l; lra).
    assert (M2 : 0 <= (d' - d) * (/ (2 * a) * (D ^ 2 - (x - z) ^ 2))) by (apply Rmult_le_pos; [lra|]; apply Rmult_le_pos; lra).
    rewrite Id. unfold Rdiv in *. lra.
Qed.
Theorem C121_adagrad_regret a D lr0 rs lr o m (f : round Nm -> @point Nm -> R) z : 0 < a ->
  rounds addr P N ks lr0 (ada_grad lr0) m0 rs lr o m ->
  Forall (fun r => r_rate r = a /\ subgradient ks N (f r) (r_at r) (r_grad r) /\ forall k j, In k ks -> (0 <= j < N k)%Z -> Rabs (r_at r k j - z k j) <= D) rs ->
  over rs (fun r => f r (r_at r) - f r z) <= (D ^ 2 / (2 * a) + a) * total ks N (fun k j => sqrt (eps9 + over rs (fun r => r_grad r k j ^ 2))).
Proof.
  clear F G.
  intros A0 H Su. set (ru := fun x l => adagrad_rule x 0 l).
  destruct (rounds_path addr P N ks ND ru w lr0 (ada_grad lr0) m0) with (rs := rs) (lr := lr) (o := o) (m := m) as [Pa _]; auto.
  { intros. eapply C46_adagrad_rule; eauto. } clear H m o lr.
  eapply Rle_trans with (over rs (fun r => dot (r_grad r) (minus (r_at r) z))).
  { apply over_le. intros r I. rewrite Forall_forall in Su. destruct (Su r I) as (_ & Sr & _). specialize (Sr z). rewrite dot_minus in *. lra. }
  unfold ConvexSpec.dot. rewrite over_total, <- tot_scal. apply tot_le. intros k j I Hj.
  assert (Sqs : forall l s, squares s (map (fun r : round Nm => (r_rate r, r_grad r k j)) l) = s + over l (fun r => r_grad r k j ^ 2)).
  { induction l as [|r l IH]; intros s; unfold squares, over in *; cbn [map fold_left fold_right snd]; [ring|]. rewrite IH. ring. }
  destruct rs as [|r0 rs'] eqn:Er.
  { unfold over. cbn [fold_right]. apply Rmult_le_pos; [|apply sqrt_pos]. assert (0 < / (2 * a)) by (apply Rinv_0_lt_compat; lra). assert (0 <= D ^ 2 / (2 * a)) by (apply Rmult_le_pos; [apply pow2_ge_0|lra]). lra. }
  rewrite <- Er in *. set (l := inputs rs k j).
  assert (Ql := adagrad_regret a D (z k j) A0 l (w k j)).
  assert (H1 : Forall (fun c => fst c = a) l). { unfold l, inputs. rewrite Forall_map. eapply Forall_impl; [|exact Su]. cbv beta. cbn [fst]. tauto. }
  assert (H2 : forall l1 c l2, l = l1 ++ c :: l2 -> Rabs (adagrad_rule (w k j) 0 l1 - z k j) <= D).
  { intros l1 c l2 E. unfold l, inputs in E. apply map_eq_app in E as (rs1 & rs2 & E0 & E1 & E2). apply map_eq_cons in E2 as (r & rs3 & E3 & _). subst rs2.
    rewrite <- E1. fold (inputs rs1 k j). change (adagrad_rule (w k j) 0 (inputs rs1 k j)) with (ru (w k j) (inputs rs1 k j)). rewrite <- (Pa rs1 r rs3 E0 k j I Hj).
    rewrite Forall_forall in Su. apply (Su r); auto. rewrite E0. apply in_elt. }
  specialize (Ql H1 H2).
  assert (H3 : Rabs (w k j - z k j) <= D). { destruct l as [|c l2] eqn:El; [unfold l in El; rewrite Er in El; discriminate|]. apply (H2 [] c l2 eq_refl). }
  specialize (Ql H3).
  assert (Es : fold_right (fun n s => match nth_error l n with Some c => snd c * (adagrad_rule (w k j) 0 (firstn n l) - z k j) | None => 0 end + s) 0 (seq 0 (length l)) =
    over rs (fun r => r_grad r k j * minus (r_at r) z k j)).
  { clear Ql H1 H2 H3. assert (Gen : forall rs2 rs1, rs = rs1 ++ rs2 ->
      fold_right (fun n s => match nth_error l n with Some c => snd c * (adagrad_rule (w k j) 0 (firstn n l) - z k j) | None => 0 end + s) 0 (seq (length rs1) (length rs2)) =
      over rs2 (fun r => r_grad r k j * minus (r_at r) z k j)).
    { induction rs2 as [|r rs2 IH]; intros rs1 E; [reflexivity|]. cbn [length seq fold_right]. unfold over. cbn [fold_right].
      fold (over rs2 (fun r => r_grad r k j * minus (r_at r) z k j)). rewrite <- (IH (rs1 ++ [r])) by (now rewrite <- app_assoc).
      rewrite app_length, Nat.add_comm. cbn [length Nat.add]. f_equal.
      unfold l. rewrite E. unfold inputs. rewrite map_app. cbn [map]. rewrite nth_error_app2 by (rewrite map_length; lia). rewrite map_length, Nat.sub_diag. cbn [nth_error snd].
      rewrite firstn_app, map_length, Nat.sub_diag, firstn_all2 by (rewrite map_length; lia). cbn [firstn]. rewrite app_nil_r. unfold minus. rewrite (Pa rs1 r rs2 E k j I Hj). reflexivity. }
    specialize (Gen rs [] eq_refl). cbn [length] in Gen. unfold l at 3. unfold inputs at 1. rewrite map_length. exact Gen. }
  rewrite Es in Ql. unfold l in Ql at 1 2. unfold inputs in Ql at 1 2. rewrite !Sqs, Rplus_0_l in Ql.
  assert (0 <= sqrt (eps9 + over rs (fun r => r_grad r k j ^ 2)) / (2 * a) * (adagrad_rule (w k j) 0 l - z k j) ^ 2).
  { apply Rmult_le_pos; [apply Rmult_le_pos; [apply sqrt_pos|left; apply Rinv_0_lt_compat; lra]|apply pow2_ge_0]. }
  lra.
Qed.
End Converge.

(** ** Weight decay: StoGradDescent minimises [F] plus decay/2 times the sum of the squares of the parameters *)
Section Decay.
Context {Nm : Type} `{NI : Names Nm} (addr : ptr -> Z) (P : Nm -> ptr) (N : Nm -> Z) (ks : list Nm) (w : Nm -> Z -> R) (m0 : mem R).
Context (Ht : distinct_tensors addr P N) (Hw : forall k, holds m0 (P k) (N k) (w k)) (ND : NoDup ks).
Context (F : @point Nm -> R) (G : @point Nm -> @point Nm).
Definition ridge (d : R) (x : @point Nm) : R := F x + d / 2 * norm2 ks N x.
Definition ridge_grad (d : R) (x : @point Nm) : @point Nm := fun k j => G x k j + d * x k j.
Lemma ridge_dot d x y : dot ks N (ridge_grad d x) (minus y x) = dot ks N (G x) (minus y x) + d * dot ks N x (minus y x).
Proof. unfold dot. rewrite <- tot_scal, <- tot_plus. apply tot_ext. intros. unfold ridge_grad. ring. Qed.
Lemma ridge_smooth d L : 0 <= d -> smooth ks N L F G -> smooth ks N (L + d) (ridge d) (ridge_grad d).
Proof.
  intros D0 S x y. specialize (S x y). rewrite ridge_dot. unfold ridge.
  replace (F y + d / 2 * norm2 ks N y - (F x + d / 2 * norm2 ks N x) - (dot ks N (G x) (minus y x) + d * dot ks N x (minus y x)))
    with (F y - F x - dot ks N (G x) (minus y x) + d / 2 * norm2 ks N (minus y x)).
  - eapply Rle_trans; [apply Rabs_triang|]. rewrite (Rabs_right (d / 2 * _)); [lra|]. apply Rle_ge, Rmult_le_pos; [lra|apply norm2_nonneg].
  - rewrite norm2_minus, !dot_minus, (dot_sym ks N y x). unfold norm2. lra.
Qed.
Lemma ridge_strong d : convex ks N F G -> strongly_convex ks N d (ridge d) (ridge_grad d).
Proof.
  intros C x y. specialize (C x y). rewrite ridge_dot. unfold ridge. rewrite norm2_minus, !dot_minus in *. rewrite (dot_sym ks N y x). unfold norm2. lra.
Qed.
Definition decayed (d : R) (r : round Nm) : round Nm := mk_round _ (r_rate r) (r_at r) (fun k j => r_grad r k j + d * r_at r k j).
Lemma decayed_path d a rs : Forall (fun r => r_rate r = a) rs -> path N ks (sgd_rule (1 - a * d)) w rs ->
  agree ks N (fun k j => sgd_rule (1 - a * d) (w k j) (inputs rs k j)) (fun k j => gd_rule (w k j) (inputs (map (decayed d) rs) k j)) /\ path N ks gd_rule w (map (decayed d) rs).
Proof.
  induction rs as [|r rs IH] using rev_ind; intros Ra Pa.
  - split; [intros k j _ _; reflexivity|]. intros [|q rs1] r rs2 E; discriminate.
  - apply Forall_app in Ra as [Ra Rr]. apply Forall_inv in Rr. apply path_snoc in Pa as [Pa Er]. destruct (IH Ra Pa) as [A B]. rewrite map_app. cbn [map]. split.
    + intros k j I Hj. rewrite !inputs_snoc, sgd_snoc, gd_snoc. cbn [decayed r_rate r_grad]. rewrite <- (A k j I Hj), (Er k j I Hj), Rr. ring.
    + apply path_snoc. split; [exact B|]. cbn [decayed r_at]. eapply agree_trans; [exact Er|exact A].
Qed.
Theorem C118_weight_decay d L lr0 rs lr o m x z : smooth ks N L F G -> convex ks N F G -> 0 <= L -> 0 <= d -> 0 <= lr0 -> lr0 * (L + d) <= 1 -> minimum (ridge d) z ->
  rounds addr P N ks lr0 (sto_grad_descent lr0 d) m0 rs lr o m -> follows ks N G rs -> Forall (fun r => r_rate r = lr0) rs -> ends_at P N ks m x ->
  norm2 ks N (minus x z) <= (1 - d * lr0) ^ length rs * norm2 ks N (minus w z).
Proof.
  intros S C L0 D0 A0 AL Mz H Fo Ra Ex.
  destruct (rounds_path addr P N ks ND (sgd_rule (1 - lr0 * d)) w lr0 (sto_grad_descent lr0 d) m0) with (rs := rs) (lr := lr) (o := o) (m := m) as [Pa En]; auto.
  { intros. eapply C43_sto_grad_descent_rule; eauto. }
  pose proof (ends_agree P N ks m x _ Ex En) as Ax. destruct (decayed_path d lr0 rs Ra Pa) as [A B].
  eapply Rle_trans; [eapply (strong_path N ks w (ridge d) (ridge_grad d) d (L + d) (map (decayed d) rs) x z)|].
  - now apply ridge_smooth. - now apply ridge_strong. - lra. - exact Mz. - exact B.
  - unfold follows in *. rewrite Forall_map. eapply Forall_impl; [|exact Fo]. cbv beta. intros r E k j I Hj. cbn [decayed r_grad r_at]. unfold ridge_grad. now rewrite (E k j I Hj).
  - unfold good_rates. rewrite Forall_map. eapply Forall_impl; [|exact Ra]. cbv beta. intros r E. cbn [decayed r_rate]. rewrite E. lra.
  - eapply agree_trans; [exact Ax|exact A].
  - right. f_equal. clear -Ra. unfold product_over. induction Ra as [|r rs E Ra IH]; [reflexivity|]. cbn [map fold_right length pow decayed r_rate]. rewrite IH, E. ring.
Qed.
End Decay.

Module Examples.
(** The two-tensor program of PropOptimizers runs any number of rounds: the gradients [G] at the current
    values are written to blocks 2 and 3, then both tensors are updated. *)
Definition ex_ks : list nat := [0%nat; 1%nat].
Lemma put_grads lr0 (o0 : opt R) m0 cs lr o m g0 g1 : history ex_addr ex_P ex_N lr0 o0 m0 cs lr o m ->
  room m (Ptr 2 0) 1 -> room m (Ptr 3 0) 1 -> separate_gradient ex_addr ex_P ex_N o (Ptr 2 0) 1 -> separate_gradient ex_addr ex_P ex_N o (Ptr 3 0) 1 ->
  let m' := mset (mset m (Ptr 2 0) 0 g0) (Ptr 3 0) 0 g1 in
  history ex_addr ex_P ex_N lr o m [] lr o m' /\ holds m' (Ptr 2 0) 1 (fun _ => g0) /\ holds m' (Ptr 3 0) 1 (fun _ => g1).
Proof.
  intros H R2 R3 S2 S3 m'.
  assert (O2 : only (inside (Ptr 2 0) 1) m (mset m (Ptr 2 0) 0 g0)) by (apply only_mset_in; lia).
  assert (O3 : only (inside (Ptr 3 0) 1) (mset m (Ptr 2 0) 0 g0) m') by (apply only_mset_in; lia).
  pose proof (only_trans' _ _ _ _ _ O2 O3) as O.
  split; [|split].
  - apply (h_other ex_addr ex_P ex_N lr o m [] lr o m m' (h_start _ _ _ _ _ _)).
    + intros k v Hv. eapply only_holds; [exact O| |exact Hv]. intros b i Hi [B|B]; [eapply (proj1 S2 k)|eapply (proj1 S3 k)]; eauto.
    + intros k q Hq Rq. split; [eapply only_room; eauto|]. intros v Hv. eapply only_holds; [exact O| |exact Hv]. intros b i Hi [B|B]; [eapply (proj2 S2 k q)|eapply (proj2 S3 k q)]; eauto.
  - intros i Hi. replace i with 0%Z by lia. unfold m'. rewrite elem_mset_other; [|left; discriminate|intros b o1 b' o' [= <- <-] [= <- <-]; discriminate]. apply elem_mset_same. apply R2. lia.
  - intros i Hi. replace i with 0%Z by lia. apply elem_mset_same. apply (only_room _ _ _ _ _ O2) in R3. apply R3. lia.
Qed.
Lemma ex_rounds (G : @point nat -> @point nat) lr0 (o0 : opt R) w0 w1 n : new_optimizer lr0 o0 -> exists rs o m,
  rounds ex_addr ex_P ex_N ex_ks lr0 o0 (ex_m w0 w1 0 0) rs lr0 o m /\ follows ex_ks ex_N G rs /\ Forall (fun r => r_rate r = lr0) rs /\ length rs = n.
Proof.
  intros Ho. pose proof (new_fresh _ _ Ho) as Hf. set (m0 := ex_m w0 w1 0 0).
  enough (Q : exists rs o m cs, rounds ex_addr ex_P ex_N ex_ks lr0 o0 m0 rs lr0 o m /\ follows ex_ks ex_N G rs /\ Forall (fun r => r_rate r = lr0) rs /\ length rs = n /\
    history ex_addr ex_P ex_N lr0 o0 m0 cs lr0 o m /\ room m (Ptr 2 0) 1 /\ room m (Ptr 3 0) 1 /\ separate_gradient ex_addr ex_P ex_N o (Ptr 2 0) 1 /\ separate_gradient ex_addr ex_P ex_N o (Ptr 3 0) 1 /\
    exists x, forall k, holds m (ex_P k) (ex_N k) (x k)) by (destruct Q as (rs & o & m & cs & A & B & C & D & _); eauto 10).
  induction n as [|n IH].
  - exists [], o0, m0, []. split; [constructor|]. split; [constructor|]. split; [constructor|]. split; [reflexivity|]. split; [constructor|].
    split; [eapply holds_room; apply (ex_grad 2); auto|]. split; [eapply holds_room; apply (ex_grad 3); auto|]. split; [apply (ex_sep lr0 o0 2); auto|]. split; [apply (ex_sep lr0 o0 3); auto|].
    eexists. apply ex_holds.
  - destruct IH as (rs & o & m & cs & A & B & C & D & H & R2 & R3 & S2 & S3 & x & Hx).
    destruct (put_grads lr0 o0 m0 cs lr0 o m (G x 0%nat 0%Z) (G x 1%nat 0%Z) H R2 R3 S2 S3) as (H1 & G2 & G3). set (m1 := mset _ _ _ _) in *.
    pose proof (history_trans ex_addr ex_P ex_N _ _ _ _ _ _ _ _ _ _ _ H H1) as H1'. rewrite app_nil_r in H1'.
    destruct (OptimizerHist.history_progress ex_addr ex_P ex_N lr0 o0 m0 (ex_w w0 w1) cs lr0 o m1 0%nat (Ptr 2 0) (fun _ => G x 0%nat 0%Z) ex_distinct Hf (ex_holds w0 w1 0 0) H1' G2 S2) as (o2 & m2 & E2 & Sa & Sb & F2 & Sep2).
    assert (R22 : room m2 (Ptr 2 0) 1). { assert (Dc : OptimizerProofs.scales_grad (o_kind o) \/ ~ OptimizerProofs.scales_grad (o_kind o)) by (destruct (o_kind o); cbn; tauto). destruct Dc as [Dc|Dc]; [eapply holds_room; exact (Sa Dc)|eapply holds_room; exact (Sb Dc)]. }
    assert (G32 : holds m2 (Ptr 3 0) 1 (fun _ => G x 1%nat 0%Z)).
    { apply F2; [exact G3| | |].
      - intros b i [-> _] [E _]. discriminate.
      - intros b i [-> _] [E _]. discriminate.
      - intros r Hr. apply (proj2 S3 0%nat r Hr). }
    assert (S22 : separate_gradient ex_addr ex_P ex_N o2 (Ptr 2 0) 1) by (apply Sep2; [eapply holds_room; exact G2|exact S2]).
    assert (S32 : separate_gradient ex_addr ex_P ex_N o2 (Ptr 3 0) 1) by (apply Sep2; [eapply holds_room; exact G3|exact S3]).
    assert (U2 : history ex_addr ex_P ex_N lr0 o m [mk_call 0%nat lr0 (fun _ => G x 0%nat 0%Z)] lr0 o2 m2) by (eapply (h_update ex_addr ex_P ex_N lr0 o m [] lr0 o m1 0%nat (Ptr 2 0)); [exact H1|exact G2|exact S2|exact E2]).
    pose proof (history_trans ex_addr ex_P ex_N _ _ _ _ _ _ _ _ _ _ _ H U2) as H2'.
    destruct (OptimizerHist.history_progress ex_addr ex_P ex_N lr0 o0 m0 (ex_w w0 w1) _ lr0 o2 m2 1%nat (Ptr 3 0) (fun _ => G x 1%nat 0%Z) ex_distinct Hf (ex_holds w0 w1 0 0) H2' G32 S32) as (o3 & m3 & E3 & Ta & Tb & F3 & Sep3).
    assert (U3 : history ex_addr ex_P ex_N lr0 o m [mk_call 0%nat lr0 (fun _ => G x 0%nat 0%Z); mk_call 1%nat lr0 (fun _ => G x 1%nat 0%Z)] lr0 o3 m3).
    { eapply (h_update ex_addr ex_P ex_N lr0 o m [mk_call 0%nat lr0 (fun _ => G x 0%nat 0%Z)] lr0 o2 m2 1%nat (Ptr 3 0)); [exact U2|exact G32|exact S32|exact E3]. }
    pose proof (history_trans ex_addr ex_P ex_N _ _ _ _ _ _ _ _ _ _ _ H U3) as H3'.
    exists (rs ++ [mk_round _ lr0 x (G x)]), o3, m3, (cs ++ [mk_call 0%nat lr0 (fun _ => G x 0%nat 0%Z); mk_call 1%nat lr0 (fun _ => G x 1%nat 0%Z)]).
    split; [|split; [|split; [|split; [|split; [exact H3'|split; [|split; [|split; [|split]]]]]]]].
    + eapply rounds_next; [exact A| |exact U3|apply Permutation_refl|].
      * intros k _. apply Hx.
      * repeat constructor; cbn [c_lr c_grad c_tensor r_rate r_grad]; intros j Hj; cbn in Hj; replace j with 0%Z by lia; reflexivity.
    + apply Forall_app. split; [exact B|]. constructor; [|constructor]. intros k j _ _. reflexivity.
    + apply Forall_app. split; [exact C|]. constructor; [reflexivity|constructor].
    + rewrite app_length. cbn [length]. lia.
    + assert (Dc : exists v, holds m2 (Ptr 2 0) 1 v). { assert (Dc : OptimizerProofs.scales_grad (o_kind o) \/ ~ OptimizerProofs.scales_grad (o_kind o)) by (destruct (o_kind o); cbn; tauto). destruct Dc as [Dc|Dc]; eexists; [exact (Sa Dc)|exact (Sb Dc)]. }
      destruct Dc as [v Dc]. eapply holds_room. apply F3; [exact Dc| | |].
      * intros b i [-> _] [E _]. discriminate.
      * intros b i [-> _] [E _]. discriminate.
      * intros r Hr. apply (proj2 S22 1%nat r Hr).
    + assert (Dc : OptimizerProofs.scales_grad (o_kind o2) \/ ~ OptimizerProofs.scales_grad (o_kind o2)) by (destruct (o_kind o2); cbn; tauto). destruct Dc as [Dc|Dc]; [eapply holds_room; exact (Ta Dc)|eapply holds_room; exact (Tb Dc)].
    + apply Sep3; [exact R22|exact S22].
    + apply Sep3; [eapply holds_room; exact G32|exact S32].
    + pose proof (OptimizerHist.history_inv ex_addr ex_P ex_N lr0 o0 m0 (ex_w w0 w1) _ _ _ _ ex_distinct Hf (ex_holds w0 w1 0 0) H3') as Hi.
      destruct (OptimizerHist.hrun _ _ _) as [[X t1] t2]. destruct Hi as ((Hi & _) & _). exists (fun k j => OptimizerProofs.e_w (X k j)). exact Hi.
Qed.
(** An objective on the two parameters: curvatures 2 and 1, minimum at (3, -1). *)
Definition ex_F (x : @point nat) : R := (x 0%nat 0%Z - 3) ^ 2 + / 2 * (x 1%nat 0%Z + 1) ^ 2.
Definition ex_G (x : @point nat) : @point nat := fun k j => match k with 0%nat => 2 * (x 0%nat 0%Z - 3) | _ => x 1%nat 0%Z + 1 end.
Definition ex_z : @point nat := fun k j => match k with 0%nat => 3 | _ => -1 end.
Lemma ex_total f : total ex_ks ex_N f = f 0%nat 0%Z + f 1%nat 0%Z.
Proof. unfold total, ex_ks. cbn [fold_right ex_N]. unfold rsum. rewrite !(zsum_single 1 0) by (intros; lia). ring. Qed.
Lemma ex_smooth : smooth ex_ks ex_N 2 ex_F ex_G.
Proof.
  intros x y. unfold norm2, dot. rewrite !ex_total. unfold ex_F, ex_G, minus. apply Rabs_le.
  assert (0 <= (y 0%nat 0%Z - x 0%nat 0%Z) ^ 2) by apply pow2_ge_0. assert (0 <= (y 1%nat 0%Z - x 1%nat 0%Z) ^ 2) by apply pow2_ge_0. split; lra.
Qed.
Lemma ex_strong : strongly_convex ex_ks ex_N 1 ex_F ex_G.
Proof.
  intros x y. unfold norm2, dot. rewrite !ex_total. unfold ex_F, ex_G, minus.
  assert (0 <= (y 0%nat 0%Z - x 0%nat 0%Z) ^ 2) by apply pow2_ge_0. lra.
Qed.
Lemma ex_convex : convex ex_ks ex_N ex_F ex_G.
Proof. intros x y. pose proof (ex_strong x y). pose proof (norm2_nonneg ex_ks ex_N (minus y x)). lra. Qed.
Lemma ex_minimum : minimum ex_F ex_z.
Proof. intros x. unfold ex_F, ex_z. pose proof (pow2_ge_0 (x 0%nat 0%Z - 3)). pose proof (pow2_ge_0 (x 1%nat 0%Z + 1)). lra. Qed.
Lemma ex_nodup : NoDup ex_ks. Proof. repeat constructor; cbn; intuition discriminate. Qed.
(** Gradient descent with rate 1/2 from (0, 0): after [n] rounds within 10/2^n. *)
Example C118_applies n : exists rs o m, rounds ex_addr ex_P ex_N ex_ks (/ 2) (grad_descent (/ 2)) (ex_m 0 0 0 0) rs (/ 2) o m /\ length rs = n /\
  forall x, ends_at ex_P ex_N ex_ks m x -> norm2 ex_ks ex_N (minus x ex_z) <= (/ 2) ^ n * 10 /\ INR n * (ex_F x - ex_F ex_z) <= 10.
Proof.
  destruct (ex_rounds ex_G (/ 2) (grad_descent (/ 2)) 0 0 n ltac:(now left)) as (rs & o & m & H & Fo & Ra & Ln). exists rs, o, m. split; [exact H|]. split; [exact Ln|]. intros x En.
  assert (Gr : good_rates 2 rs) by (eapply Forall_impl; [|exact Ra]; cbv beta; intros r ->; lra).
  assert (E0 : norm2 ex_ks ex_N (minus (ex_w 0 0) ex_z) = 10) by (unfold norm2, dot; rewrite ex_total; unfold minus, ex_w, ex_z; lra).
  pose proof (C118_strongly_convex ex_addr ex_P ex_N ex_ks (ex_w 0 0) _ ex_distinct (ex_holds 0 0 0 0) ex_nodup ex_F ex_G 1 2 _ rs _ _ _ x ex_z ex_smooth ex_strong ltac:(lra) ex_minimum H Fo Gr En) as Q.
  pose proof (C118_convex ex_addr ex_P ex_N ex_ks (ex_w 0 0) _ ex_distinct (ex_holds 0 0 0 0) ex_nodup ex_F ex_G 2 _ rs _ _ _ x ex_z ex_smooth ex_convex H Fo Gr En) as Q2.
  rewrite E0 in Q, Q2. rewrite <- Ln. clear -Q Q2 Ra. split.
  - eapply Rle_trans; [exact Q|]. right. f_equal. unfold product_over. induction Ra as [|r rs E Ra IH]; [reflexivity|]. cbn [fold_right length pow]. 
    rewrite E. replace (1 - 1 * / 2) with (/ 2) by lra. f_equal. clear -Ra. induction Ra as [|r rs E Ra IH]; [reflexivity|]. cbn [fold_right length pow]. rewrite E, IH. lra.
  - replace (INR (length rs)) with (2 * over rs (@r_rate nat)); [exact Q2|]. clear Q Q2. unfold over. induction Ra as [|r rs E Ra IH]; [cbn; ring|]. cbn [fold_right length]. rewrite S_INR, E, <- IH. lra.
Qed.
(** Momentum 1/2 with rate 1/4, Nesterov with the recommended constants, weight decay and AdaGrad: runs of any length. *)
Example C119_applies n : exists rs o m, rounds ex_addr ex_P ex_N ex_ks (/ 4) (momentum_opt (/ 4) (/ 2)) (ex_m 0 0 0 0) rs (/ 4) o m /\ length rs = S n /\
  exists r, In r rs /\ ex_F (r_at r) - ex_F ex_z <= 39 / 2 / INR (S n).
Proof.
  destruct (ex_rounds ex_G (/ 4) (momentum_opt (/ 4) (/ 2)) 0 0 (S n) ltac:(unfold new_optimizer; eauto 10)) as (rs & o & m & H & Fo & Ra & Ln). exists rs, o, m. split; [exact H|]. split; [exact Ln|].
  destruct (C119_best_point ex_addr ex_P ex_N ex_ks (ex_w 0 0) _ ex_distinct (ex_holds 0 0 0 0) ex_nodup ex_F ex_G (/ 2) (/ 4) 2 _ rs _ _ _ ex_z ltac:(lra) ltac:(lra) ltac:(lra) ltac:(lra) ex_smooth ex_convex ex_minimum H Fo Ra ltac:(intros ->; discriminate)) as (r & I & Q).
  exists r. split; [exact I|]. eapply Rle_trans; [exact Q|]. right. rewrite Ln. f_equal.
  unfold norm2, dot; rewrite ex_total; unfold minus, ex_w, ex_z, ex_F. lra.
Qed.
Example C120_applies n : let q := sqrt (1 / 2) in exists rs o m, rounds ex_addr ex_P ex_N ex_ks (/ 2) (nestorov_opt (/ 2) ((1 - q) / (1 + q))) (ex_m 0 0 0 0) rs (/ 2) o m /\ length rs = n /\
  forall x, ends_at ex_P ex_N ex_ks m x -> norm2 ex_ks ex_N (minus x ex_z) <= (1 - q) ^ n * 29.
Proof.
  intros q. destruct (ex_rounds ex_G (/ 2) (nestorov_opt (/ 2) ((1 - q) / (1 + q))) 0 0 n ltac:(unfold new_optimizer; eauto 10)) as (rs & o & m & H & Fo & Ra & Ln). exists rs, o, m. split; [exact H|]. split; [exact Ln|]. intros x En.
  pose proof (C120_accelerated ex_addr ex_P ex_N ex_ks (ex_w 0 0) _ ex_distinct (ex_holds 0 0 0 0) ex_nodup ex_F ex_G 1 2 _ rs _ _ _ x ex_z ltac:(lra) ex_smooth ex_strong ex_minimum H Fo Ra En) as Q.
  cbv zeta in Q. fold q in Q. rewrite Ln in Q.
  replace (ex_F (ex_w 0 0) - ex_F ex_z + 1 / 2 * norm2 ex_ks ex_N (minus (ex_w 0 0) ex_z)) with (29 / 2) in Q by (unfold norm2, dot; rewrite ex_total; unfold minus, ex_w, ex_z, ex_F; lra). lra.
Qed.
Example C121_applies n : exists rs o m, rounds ex_addr ex_P ex_N ex_ks (/ 2) (ada_grad (/ 2)) (ex_m 0 0 0 0) rs (/ 2) o m /\ length rs = n /\
  forall D, 0 <= D -> (forall r k j, In r rs -> In k ex_ks -> Rabs (r_at r k j - ex_z k j) <= D) ->
  over rs (fun r => ex_F (r_at r) - ex_F ex_z) <= (D ^ 2 / (2 * / 2) + / 2) * total ex_ks ex_N (fun k j => sqrt (eps9 + over rs (fun r => r_grad r k j ^ 2))).
Proof.
  destruct (ex_rounds ex_G (/ 2) (ada_grad (/ 2)) 0 0 n ltac:(unfold new_optimizer; eauto 10)) as (rs & o & m & H & Fo & Ra & Ln). exists rs, o, m. split; [exact H|]. split; [exact Ln|]. intros D D0 Bd.
  apply (C121_adagrad_regret ex_addr ex_P ex_N ex_ks (ex_w 0 0) _ ex_distinct (ex_holds 0 0 0 0) ex_nodup (/ 2) D _ rs _ _ _ (fun _ => ex_F) ex_z ltac:(lra) H).
  unfold follows in Fo. rewrite Forall_forall in *. intros r I. split; [auto|]. split; [|auto].
  intros y. pose proof (ex_convex (r_at r) y) as C. rewrite (dot_agree ex_ks ex_N _ _ _ _ (Fo r I) (agree_refl _ _ (minus y (r_at r)))). exact C.
Qed.
End Examples.

Print Assumptions C118_decreases.
Print Assumptions C118_gradient_vanishes.
Print Assumptions C118_convex.
Print Assumptions C118_strongly_convex.
Print Assumptions C118_online.
Print Assumptions C118_weight_decay.
Print Assumptions C119_momentum.
Print Assumptions C119_best_point.
Print Assumptions C120_accelerated.
Print Assumptions C121_adagrad_regret.

(** * The derivative of the loss along a curve of all parameters of a network (proofs for C90-C92) *)
From Coq Require Import QArith Reals Lra FunctionalExtensionality.
From Coquelicot Require Import Coquelicot.
From Verif Require Import Mem Scalar MemSpec MemLemmas Lique LiqueSpec LiqueProofs LiqueProofs2 Linear LinearProofs Functions FunctionSpec FunctionProofs
  Optimizer Layer LayerSpec FCProofs Cells ConvSpec ConvProofs ConvProofs2 PoolSpec PoolProofs RSum RealSpec ActivationProofs LossProofs NetSpec Vjp ConvVjp
  PropFunctions PropFC PropConv PropPool Net NetPlan NetProofs NetBack NetReal NetGrad.
Local Open Scope R_scope.

(** all contents replaced: [c i] in layer number [i] *)
Fixpoint with_all (ps : list plan) (c : nat -> contents R) : model :=
  match ps with [] => [] | p :: ps => (p, c O) :: with_all ps (fun i => c (S i)) end.
(** a curve of the parameters *)
Definition pcurve (c : R -> contents R) (t0 : R) (s s1 : contents R) : Prop :=
  (forall j, c t0 RB j = s RB j) /\ (forall f j, c t0 (RW f) j = s (RW f) j) /\
  (forall j, is_derive (fun t => c t RB j) t0 (s1 RB j)) /\ (forall f j, is_derive (fun t => c t (RW f) j) t0 (s1 (RW f) j)).
Definition par (s c : contents R) : contents R := fun r => match r with RB | RW _ => c r | _ => s r end.
Definition par0 (s1 : contents R) : contents R := fun r => match r with RB | RW _ => s1 r | _ => fun _ => 0 end.
Lemma pcurve_ccurve c t0 s s1 : pcurve c t0 s s1 -> ccurve (fun t => par s (c t)) t0 s (par0 s1).
Proof.
  intros (H1 & H2 & H3 & H4). split.
  - intros [] j; cbn; auto.
  - intros [] j; cbn; auto; apply (is_derive_const (K := R_AbsRing) (V := R_NormedModule)).
Qed.
Lemma real_layer_par p s c x : real_layer p (par s c) x = real_layer p c x. Proof. destruct p as [[a|] n k|g|a q]; reflexivity. Qed.
Lemma params_dot_par p s s2 s1 : params_dot p s s2 (par0 s1) = params_dot p s s2 s1. Proof. destruct p; reflexivity. Qed.
Fixpoint total_dot (l l2 : list (node R)) (s1 : nat -> contents R) : R :=
  match l, l2 with
  | d :: l, d2 :: l2 => params_dot (n_plan d) (n_data d) (n_data d2) (s1 O) + total_dot l l2 (fun i => s1 (S i))
  | _, _ => 0
  end.
Definition pcurves (l : list (node R)) (c : nat -> R -> contents R) (t0 : R) (s1 : nat -> contents R) : Prop :=
  forall i d, nth_error l i = Some d -> pcurve (c i) t0 (n_data d) (s1 i).
Section Total.
Context (lo : loss) (tv : Z -> R).
Lemma total_rule l : forall s0 x c cx t0 s1 x1, l <> [] -> Forall train_class (layers l) -> Forall (fun d => fits (n_layer d) (n_plan d)) l -> wired s0 (plans l) ->
  smooth (to_model l) x -> clean (to_model l) -> loss_fits lo (last_plan l) tv (real_net (to_model l) x) ->
  pcurves l c t0 s1 ->
  let n0 := match l with d :: _ => in_count (n_plan d) | [] => 0%Z end in
  (forall i, (0 <= i < n0)%Z -> cx t0 i = x i) -> (forall i, (0 <= i < n0)%Z -> is_derive (fun t => cx t i) t0 (x1 i)) ->
  exists e r, trained lo tv l x true = e :: r /\
    is_derive (fun t => net_loss lo (last_plan l) tv (real_net (with_all (plans l) (fun i => c i t)) (cx t))) t0
      (total_dot l (trained lo tv l x true) s1 + rsum n0 (fun i => n_data e RDelta i * x1 i)).
Proof.
  induction l as [|d l IH]; intros s0 x c cx t0 s1 x1 Ne Tr F W Sm Cl Lf Pc; [congruence|]. clear Ne. cbv zeta. intros Cx Dx.
  cbn [layers map] in Tr. apply Forall_cons_iff in Tr as [T1 T2]. apply Forall_cons_iff in F as [F1 F2].
  cbn [to_model map] in Sm, Cl. apply (smooth_cons _ _ (to_model l)) in Sm as (S1 & S2 & C2 & Lin); [|exact Cl].
  pose proof (node_out_real d x F1 S1) as No.
  assert (Cd : ccurve (fun t => par (n_data d) (c O t)) t0 (n_data d) (par0 (s1 O))) by (apply pcurve_ccurve, (Pc O d eq_refl)).
  destruct l as [|e l].
  - clear IH Lin. cbn [to_model map] in *. unfold last_plan in *. cbn [plans map last] in *.
    assert (Ern : real_net [(n_plan d, n_data d)] x = real_layer (n_plan d) (n_data d) x) by reflexivity. rewrite Ern in *.
    pose proof (loss_step lo tv d x F1 S1 Lf) as G. set (dl := loss_dval lo tv (real_layer (n_plan d) (n_data d) x)) in *.
    assert (Et : trained lo tv [d] x true = [bwd (fwd d x) x dl true]) by reflexivity.
    exists (bwd (fwd d x) x dl true), []. split; [exact Et|]. rewrite Et.
    destruct (layer_step d x dl _ cx t0 _ x1 T1 F1 S1 Cd Cx Dx) as (y1 & D0 & D1 & E1).
    cbn [total_dot bwd n_data]. evar_last.
    { apply (is_derive_ext (fun t => net_loss lo (n_plan d) tv (out_fun (n_plan d) (real_layer (lin (n_plan d)) (par (n_data d) (c O t)) (cx t))))).
      { intros t. rewrite <- real_layer_lin, real_layer_par. reflexivity. }
      apply (G (fun t => real_layer (lin (n_plan d)) (par (n_data d) (c O t)) (cx t)) t0 y1); [exact D0|exact D1]. }
    rewrite E1, params_dot_par. lra.
  - pose proof (count_match d e l s0 F1 ltac:(apply Forall_cons_iff in F2; tauto) W) as Cm.
    destruct W as [_ W]. specialize (Lin ltac:(discriminate)). set (y := real_layer (n_plan d) (n_data d) x) in *.
    assert (IHn : forall (cy : R -> Z -> R) (y1 : Z -> R), (forall i, (0 <= i < in_count (n_plan e))%Z -> cy t0 i = y i) ->
      (forall i, (0 <= i < in_count (n_plan e))%Z -> is_derive (fun t => cy t i) t0 (y1 i)) ->
      exists e0 r, trained lo tv (e :: l) y true = e0 :: r /\
        is_derive (fun t => net_loss lo (last_plan (e :: l)) tv (real_net (with_all (plans (e :: l)) (fun i => c (S i) t)) (cy t))) t0
          (total_dot (e :: l) (trained lo tv (e :: l) y true) (fun i => s1 (S i)) + rsum (in_count (n_plan e)) (fun i => n_data e0 RDelta i * y1 i))).
    { intros cy y1 C0 C1. apply (IH (p_out (n_plan d)) y (fun i => c (S i)) cy t0 (fun i => s1 (S i)) y1); auto; [discriminate|]. intros i d1 Hd. exact (Pc (S i) d1 Hd). }
    set (l2 := trained lo tv (e :: l) y true) in *.
    assert (El2 : exists e0 r, l2 = e0 :: r).
    { destruct (IHn (fun _ => y) (fun _ => 0)) as (e0 & r & E & _); [reflexivity|intros; apply const_curve|eauto]. }
    destruct El2 as (e' & r & El2).
    set (dl := n_data e' RDelta).
    assert (Et : trained lo tv (d :: e :: l) x true = bwd (fwd d x) x dl true :: e' :: r).
    { unfold trained, l2, dl in *.
      change (match run_back (run_fwd (e :: l) (node_out d x)) (n_data (fwd d x) RValue) true (loss_dval lo tv (real_net (to_model (e :: l)) y)) with
              | [] => [bwd (fwd d x) x (loss_dval lo tv (real_net (to_model (e :: l)) y)) true]
              | e0 :: r0 => bwd (fwd d x) x (n_data e0 RDelta) true :: e0 :: r0 end = bwd (fwd d x) x (n_data e' RDelta) true :: e' :: r).
      change (n_data (fwd d x) RValue) with (after_forward d x RValue). rewrite after_forward_value, No. unfold trained in El2. rewrite El2. reflexivity. }
    exists (bwd (fwd d x) x dl true), (e' :: r). split; [exact Et|]. rewrite Et, <- El2.
    destruct (layer_step d x dl _ cx t0 _ x1 T1 F1 S1 Cd Cx Dx) as (y1 & D0 & D1 & E1). rewrite Lin in D0, D1. rewrite <- Cm in D0, D1, E1.
    destruct (IHn (fun t => real_layer (n_plan d) (par (n_data d) (c O t)) (cx t)) y1) as (e0 & r0 & E0 & G).
    { intros i Hi. rewrite D0 by auto. reflexivity. } { exact D1. }
    assert (e0 = e') by congruence. subst e0.
    change (total_dot (d :: e :: l) (bwd (fwd d x) x dl true :: l2) s1) with
      (params_dot (n_plan d) (n_data d) (after_backward (fwd d x) x dl true) (s1 O) + total_dot (e :: l) l2 (fun i => s1 (S i))).
    cbn [bwd n_data]. evar_last.
    { eapply is_derive_ext; [|exact G]. intros t. cbv beta. rewrite real_layer_par. reflexivity. }
    fold dl. rewrite E1, params_dot_par. cbn [in_count n_plan]. lra.
Qed.
Lemma total_dot_full l x full dl : forall s1 l', total_dot l' (run_back l x true dl) s1 = total_dot l' (run_back l x full dl) s1.
Proof.
  intros s1 l'. destruct l as [|d l]; [reflexivity|]. cbn [run_back]. destruct (run_back l (n_data d RValue) true dl) as [|e r]; destruct l' as [|d' l']; try reflexivity;
  cbn [total_dot bwd n_data]; f_equal; apply params_dot_full.
Qed.
(** parameters only *)
Lemma total_params l s0 x c t0 s1 : l <> [] -> Forall train_class (layers l) -> Forall (fun d => fits (n_layer d) (n_plan d)) l -> wired s0 (plans l) ->
  smooth (to_model l) x -> clean (to_model l) -> loss_fits lo (last_plan l) tv (real_net (to_model l) x) -> pcurves l c t0 s1 ->
  is_derive (fun t => net_loss lo (last_plan l) tv (real_net (with_all (plans l) (fun i => c i t)) x)) t0 (total_dot l (trained lo tv l x false) s1).
Proof.
  intros Ne Tr F W Sm Cl Lf Pc. destruct (total_rule l s0 x c (fun _ => x) t0 s1 (fun _ => 0) Ne Tr F W Sm Cl Lf Pc) as (e & r & E & D).
  { reflexivity. } { intros; apply const_curve. }
  cbv beta in D. evar_last. { exact D. } rewrite rsum_zero. unfold trained. rewrite total_dot_full with (full := false). lra.
Qed.
End Total.

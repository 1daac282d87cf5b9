(** * What a sample, a batch and an update compute in a dense network, over any numbers (for C132) *)
From Coq Require Import ZArith QArith Reals Lra Lia List FunctionalExtensionality.
From Flocq Require Import Core BinarySingleNaN.
From Coquelicot Require Import Coquelicot.
From Verif Require Import Mem Scalar MemSpec MemLemmas Lique LiqueSpec LiqueProofs Linear LinearProofs RSum Functions FunctionSpec FunctionProofs
  Layer LayerSpec FCProofs RealSpec NetSpec ConvSpec Optimizer ActivationProofs LossProofs Vjp PropFC Net NetPlan NetProofs NetBack PropNet NetReal NetGrad PropNetGrad
  Float FloatSpec FloatLemmas FloatLib FloatError FloatAcc FloatAct PropFloatAct PropFloatSoftmax PropFloatLayers FloatNetSpec FloatNetAct FloatNetSoft PropFloatNet FloatLoss FloatGradSpec FloatDer PropFloatGrad
  Schedule PropTraining Descent DescentSpec DescentReal PropDescent FloatDescentSpec.
Import ListNotations.
Local Open Scope R_scope.

(** ** what a sample, a batch and an update leave in a dense network *)
Section Any.
Context {T : Type} `{NT : Num T}.
Implicit Types (d e : node T) (l : list (node T)).
Definition dense_node d : Prop := train_class (n_layer d) /\ fits (n_layer d) (n_plan d) /\ is_dense (n_plan d).
Lemma dense_fc d : dense_node d -> exists L a n k, n_layer d = LFC L /\ n_plan d = PDense a n k.
Proof.
  destruct d as [[L|L|L|L|L|L] [a n k|g|a q] s]; intros (H1 & H2 & H3); cbn in *; try tauto; repeat eexists.
Qed.
(** the same layer with the same parameters *)
Definition twin d d' : Prop := dense_node d /\ dense_node d' /\ n_plan d' = n_plan d /\ n_data d' RB = n_data d RB /\ n_data d' (RW 0) = n_data d (RW 0).
Lemma twin_refl d : dense_node d -> twin d d.
Proof. intros H. now repeat split; try apply H. Qed.
Lemma bwd_kept d x dl full : dense_node d -> let d2 := bwd (fwd d x) x dl full in
  n_layer d2 = n_layer d /\ n_plan d2 = n_plan d /\ n_data d2 RB = n_data d RB /\ n_data d2 (RW 0) = n_data d (RW 0) /\
  n_data d2 RGradBs = n_data d RGradBs /\ n_data d2 RGradWs = n_data d RGradWs.
Proof.
  intros D. destruct (dense_fc d D) as (L & a & n & k & EL & Ep). destruct d as [L0 p s]. cbn in EL, Ep. subst. cbv zeta.
  split; [reflexivity|]. split; [reflexivity|]. unfold bwd, fwd, after_backward, after_forward. cbn [n_plan n_layer n_data]. unfold fc_after_backward. cbv zeta.
  destruct full; repeat split; reflexivity.
Qed.
Lemma node_out_twin d d' x : twin d d' -> node_out d' x = node_out d x.
Proof.
  intros (D & D' & Ep & EB & EW). destruct (dense_fc d D) as (L & a & n & k & EL & Epl). destruct (dense_fc d' D') as (L' & a' & n' & k' & EL' & Epl').
  assert (Q : n_plan d' = PDense a n k) by congruence. apply functional_extensionality. intros j. unfold node_out. rewrite Q, Epl. unfold dense_out, PropFC.affine. now rewrite EB, EW.
Qed.
Definition twin2 full d d' : Prop := n_data d' RGradB = n_data d RGradB /\ n_data d' (RGradW 0) = n_data d (RGradW 0) /\ (full = true -> n_data d' RDelta = n_data d RDelta).
Lemma bwd_twin d d' x dl full : twin d d' -> twin2 full (bwd (fwd d x) x dl full) (bwd (fwd d' x) x dl full).
Proof.
  intros (D & D' & Ep & EB & EW). destruct (dense_fc d D) as (L & a & n & k & EL & Epl). pose proof (eq_trans Ep Epl) as Epl'.
  destruct (dense_bwd d a n k x dl full Epl (proj1 D) (proj1 (proj2 D))) as (E1 & E2 & E3 & _). destruct (dense_bwd d' a n k x dl full Epl' (proj1 D') (proj1 (proj2 D'))) as (G1 & G2 & G3 & _).
  cbv zeta in *. assert (Q : PropFloatGrad.grad_b d' a n k x dl = PropFloatGrad.grad_b d a n k x dl) by (unfold PropFloatGrad.grad_b, PropFC.affine; now rewrite EB, EW).
  split; [now rewrite E1, G1, Q|]. split; [now rewrite E2, G2, Q|]. intros Ef. rewrite (E3 Ef), (G3 Ef), EW, Q. reflexivity.
Qed.
Lemma run_twin l : forall l' x dl full, Forall2 twin l l' ->
  net_out l' x = net_out l x /\ delta_in (run_back (run_fwd l' x) x true dl) dl = delta_in (run_back (run_fwd l x) x true dl) dl /\
  forall i d2 d2', nth_error (run_back (run_fwd l x) x full dl) i = Some d2 -> nth_error (run_back (run_fwd l' x) x full dl) i = Some d2' ->
    n_data d2' RGradB = n_data d2 RGradB /\ n_data d2' (RGradW 0) = n_data d2 (RGradW 0).
Proof.
  induction l as [|d l IH]; intros l' x dl full H; inversion H as [|? d' ? l1 Td Tl]; subst.
  - split; [reflexivity|]. split; [reflexivity|]. intros [|]; discriminate.
  - cbn [run_fwd]. rewrite !run_back_cons. assert (V : forall e : node T, n_data (fwd e x) RValue = node_out e x) by (intros; cbn [fwd n_data]; apply after_forward_value). rewrite !V, (node_out_twin d d' x Td).
    destruct (IH l1 (node_out d x) dl true Tl) as (I1 & I2 & I3). split; [change (net_out l1 (node_out d' x) = net_out l (node_out d x)); rewrite (node_out_twin d d' x Td); exact I1|].
    set (da := delta_in (run_back (run_fwd l (node_out d x)) (node_out d x) true dl) dl) in *. rewrite I2.
    split. { cbn [delta_in]. now apply (bwd_twin d d' x da true Td). }
    intros [|i] d2 d2' H2 H2'; cbn [nth_error] in *.
    + injection H2 as <-. injection H2' as <-. destruct (bwd_twin d d' x da full Td) as (B1 & B2 & _). now split.
    + exact (I3 i d2 d2' H2 H2').
Qed.
Lemma nth_run_back l : forall x dl full i d, nth_error l i = Some d -> exists x' dl' full', nth_error (run_back (run_fwd l x) x full dl) i = Some (bwd (fwd d x') x' dl' full').
Proof.
  induction l as [|e l IH]; intros x dl full [|i] d Hd; try discriminate; cbn [run_fwd]; rewrite run_back_cons; cbn [nth_error] in *.
  - injection Hd as <-. repeat eexists.
  - assert (V : n_data (fwd e x) RValue = node_out e x) by (cbn [fwd n_data]; apply after_forward_value). rewrite V. eapply IH. exact Hd.
Qed.

(** the gradients feedforward and backprop leave for a sample *)
Context (lo : loss) (xs ys : Z -> Z -> T).
Definition sample_grad l (s : Z) (i : nat) (r : role) : Z -> T :=
  match nth_error (l_sample lo (xs s) (ys s) l) i with Some d2 => n_data d2 (grad_role r) | None => fun _ => zero end.
Lemma sample_nth l l1 s i d : Forall2 twin l l1 -> nth_error l1 i = Some d -> exists d2, nth_error (l_sample lo (xs s) (ys s) l1) i = Some d2 /\
  n_layer d2 = n_layer d /\ n_plan d2 = n_plan d /\ n_data d2 RB = n_data d RB /\ n_data d2 (RW 0) = n_data d (RW 0) /\
  n_data d2 RGradBs = n_data d RGradBs /\ n_data d2 RGradWs = n_data d RGradWs /\
  n_data d2 RGradB = sample_grad l s i RB /\ n_data d2 (RGradW 0) = sample_grad l s i (RW 0).
Proof.
  intros H Hd. destruct (nth_run_back l1 (xs s) (loss_dval lo (ys s) (net_out l1 (xs s))) false i d Hd) as (x' & dl' & f' & E).
  assert (Dd : dense_node d). { clear - H Hd. revert i Hd. induction H as [|a b la lb Hab _ IH]; intros [|i] Hd; try discriminate; [injection Hd as <-; apply Hab|eauto]. }
  exists (bwd (fwd d x') x' dl' f'). split; [exact E|]. destruct (bwd_kept d x' dl' f' Dd) as (K1 & K2 & K3 & K4 & K5 & K6). do 6 (split; [assumption|]).
  destruct (run_twin l l1 (xs s) (loss_dval lo (ys s) (net_out l (xs s))) false H) as (R1 & _ & R3). rewrite R1 in E.
  unfold sample_grad, l_sample. assert (exists d0, nth_error l i = Some d0) as [d0 Hd0].
  { clear - H Hd. revert i Hd. induction H as [|a b la lb Hab _ IH]; intros [|i] Hd; try discriminate; [eexists; reflexivity|eauto]. }
  destruct (nth_run_back l (xs s) (loss_dval lo (ys s) (net_out l (xs s))) false i d0 Hd0) as (x2 & dl2 & f2 & E2). rewrite E2. cbn [grad_role].
  exact (R3 i _ _ E2 E).
Qed.
Lemma map_nth {A B} (f : A -> B) (l : list A) i x : nth_error l i = Some x -> nth_error (map f l) i = Some (f x).
Proof. apply map_nth_error. Qed.
Lemma dense_acc d : dense_node d -> exists L, n_layer d = LFC L /\ n_accum d = mk_node (LFC (fc_set_acc L true)) (n_plan d) (fc_after_accumulate (n_data d)) /\ dense_node (n_accum d).
Proof.
  intros D. destruct (dense_fc d D) as (L & a & n & k & EL & Ep). exists L. split; [exact EL|]. unfold n_accum. rewrite EL. split; [reflexivity|].
  destruct D as (D1 & D2 & D3). rewrite EL in D2. rewrite Ep in *. split; [exact Logic.I|]. split; [exact D2|exact D3].
Qed.
Lemma twin_nth l l1 i d1 : Forall2 twin l l1 -> nth_error l1 i = Some d1 -> exists d, nth_error l i = Some d /\ twin d d1.
Proof.
  intros H. revert i. induction H as [|a b la lb Hab _ IH]; intros [|i] Hd; try discriminate; [injection Hd as <-; eexists; split; [reflexivity|exact Hab]|]. exact (IH i Hd).
Qed.
Lemma twin_of_nth l l1 : length l1 = length l -> (forall i d, nth_error l i = Some d -> exists d1, nth_error l1 i = Some d1 /\ twin d d1) -> Forall2 twin l l1.
Proof.
  revert l1. induction l as [|d l IH]; intros [|d1 l1] Len H; try discriminate; [constructor|]. constructor.
  - destruct (H O d eq_refl) as (e & E & Q). injection E as <-. exact Q.
  - apply IH; [now injection Len|]. intros i e He. exact (H (S i) e He).
Qed.
Lemma twin_length l l1 : Forall2 twin l l1 -> length l1 = length l.
Proof. intros H. induction H; cbn; congruence. Qed.
Lemma sample_length x y l : length (l_sample lo x y l) = length l.
Proof. pose proof (f_equal (@length _) (layers_sample lo x y l)) as Q. unfold layers in Q. now rewrite !map_length in Q. Qed.
(** after presenting the samples [is]: the sums of their gradients *)
Definition accumulated is l (i : nat) (r : role) (z : Z -> T) (j : Z) : T := fold_left (fun a s => add a (sample_grad l s i r j)) is (z j).
Lemma presents_values is : forall l l1, Forall2 twin l l1 -> Forall2 twin l (fold_left (l_present lo xs ys) is l1) /\
  forall i d1, nth_error l1 i = Some d1 -> exists d2 L, nth_error (fold_left (l_present lo xs ys) is l1) i = Some d2 /\ n_layer d2 = LFC L /\ (is <> [] -> f_acc L = true) /\
    (forall j, n_data d2 RGradBs j = accumulated is l i RB (n_data d1 RGradBs) j) /\ (forall j, n_data d2 RGradWs j = accumulated is l i (RW 0) (n_data d1 RGradWs) j).
Proof.
  induction is as [|s is IH]; intros l l1 H.
  - split; [exact H|]. intros i d1 Hd. destruct (twin_nth l l1 i d1 H Hd) as (d & _ & Tw). destruct (dense_fc d1 (proj1 (proj2 Tw))) as (L & a & n & k & EL & _). exists d1, L.
    split; [exact Hd|]. split; [exact EL|]. split; [congruence|]. split; intros j; reflexivity.
  - cbn [fold_left]. 
    assert (St : forall i d1, nth_error l1 i = Some d1 -> exists d2 L, nth_error (l_present lo xs ys l1 s) i = Some d2 /\ twin d1 d2 /\ n_layer d2 = LFC L /\ f_acc L = true /\
      (forall j, n_data d2 RGradBs j = add (n_data d1 RGradBs j) (sample_grad l s i RB j)) /\ (forall j, n_data d2 RGradWs j = add (n_data d1 RGradWs j) (sample_grad l s i (RW 0) j))).
    { intros i d1 Hd. destruct (twin_nth l l1 i d1 H Hd) as (d & _ & Tw). pose proof (proj1 (proj2 Tw)) as D1. destruct (sample_nth l l1 s i d1 H Hd) as (d2 & E2 & K1 & K2 & K3 & K4 & K5 & K6 & K7 & K8).
      assert (D2 : dense_node d2) by (unfold dense_node; rewrite K1, K2; exact D1). destruct (dense_acc d2 D2) as (L & EL & Ea & Da). exists (n_accum d2), (fc_set_acc L true).
      split; [apply map_nth; exact E2|]. split. { split; [exact D1|]. split; [exact Da|]. rewrite Ea. cbn [n_plan n_data]. split; [exact K2|]. split; [exact K3|exact K4]. }
      rewrite Ea. cbn [n_layer n_data]. split; [reflexivity|]. split; [reflexivity|].
      split; intros j; [change (add (n_data d2 RGradBs j) (n_data d2 RGradB j) = add (n_data d1 RGradBs j) (sample_grad l s i RB j)); now rewrite K5, K7|].
      change (add (n_data d2 RGradWs j) (n_data d2 (RGradW 0) j) = add (n_data d1 RGradWs j) (sample_grad l s i (RW 0) j)). now rewrite K6, K8. }
    assert (H1 : Forall2 twin l (l_present lo xs ys l1 s)).
    { apply twin_of_nth.
      - unfold l_present. rewrite map_length, sample_length. now apply twin_length.
      - intros i d Hd. assert (exists d1, nth_error l1 i = Some d1) as [d1 Hd1].
        { destruct (nth_error l1 i) as [d1|] eqn:E; [eauto|]. apply nth_error_None in E. assert (i < length l)%nat by (apply nth_error_Some; congruence). rewrite (twin_length l l1 H) in E. lia. }
        destruct (St i d1 Hd1) as (d2 & L & E2 & T2 & _). exists d2. split; [exact E2|]. destruct (twin_nth l l1 i d1 H Hd1) as (d' & Hd' & T1). assert (d' = d) by congruence. subst d'.
        destruct T1 as (A1 & A2 & A3 & A4 & A5). destruct T2 as (B1 & B2 & B3 & B4 & B5). split; [exact A1|]. split; [exact B2|]. split; [congruence|]. split; congruence. }
    destruct (IH l _ H1) as [I1 I2]. split; [exact I1|]. intros i d1 Hd. destruct (St i d1 Hd) as (d2 & L & E2 & T2 & EL & Fa & G1 & G2).
    destruct (I2 i d2 E2) as (d3 & L3 & E3 & EL3 & Fa3 & J1 & J2). exists d3, L3. split; [exact E3|]. split; [exact EL3|]. split.
    { intros _. destruct is as [|s' is']; [|apply Fa3; discriminate]. cbn [fold_left] in E3. assert (d3 = d2) by congruence. subst d3. congruence. }
    split; intros j; [rewrite J1|rewrite J2]; unfold accumulated; cbn [fold_left]; [now rewrite G1|now rewrite G2].
Qed.
(** one round of batch training with gradient descent *)
Lemma round_values lr is l i d : Forall dense_node l -> is <> [] -> nth_error l i = Some d ->
  let alpha : T := div one (ofZ (Z.of_nat (length is))) in
  exists d', nth_error (l_round lo xs ys lr l is) i = Some d' /\ dense_node d' /\ n_plan d' = n_plan d /\
    forall r, r = RB \/ r = RW 0 -> forall j, n_data d' r j = sub (n_data d r j) (mul (FCProofs.scaled alpha (accumulated is l i r (fun _ => zero) j)) lr).
Proof.
  intros D Hi Hd alpha. set (l1 := map n_reset l).
  assert (Rs : forall i d, nth_error l i = Some d -> exists d1, nth_error l1 i = Some d1 /\ twin d d1 /\ n_data d1 RGradBs = (fun _ => zero) /\ n_data d1 RGradWs = (fun _ => zero)).
  { intros i0 d0 H0. assert (D0 : dense_node d0) by (rewrite Forall_forall in D; apply D; eapply nth_error_In; exact H0). exists (n_reset d0). split; [apply map_nth; exact H0|].
    destruct (dense_fc d0 D0) as (L & a & n & k & EL & Ep). unfold n_reset. rewrite EL. split; [|split; reflexivity].
    split; [exact D0|]. split; [|split; [reflexivity|split; reflexivity]]. destruct D0 as (D1 & D2 & D3). rewrite EL in D2. split; [exact Logic.I|]. cbn [n_layer n_plan]. split; [|exact D3]. rewrite Ep in D2 |- *. exact D2. }
  assert (H1 : Forall2 twin l l1).
  { apply twin_of_nth; [apply map_length|]. intros i0 d0 H0. destruct (Rs i0 d0 H0) as (d1 & E1 & T1 & _). eauto. }
  destruct (presents_values is l l1 H1) as [P1 P2]. destruct (Rs i d Hd) as (d1 & E1 & T1 & Z1 & Z2). destruct (P2 i d1 E1) as (d2 & L & E2 & EL & Fa & G1 & G2). specialize (Fa Hi).
  destruct (twin_nth _ _ i d2 P1 E2) as (d0 & Hd0 & T2). assert (d0 = d) by congruence. subst d0. destruct T2 as (_ & D2 & Ep & EB & EW).
  exists (n_update lr alpha d2). split; [unfold l_round; apply map_nth; exact E2|]. unfold n_update. rewrite EL. cbn [n_plan n_layer n_data].
  split. { unfold dense_node in *. cbn [n_layer n_plan]. rewrite EL in D2. exact D2. } split; [exact Ep|].
  assert (GB : rGB L = RGradBs) by (unfold rGB; now rewrite Fa). assert (GW : rGW L = RGradWs) by (unfold rGW; now rewrite Fa).
  intros r Hr j. unfold fc_after_gd. rewrite GB, GW. cbv zeta. destruct Hr as [-> | ->].
  - change (sub (n_data d2 RB j) (mul (FCProofs.scaled alpha (n_data d2 RGradBs j)) lr) = sub (n_data d RB j) (mul (FCProofs.scaled alpha (accumulated is l i RB (fun _ => zero) j)) lr)). now rewrite EB, G1, Z1.
  - change (sub (n_data d2 (RW 0) j) (mul (FCProofs.scaled alpha (n_data d2 RGradWs j)) lr) = sub (n_data d (RW 0) j) (mul (FCProofs.scaled alpha (accumulated is l i (RW 0) (fun _ => zero) j)) lr)). now rewrite EW, G2, Z2.
Qed.
(** a stochastic step of a network whose layers have not accumulated *)
Lemma step_values lr s l i d : Forall dense_node l -> (forall L, n_layer d = LFC L -> f_acc L = false) -> eqb (one : T) one = true -> nth_error l i = Some d ->
  exists d', nth_error (l_step lo xs ys lr l s) i = Some d' /\ n_layer d' = n_layer d /\ dense_node d' /\ n_plan d' = n_plan d /\
    forall r, r = RB \/ r = RW 0 -> forall j, n_data d' r j = sub (n_data d r j) (mul (sample_grad l s i r j) lr).
Proof.
  intros D Fa One Hd. assert (H : Forall2 twin l l). { clear -D. induction D; constructor; auto. now apply twin_refl. }
  destruct (sample_nth l l s i d H Hd) as (d2 & E2 & K1 & K2 & K3 & K4 & _ & _ & K7 & K8).
  assert (D0 : dense_node d) by (rewrite Forall_forall in D; apply D; eapply nth_error_In; exact Hd). destruct (dense_fc d D0) as (L & a & n & k & EL & _). specialize (Fa L EL).
  exists (n_update lr one d2). split; [unfold l_step; apply map_nth; exact E2|]. unfold n_update. rewrite K1, EL. cbn [n_plan n_layer n_data]. split; [reflexivity|].
  split. { unfold dense_node in *. cbn [n_layer n_plan]. rewrite K2, EL in *. exact D0. } split; [exact K2|].
  assert (GB : rGB L = RGradB) by (unfold rGB; now rewrite Fa). assert (GW : rGW L = RGradW 0) by (unfold rGW; now rewrite Fa).
  assert (Sc : forall g : T, FCProofs.scaled one g = g) by (intros g; unfold FCProofs.scaled; now rewrite One).
  intros r Hr j. unfold fc_after_gd. rewrite GB, GW. cbv zeta. destruct Hr as [-> | ->].
  - change (sub (n_data d2 RB j) (mul (FCProofs.scaled one (n_data d2 RGradB j)) lr) = sub (n_data d RB j) (mul (sample_grad l s i RB j) lr)). now rewrite Sc, K3, K7.
  - change (sub (n_data d2 (RW 0) j) (mul (FCProofs.scaled one (n_data d2 (RGradW 0) j)) lr) = sub (n_data d (RW 0) j) (mul (sample_grad l s i (RW 0) j) lr)). now rewrite Sc, K4, K8.
Qed.
End Any.

(** * Property C107: evaluation between training calls does not change training *)
From Coq Require Import FunctionalExtensionality.
From Verif Require Import Mem Scalar MemSpec MemLemmas Lique LiqueSpec LiqueProofs LiqueProofs2 Linear LinearProofs Functions FunctionSpec FunctionProofs
  Skel Bufs Optimizer OptimizerSpec OptimizerProofs OptimizerHist Layer LayerSpec FCProofs Cells ConvSpec ConvProofs ConvProofs2 PoolSpec PoolProofs PropFC PropConv PropPool
  Net NetPlan NetProofs NetBack PropNet Checker PropChecker Schedule PropTraining Descent PropDescent OptTrain OptTrainSpec PropOptTrain SessionSpec Session.
Open Scope Z_scope.

Section Any.
Context {T : Type} `{NT : Num T}.
Context (addr : ptr -> Z) (t : trainer) (lo : loss) (idata odata : list tensor) (xs ys : Z -> Z -> T).
Implicit Types (m : mem T) (l : list (node T)) (o : opt T).
Notation n := (Z.of_nat (length idata)).
Notation ready m l := (ready m l t lo idata odata xs ys).
Notation L l := (layers l).
#[local] Existing Instance names_pname.

Lemma batches_some E : idata <> [] -> Forall (fun is : list Z => is <> []) (batches idata E).
Proof. intros Hn. apply Forall_forall. intros is Hi. apply repeat_spec in Hi as ->. apply zrange_ne. destruct idata; [congruence|cbn; lia]. Qed.
Lemma mini_some b E : 0 < b -> Forall (fun is : list Z => is <> []) (mini_batches idata b E).
Proof. intros Hb. apply Forall_forall. intros is Hi. apply in_concat in Hi as (l' & Hl & Hi). apply repeat_spec in Hl as ->. apply in_map_iff in Hi as (k & <- & Hk). apply zrange_ne. lia. Qed.
Section Run.
Context (m0 : mem T) (l0 : list (node T)) (o0 : opt T) (x0 : nat -> role -> Z -> T * T).
Context (R0 : ready m0 l0) (H0 : optimizer_for addr m0 l0 t idata odata o0 x0) (Hn0 : idata <> []) (Hn64 : n < 2 ^ 64).
Notation kd := (o_kind o0).
Notation lr := (o_lr o0).
Notation fr := (frame t (L l0) (spare addr m0 l0 o0)).
Definition here m o (st : nst) : Prop :=
  at_state addr t lo idata odata xs ys (fun k : pname (L l0) => proj1_sig k) (nP (L l0)) (nN (L l0)) (L l0) (spare addr m0 l0 o0) kd lr m o st /\
  fr m0 m /\ plans (ns_l st) = plans l0.
Lemma here_start : here m0 o0 (mk_nst l0 x0 (o_t1 o0) (o_t2 o0)).
Proof. split; [now apply start_state|]. split; [apply frame_refl|reflexivity]. Qed.
Lemma here_ready m o st : here m o st -> ready m (ns_l st). Proof. intros ((F & _) & _). apply F. Qed.
Lemma here_same m o st : here m o st -> same_parts (L l0) (ns_l st). Proof. intros ((F & _) & _). apply F. Qed.
Lemma here_ne m o st : here m o st -> ns_l st <> [].
Proof. intros H. pose proof (here_ready _ _ _ H) as (Q & _). intros E. rewrite E in Q. cbn in Q. lia. Qed.
(** data that was there at the start is still there *)
Lemma here_block m o st b : here m o st -> (net_block (ns_l st) b <-> net_block l0 b).
Proof.
  intros H. rewrite (parts_block (L l0) (ns_l st) b (here_same _ _ _ H)). rewrite (parts_block (L l0) l0 b); [reflexivity|]. intros i r. reflexivity.
Qed.
Lemma here_outside m o st q : here m o st -> net_outside l0 q -> net_outside (ns_l st) q.
Proof. intros H. destruct q as [|b i]; cbn; [tauto|]. now rewrite (here_block m o st b H). Qed.
Lemma here_holds m o st q c v : here m o st -> apart_from addr l0 t o0 q c -> holds m0 q c v -> holds m q c v.
Proof.
  intros (_ & G & _) (On & Dd & Of) Hh. apply G; [split; [eapply holds_room; eauto|exact Of]| |exact Hh].
  intros b i Hi [Q|Q]; [|exact (Dd b i Q Hi)]. apply (parts_block (L l0) l0 b) in Q; [|intros i' r; reflexivity].
  destruct q as [|b' j]; cbn in Hi, On; [exact Hi|]. destruct Hi as [-> _]. exact (On Q).
Qed.
Lemma here_outputs m o st k : here m o st -> has_outputs l0 k -> has_outputs (ns_l st) k.
Proof.
  intros (_ & _ & P) (p & E & Q). exists p. split; [|exact Q]. rewrite P. pose proof (f_equal (@length _) P) as Len. unfold plans in Len. rewrite !map_length in Len. now rewrite Len.
Qed.
Lemma here_sample m o st x v : here m o st -> sample_at m0 l0 x v -> apart_from addr l0 t o0 (t_data x) (t_size x) -> sample_at m (ns_l st) x v.
Proof. intros H (W & Hh & Ho) Ap. split; [destruct H as (_ & _ & ->); exact W|]. split; [eapply here_holds; eauto|eapply here_outside; eauto]. Qed.
Lemma here_data m o st vi vo : here m o st -> eval_data addr m0 l0 t o0 vi vo ->
  exists k vx vy, 0 <= k /\ has_outputs (ns_l st) k /\ PropChecker.data_at m (ns_l st) (Z.of_nat (length vo)) k vi vo vx vy.
Proof.
  intros H (k & vx & vy & Hk & Ho & (Hl & Hd) & A1 & A2). exists k, vx, vy. split; [exact Hk|]. split; [eapply here_outputs; eauto|]. split; [exact Hl|].
  intros i Hi. destruct (Hd i Hi) as (x & y & Ex & Ey & Sx & Ty & Hy & Oy). exists x, y. split; [exact Ex|]. split; [exact Ey|]. split; [eapply here_sample; eauto|]. split; [exact Ty|].
  split; [eapply here_holds; eauto|eapply here_outside; eauto].
Qed.
Lemma here_eval m o st c : here m o st -> call_ok addr m0 l0 t o0 c -> is_training c = false -> eval_now m (ns_l st) c.
Proof.
  intros H Ok Tr. destruct c; try discriminate; cbn [call_ok eval_now] in *; try (eapply here_data; eassumption).
  - destruct Ok as ((v & Sx) & Ap). exists v. eapply here_sample; eauto.
  - destruct Ok as (Q & Ne). split; [eapply here_data; eauto|exact Ne].
Qed.
Lemma eval_call m o st c : here m o st -> call_ok addr m0 l0 t o0 c -> is_training c = false ->
  exists m' l', do_call addr t idata odata c (L (ns_l st), o) m = Ok ((L (ns_l st), o), m') /\ here m' o (with_l st l') /\ calm (ns_l st) l'.
Proof.
  intros H Ok Tr. pose proof (here_ready _ _ _ H) as R. pose proof R as (Hl & Tc & A & Ta & _).
  destruct (eval_run addr t lo idata odata c m (ns_l st) o (here_ne _ _ _ H) ltac:(lia) A (proj1 Ta) (here_eval m o st c H Ok Tr)) as (m' & l' & E & A' & C & O).
  exists m', l'. split; [exact E|]. split; [|exact C]. destruct (calm_layers _ _ C) as [EL EP].
  assert (O' : only (train_mem (ns_l st) t) m m') by (eapply only_weaken; [|exact O]; unfold train_mem; cbn; auto).
  assert (R' : ready m' l').
  { eapply ready_step; [exact R|exact EP|now rewrite EL| |exact A'|exact O']. intros b. now apply net_block_same. }
  destruct H as (S & G & P). pose proof R0 as (_ & _ & A0 & _).
  assert (Sp : same_parts (L l0) l'). { intros i r. rewrite EL. destruct S as ((_ & Sp & _) & _). apply Sp. }
  destruct (quiet_state addr t lo idata odata xs ys _ _ _ _ (pname_params (L l0)) (spare addr m0 l0 o0) (spare_reserves addr t lo idata odata xs ys m0 l0 o0 x0 R0 H0) kd lr m l' o st m' S R' Sp O') as [S' G'].
  split; [exact S'|]. split; [eapply frame_trans; eauto|]. cbn [with_l ns_l]. congruence.
Qed.
Definition train_state (c : call T) (st : nst) : nst :=
  match c with
  | Batch E => fold_left (o_round lo xs ys kd lr) (batches idata E) st
  | MiniBatch E b => fold_left (o_round lo xs ys kd lr) (mini_batches idata b E) st
  | Stochastic k g => fold_left (o_step lo xs ys kd lr) (chosen idata k g) st
  | _ => st
  end.
Lemma train_call m o st c : here m o st -> call_ok addr m0 l0 t o0 c -> is_training c = true ->
  exists o' m', do_call addr t idata odata c (L (ns_l st), o) m = Ok ((L (ns_l (train_state c st)), o'), m') /\ here m' o' (train_state c st).
Proof.
  intros (S & G & P) Ok Tr. pose proof R0 as (_ & _ & A0 & _).
  pose proof (pname_params (L l0)) as HL. pose proof (tensors_fine addr t idata odata m0 l0 o0 x0 A0 H0) as HT. pose proof (spare_reserves addr t lo idata odata xs ys m0 l0 o0 x0 R0 H0) as HR.
  destruct c as [E|E b|k g| | | | | | ]; try discriminate; cbn [call_ok] in Ok; cbn [do_call train_state].
  - destruct (rounds_event addr t lo idata odata xs ys _ _ _ _ HL HT _ HR kd lr (batches idata E) m o st S (batches_valid idata E)) as (o' & m' & Q & S' & G').
    exists o', m'. split; [|split; [exact S'|split; [eapply frame_trans; eauto|now rewrite rounds_same_plans]]].
    rewrite C67_batch_schedule by auto. rewrite <- Q. f_equal. unfold batch_schedule, batches. clear. induction (Z.to_nat E) as [|k IH]; [reflexivity|]. cbn [repeat concat flat_map]. now rewrite IH.
  - destruct Ok as [HE Hb].
    destruct (rounds_event addr t lo idata odata xs ys _ _ _ _ HL HT _ HR kd lr (mini_batches idata b E) m o st S (mini_valid idata b E Hb)) as (o' & m' & Q & S' & G').
    exists o', m'. split; [|split; [exact S'|split; [eapply frame_trans; eauto|now rewrite rounds_same_plans]]].
    rewrite C68_mini_batch_schedule by auto. rewrite <- Q. f_equal. unfold mini_batch_schedule, mini_batches. clear. induction (Z.to_nat E) as [|k IH]; [reflexivity|]. cbn [repeat concat flat_map].
    rewrite flat_map_app, <- IH. f_equal. clear. induction (zrange 0 (n / b)) as [|k ks IH]; [reflexivity|]. cbn [map flat_map]. now rewrite IH.
  - destruct Ok as [HS Hg]. assert (V : Forall (valid idata) (chosen idata k g)).
    { apply Forall_forall. intros i Hi. apply in_map_iff in Hi as (j & <- & _). apply Z.mod_pos_bound. destruct idata; [congruence|cbn; lia]. }
    destruct (steps_event addr t lo idata odata xs ys _ _ _ _ HL HT _ HR kd lr (chosen idata k g) m o st S V) as (o' & m' & Q & S' & G').
    destruct (steps_same_plans lo xs ys kd lr (chosen idata k g) st) as [P1 P2].
    exists o', m'. split; [|split; [exact S'|split; [eapply frame_trans; eauto|congruence]]].
    rewrite C69_stochastic_schedule by auto. rewrite <- Q. f_equal. unfold stochastic_schedule, chosen. clear. induction (zrange 0 k) as [|j ks IH]; [reflexivity|]. cbn [map flat_map]. now rewrite IH.
Qed.
Lemma train_forgets st st' c : ns_l st <> [] -> call_ok addr m0 l0 t o0 c -> alike_state st st' -> alike_state (train_state c st) (train_state c st').
Proof.
  intros Ne Ok A. destruct c as [E|E b|k g| | | | | | ]; cbn [train_state call_ok] in *; try exact A.
  - apply rounds_forget; [exact Ne|now apply batches_some|exact A].
  - apply rounds_forget; [exact Ne|now apply mini_some|exact A].
  - now apply steps_forget.
Qed.
Lemma session cs : Forall (call_ok addr m0 l0 t o0) cs -> forall m1 o1 st1 m2 o2 st2, here m1 o1 st1 -> here m2 o2 st2 -> alike_state st2 st1 ->
  exists o1' m1' st1' o2' m2' st2', do_calls addr t idata odata cs (L (ns_l st1), o1) m1 = Ok ((L (ns_l st1'), o1'), m1') /\
    do_calls addr t idata odata (filter is_training cs) (L (ns_l st2), o2) m2 = Ok ((L (ns_l st2'), o2'), m2') /\
    here m1' o1' st1' /\ here m2' o2' st2' /\ alike_state st2' st1'.
Proof.
  induction 1 as [|c cs Ok _ IH]; intros m1 o1 st1 m2 o2 st2 A1 A2 Al.
  - exists o1, m1, st1, o2, m2, st2. auto.
  - cbn [do_calls filter]. destruct (is_training c) eqn:Tr.
    + destruct (train_call m1 o1 st1 c A1 Ok Tr) as (o1' & m1' & E1 & A1'). destruct (train_call m2 o2 st2 c A2 Ok Tr) as (o2' & m2' & E2 & A2').
      cbn [do_calls]. erewrite !bind_eq by eassumption. apply IH; auto. apply train_forgets; auto. exact (here_ne _ _ _ A2).
    + destruct (eval_call m1 o1 st1 c A1 Ok Tr) as (m1' & l' & E1 & A1' & C). erewrite bind_eq by eassumption.
      assert (EL : L (ns_l st1) = L (ns_l (with_l st1 l'))) by (symmetry; apply (calm_layers _ _ C)). rewrite EL. apply IH; auto.
      destruct Al as (C0 & E). split; [|exact E]. eapply calm_trans; eauto.
Qed.
End Run.

(** Any sequence of training and evaluation calls, on any network, with any optimizer and number type:
    it succeeds, and leaves the network's parameters, its flags and the optimizer exactly as the same
    sequence without the evaluation calls would. *)
Theorem C107_evaluation_does_not_change_training m l o x cs :
  ready m l -> idata <> [] -> n < 2 ^ 64 -> optimizer_for addr m l t idata odata o x -> Forall (call_ok addr m l t o) cs ->
  exists l1 o1 m1 l2 o2 m2 x',
    do_calls addr t idata odata cs (layers l, o) m = Ok ((layers l1, o1), m1) /\
    do_calls addr t idata odata (filter is_training cs) (layers l, o) m = Ok ((layers l2, o2), m2) /\
    layers l1 = layers l2 /\
    (forall i r tt, param_tensor l i r tt -> exists v, holds m1 (t_data tt) (t_size tt) v /\ holds m2 (t_data tt) (t_size tt) v) /\
    (o_kind o1, o_lr o1, o_t1 o1, o_t2 o1) = (o_kind o2, o_lr o2, o_t1 o2, o_t2 o2) /\
    optimizer_for addr m1 l1 t idata odata o1 x' /\ optimizer_for addr m2 l2 t idata odata o2 x' /\ ready m1 l1 /\ ready m2 l2.
Proof.
  intros R Ne Hn H Ok. set (st0 := mk_nst l x (o_t1 o) (o_t2 o)). pose proof (here_start m l o x R H) as A0. fold st0 in A0.
  destruct (session m l o x R H Ne Hn cs Ok m o st0 m o st0 A0 A0) as (o1 & m1 & st1 & o2 & m2 & st2 & E1 & E2 & A1 & A2 & C & X1 & X2 & X3). { split; [apply calm_refl|auto]. }
  exists (ns_l st1), o1, m1, (ns_l st2), o2, m2, (ns_x st2).
  assert (F1 := proj1 (proj1 A1)). assert (F2 := proj1 (proj1 A2)).
  destruct (full_end addr t lo idata odata xs ys m l o x _ _ _ _ R H F1) as (R1 & H1 & _). destruct (full_end addr t lo idata odata xs ys m l o x _ _ _ _ R H F2) as (R2 & H2 & _). rewrite X1 in H1.
  split; [exact E1|]. split; [exact E2|]. split; [apply (calm_layers _ _ C)|]. split; [|split; [|auto]].
  - intros i r tt Q. pose proof (proj2 (same_param l (ns_l st1) (here_same _ _ _ _ _ _ A1) i r tt) Q) as (Pr & d1 & N1 & P1). pose proof (proj2 (same_param l (ns_l st2) (here_same _ _ _ _ _ _ A2) i r tt) Q) as (_ & d2 & N2 & P2).
    exists (n_data d2 r). split.
    + rewrite <- (calm_param _ _ i d2 d1 r C N2 N1); [|now apply prole_spec]. eapply part_holds; [eapply net_layer_at; [apply R1|exact N1]|exact P1].
    + eapply part_holds; [eapply net_layer_at; [apply R2|exact N2]|exact P2].
  - destruct A1 as ((_ & K1 & L1 & T1 & U1) & _). destruct A2 as ((_ & K2 & L2 & T2 & U2) & _). congruence.
Qed.
End Any.

Module Examples.
Import PropNet.Examples PropDescent.Examples PropOptTrain.Examples.
From Coq Require Import Reals.
Local Open Scope R_scope.
(** two dense layers, Adam: train, look at accuracy and loss on the training data, train on with another method, predict, train again *)
Example C107_applies : exists (l : list (node R)) (m : mem R) t, let xs := fun _ : Z => xv in let ys := fun _ : Z => yv in let o := adam (1/100) (9/10) (999/1000) in
  ready m l t MSE [tx] [ty] xs ys /\ optimizer_for at_addr m l t [tx] [ty] o (fun _ _ _ => (0, 0)) /\
  Forall (call_ok at_addr m l t o) [Batch 2; Accuracy [tx] [ty]; MeanLoss [tx] [ty]; Stochastic 5 (fun i => i mod 7)%Z; Predict tx; MiniBatch 3 1; AccuracyGlobal [tx] [ty] (1/10)].
Proof.
  destruct C105_C106_apply as (l & m & t & Rd & Sz & _ & _ & _ & _ & Of & _). exists l, m, t. cbv zeta. split; [exact Rd|]. split; [exact Of|].
  pose proof Rd as (Hl & Tr & A & (El & Wb & Od & Ow) & Da). destruct (Da 0%Z ltac:(cbn; lia)) as (x & y & Zx & Zy & Sx & Dx & Hy & Oy & Dy).
  injection Zx as <-. injection Zy as <-. destruct Of as (_ & _ & _ & Of).
  assert (Ax : apart_from at_addr l t (adam (1/100) (9/10) (999/1000)) (t_data tx) (t_size tx)).
  { split; [apply Sx|]. split; [exact Dx|]. apply Of. right. right. left. exists tx. cbn. auto. }
  assert (Ay : apart_from at_addr l t (adam (1/100) (9/10) (999/1000)) (t_data ty) (t_size (tr_delta t))).
  { split; [exact Oy|]. split; [exact Dy|]. apply Of. right. right. right. exists 0%nat, ty. cbn. auto. }
  assert (K : has_outputs l (t_size (tr_delta t))).
  { destruct l as [|d0 l0] eqn:Q; [cbn in Hl; lia|]. rewrite <- Q in *. assert (Ne : l <> []) by (rewrite Q; discriminate). exists (n_plan (last l d0)). split.
    - unfold plans. rewrite nth_error_map. clear -Ne. assert (G : forall (l : list (node R)), l <> [] -> nth_error l (length l - 1) = Some (last l d0)).
      { clear. induction l as [|d l IH]; intros Ne; [congruence|]. destruct l as [|e l]; [reflexivity|]. replace (length (d :: e :: l) - 1)%nat with (S (length (e :: l) - 1)) by (cbn; lia). apply IH. discriminate. }
      now rewrite (G l Ne).
    - symmetry. apply wired_back_last; [exact Ne| |exact Wb]. destruct A as [F _]. eapply Forall_impl; [|exact F]. intros d Q'. apply Q'. }
  assert (Ev : eval_data at_addr m l t (adam (1/100) (9/10) (999/1000)) [tx] [ty]).
  { exists (t_size (tr_delta t)), (fun _ => xv), (fun _ => yv). split; [rewrite <- Sz; cbn; lia|]. split; [exact K|]. split; [|split].
    - split; [reflexivity|]. intros i Hi. assert (i = 0%Z) by (cbn in Hi; lia). subst i. exists tx, ty. split; [reflexivity|]. split; [reflexivity|]. split; [exact Sx|]. split; [exact Sz|]. split; [exact Hy|exact Oy].
    - intros i x0 Hi Z. assert (i = 0%Z) by (cbn in Hi; lia). subst i. injection Z as Z; subst x0. exact Ax.
    - intros i x0 Hi Z. assert (i = 0%Z) by (cbn in Hi; lia). subst i. injection Z as Z; subst x0. exact Ay. }
  repeat apply Forall_cons; try apply Forall_nil; cbn [call_ok]; auto; try lia.
  - split; [lia|]. intros i. pose proof (Z.mod_pos_bound i 7). lia.
  - split; [|exact Ax]. exists xv. exact Sx.
  - split; [exact Ev|discriminate].
Qed.
End Examples.

Print Assumptions C107_evaluation_does_not_change_training.

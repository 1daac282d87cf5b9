(** * C90, C106: stochastic training after batch training does not look at the data (refutation) *)
From Coq Require Import Reals FunctionalExtensionality.
From Verif Require Import Mem Scalar MemSpec MemLemmas Lique LiqueSpec LiqueProofs LiqueProofs2 Linear LinearProofs Functions FunctionSpec FunctionProofs
  Skel Bufs Optimizer OptimizerSpec OptimizerProofs OptimizerHist Layer LayerSpec FCProofs Cells ConvSpec ConvProofs ConvProofs2 PoolSpec PoolProofs PropFC PropConv PropPool
  Net NetPlan NetProofs NetBack PropNet Schedule PropTraining Descent PropDescent DescentSpec OptTrain OptTrainSpec PropOptTrain SessionSpec Session PropSession.
Open Scope Z_scope.

Section Stale.
Context {T : Type} `{NT : Num T}.
Implicit Types (m : mem T) (l : list (node T)) (d : node T) (o : opt T).
(** tensors of a dense layer that one sample does not touch *)
Definition kept_role (r : role) : Prop := match r with RB | RW _ | RGradBs | RGradWs => True | _ => False end.
Definition held d d' : Prop := n_layer d' = n_layer d /\ n_plan d' = n_plan d /\ forall r, kept_role r -> n_data d' r = n_data d r.
Definition dense d : Prop := match n_plan d, n_layer d with PDense _ _ _, LFC L => f_acc L = true | _, _ => False end.
Lemma held_refl d : held d d. Proof. repeat split. Qed.
Lemma held_trans d1 d2 d3 : held d1 d2 -> held d2 d3 -> held d1 d3.
Proof. intros (A & B & C) (A' & B' & C'). split; [congruence|]. split; [congruence|]. intros r H. now rewrite C', C. Qed.
Lemma held_sym d d' : held d d' -> held d' d. Proof. intros (A & B & C). repeat split; auto. intros r H. symmetry. auto. Qed.
Lemma held_list_refl l : Forall2 held l l. Proof. induction l; constructor; auto using held_refl. Qed.
Lemma held_list_trans l1 l2 : Forall2 held l1 l2 -> forall l3, Forall2 held l2 l3 -> Forall2 held l1 l3.
Proof. induction 1; intros l3 F; inversion F; subst; constructor; eauto using held_trans. Qed.
Lemma held_list_sym l l' : Forall2 held l l' -> Forall2 held l' l. Proof. induction 1; constructor; auto using held_sym. Qed.
Lemma fwd_held d x : held d (fwd d x).
Proof. split; [reflexivity|]. split; [reflexivity|]. intros r H. cbn [fwd n_data]. apply after_forward_other; intros ->; destruct H. Qed.
Lemma bwd_held d x dl full : dense d -> held d (bwd d x dl full).
Proof.
  intros H. split; [reflexivity|]. split; [reflexivity|]. intros r K. unfold bwd, after_backward. cbn [n_data]. unfold dense in H. destruct (n_plan d) as [a n k|g|a q]; try contradiction.
  unfold fc_after_backward. cbv zeta. destruct full; rewrite !set_role_other by (intros ->; destruct K); reflexivity.
Qed.
Lemma run_fwd_held l : forall x, Forall2 held l (run_fwd l x). Proof. induction l as [|d l IH]; intros x; cbn [run_fwd]; constructor; [apply fwd_held|apply IH]. Qed.
Lemma dense_held d d' : held d d' -> dense d -> dense d'. Proof. intros (A & B & _). unfold dense. now rewrite A, B. Qed.
Lemma dense_list l l' : Forall2 held l l' -> Forall dense l -> Forall dense l'. Proof. induction 1; intros F; inversion F; subst; constructor; eauto using dense_held. Qed.
Lemma run_back_held l : Forall dense l -> forall x full dl, Forall2 held l (run_back l x full dl).
Proof.
  induction 1 as [|d l H F IH]; intros x full dl; cbn [run_back]; [constructor|]. specialize (IH (n_data d RValue) true dl).
  destruct (run_back l (n_data d RValue) true dl) as [|e r]; constructor; auto using bwd_held.
Qed.
Lemma sample_held lo x y l : Forall dense l -> Forall2 held l (l_sample lo x y l).
Proof.
  intros H. unfold l_sample. eapply held_list_trans; [apply (run_fwd_held l x)|]. apply run_back_held. eapply dense_list; [apply run_fwd_held|exact H].
Qed.
(** ** the update *)
Section Update.
Context (kd : opt_kind T) (lr al : T).
Definition same_os (st st' : ost (T := T)) : Prop := (forall r, kept_role r -> os_s st' r = os_s st r) /\ os_x st' = os_x st /\ os_t1 st' = os_t1 st /\ os_t2 st' = os_t2 st.
Lemma t_step_held st st' rp rg : kept_role rp -> kept_role rg -> same_os st st' -> same_os (t_step kd lr st (rp, rg)) (t_step kd lr st' (rp, rg)).
Proof.
  intros Cp Cg (A & Ex & E1 & E2).
  assert (Ee : forall j, t_elem kd lr st' rp rg j = t_elem kd lr st rp rg j). { intros j. unfold t_elem. now rewrite Ex, E1, E2, (A rp Cp), (A rg Cg). }
  unfold t_step. split; [|split; [|split]]; cbn [os_s os_x os_t1 os_t2].
  - intros r H. pose proof (A r H) as Ar. unfold set_role. destruct (role_eq_dec r rp); [apply functional_extensionality; intros j; now rewrite Ee|]. destruct (scalesb kd); [|exact Ar]. destruct (role_eq_dec r rg); [now rewrite (A rg Cg)|exact Ar].
  - apply functional_extensionality. intros r. destruct (role_eq_dec r rp); [|now rewrite Ex]. apply functional_extensionality. intros j. now rewrite Ee.
  - now rewrite E1.
  - now rewrite E2.
Qed.
Lemma o_layer_held d d' x t1 t2 : dense d -> held d d' -> same_os (o_layer kd lr al d x t1 t2) (o_layer kd lr al d' x t1 t2).
Proof.
  unfold dense, o_layer, n_pairs, n_scaled. intros H (EL & EP & C). rewrite EL. destruct (n_plan d) as [a n k|g|a q]; try contradiction. destruct (n_layer d) as [L|L|L|L|L|L]; try contradiction.
  unfold fc_scaled, rGB, rGW. rewrite H. cbn [fold_left]. apply t_step_held; [exact Logic.I|exact Logic.I|]. apply t_step_held; [exact Logic.I|exact Logic.I|]. split; [|auto]. cbn [os_s].
  rewrite (C RGradBs Logic.I), (C RGradWs Logic.I). intros r K. pose proof (C r K) as Cr. unfold set_role. destruct (role_eq_dec r RGradWs); [reflexivity|]. destruct (role_eq_dec r RGradBs); [reflexivity|exact Cr].
Qed.
Lemma o_layers_held l l' : Forall2 held l l' -> Forall dense l -> forall i x t1 t2, let r := o_layers kd lr al i l x t1 t2 in let r' := o_layers kd lr al i l' x t1 t2 in
  Forall2 held (ns_l r) (ns_l r') /\ ns_x r' = ns_x r /\ ns_t1 r' = ns_t1 r /\ ns_t2 r' = ns_t2 r.
Proof.
  induction 1 as [|d d' l l' C F IH]; intros P i x t1 t2; [repeat split; constructor|]. apply Forall_cons_iff in P as [P1 P2].
  destruct (o_layer_held d d' (x i) t1 t2 P1 C) as (A & Ex & E1 & E2). cbv zeta. cbn [o_layers ns_l ns_x ns_t1 ns_t2]. rewrite Ex, E1, E2.
  destruct (IH P2 (S i) (fun i' => if Nat.eqb i' i then os_x (o_layer kd lr al d (x i) t1 t2) else x i') (os_t1 (o_layer kd lr al d (x i) t1 t2)) (os_t2 (o_layer kd lr al d (x i) t1 t2))) as (B1 & B2 & B3 & B4).
  split; [|auto]. constructor; [|exact B1]. destruct C as (EL & EP & _). split; [exact EL|]. split; [exact EP|]. exact A.
Qed.
Lemma o_layers_dense l : Forall dense l -> forall i x t1 t2, Forall dense (ns_l (o_layers kd lr al i l x t1 t2)).
Proof. induction 1 as [|d l P F IH]; intros i x t1 t2; cbn [o_layers ns_l]; constructor; [exact P|apply IH]. Qed.
End Update.
Section Steps.
Context (lo lo' : loss) (kd : opt_kind T) (lr : T).
Definition held_nst (st st' : nst (T := T)) : Prop := Forall2 held (ns_l st) (ns_l st') /\ ns_x st' = ns_x st /\ ns_t1 st' = ns_t1 st /\ ns_t2 st' = ns_t2 st.
Lemma step_held xs ys xs' ys' i i' st st' : Forall dense (ns_l st) -> held_nst st st' ->
  held_nst (o_step lo xs ys kd lr st i) (o_step lo' xs' ys' kd lr st' i') /\ Forall dense (ns_l (o_step lo xs ys kd lr st i)).
Proof.
  intros D (F & Ex & E1 & E2). pose proof (dense_list _ _ F D) as D'. unfold o_step, o_net, with_l. cbn [ns_l ns_x ns_t1 ns_t2]. rewrite Ex, E1, E2.
  pose proof (sample_held lo (xs i) (ys i) _ D) as S1. pose proof (sample_held lo' (xs' i') (ys' i') _ D') as S2. pose proof (dense_list _ _ S1 D) as D1. split.
  - apply o_layers_held; [|exact D1]. eapply held_list_trans; [apply held_list_sym, S1|]. eapply held_list_trans; [exact F|exact S2].
  - now apply o_layers_dense.
Qed.
Lemma steps_held xs ys xs' ys' is : forall is' st st', length is' = length is -> Forall dense (ns_l st) -> held_nst st st' ->
  held_nst (fold_left (o_step lo xs ys kd lr) is st) (fold_left (o_step lo' xs' ys' kd lr) is' st').
Proof.
  induction is as [|i is IH]; intros [|i' is'] st st' EL D H; try discriminate; [exact H|]. cbn [fold_left]. destruct (step_held xs ys xs' ys' i i' st st' D H) as [A B]. apply IH; auto.
Qed.
End Steps.
(** every layer of the network is dense and its gradients were accumulated *)
Lemma round_flags lo xs ys kd lr iss st : iss <> [] -> Forall (fun is : list Z => is <> []) iss ->
  forall L, In (LFC L) (layers (ns_l (fold_left (o_round lo xs ys kd lr) iss st))) -> f_acc L = true.
Proof.
  intros Ne H. destruct (exists_last Ne) as (iss' & is & ->). apply Forall_app in H as [_ H]. apply Forall_cons_iff in H as [H _]. rewrite fold_left_app. cbn [fold_left]. set (st1 := fold_left _ iss' st).
  unfold o_round. intros L. rewrite (proj1 (layers_o_net _ _ _ _)). cbn [with_l ns_l]. destruct (exists_last H) as (is' & i & ->). rewrite fold_left_app. cbn [fold_left]. unfold l_present at 1. unfold layers. rewrite map_map. intros Q.
  apply in_map_iff in Q as (d & E & _). unfold n_accum in E. destruct (n_layer d) eqn:Q; cbn [n_layer] in E; try congruence. injection E as <-. reflexivity.
Qed.
End Stale.

Section Main.
Context {T : Type} `{NT : Num T}.
Context (addr : ptr -> Z).
Implicit Types (m : mem T) (l : list (node T)) (o : opt T).
(** After batch training of a network of dense layers, [k] iterations of stochastic training have the
    same effect whatever the samples, the targets, the loss and the generator are: they move the
    parameters along the gradient sums left behind by the batch. *)
Theorem C90_stochastic_after_batch_ignores_data_refuted m l o x t lo idata odata xs ys E :
  ready m l t lo idata odata xs ys -> optimizer_for addr m l t idata odata o x -> Forall is_dense (plans l) -> idata <> [] -> 1 <= E ->
  exists l1 o1 m1 x1, tr_batch addr (layers l) t idata odata o E m = Ok ((layers l1, o1), m1) /\
    ready m1 l1 t lo idata odata xs ys /\ optimizer_for addr m1 l1 t idata odata o1 x1 /\
    forall k t1 lo1 idata1 odata1 xs1 ys1 g1 t2 lo2 idata2 odata2 xs2 ys2 g2, 0 <= k ->
      ready m1 l1 t1 lo1 idata1 odata1 xs1 ys1 -> optimizer_for addr m1 l1 t1 idata1 odata1 o1 x1 -> idata1 <> [] -> (forall i, 0 <= g1 i < 2 ^ 64) ->
      ready m1 l1 t2 lo2 idata2 odata2 xs2 ys2 -> optimizer_for addr m1 l1 t2 idata2 odata2 o1 x1 -> idata2 <> [] -> (forall i, 0 <= g2 i < 2 ^ 64) ->
      exists o1' m1' o2' m2',
        tr_stochastic addr (layers l1) t1 idata1 odata1 o1 k g1 m1 = Ok (o1', m1') /\
        tr_stochastic addr (layers l1) t2 idata2 odata2 o1 k g2 m1 = Ok (o2', m2') /\
        forall i r tt, param_tensor l1 i r tt -> exists v, holds m1' (t_data tt) (t_size tt) v /\ holds m2' (t_data tt) (t_size tt) v.
Proof.
  intros Rd Of Dn Ne HE. destruct (batch_any addr t lo idata odata xs ys m l o x E Rd Of ltac:(lia)) as (o1 & m1 & Q & W). cbv zeta in Q, W.
  set (st := rounds_state lo xs ys l o x (batches idata E)) in *. destruct W as (R1 & O1 & P1 & _). exists (ns_l st), o1, m1, (ns_x st).
  split; [exact Q|]. split; [exact R1|]. split; [exact O1|].
  intros k t1 lo1 id1 od1 xs1 ys1 g1 t2 lo2 id2 od2 xs2 ys2 g2 Hk Ra Oa Na Ga Rb Ob Nb Gb.
  destruct (stochastic_any addr t1 lo1 id1 od1 xs1 ys1 m1 (ns_l st) o1 _ k g1 Ra Oa Hk Na Ga) as (oa & ma & Qa & La & Wa).
  destruct (stochastic_any addr t2 lo2 id2 od2 xs2 ys2 m1 (ns_l st) o1 _ k g2 Rb Ob Hk Nb Gb) as (ob & mb & Qb & Lb & Wb).
  exists oa, ma, ob, mb. split; [exact Qa|]. split; [exact Qb|].
  assert (D : Forall dense (ns_l st)).
  { assert (Fl : forall L, In (LFC L) (layers (ns_l st)) -> f_acc L = true).
    { apply round_flags; [|now apply batches_some]. unfold batches. destruct (Z.to_nat E) eqn:Q0; [lia|discriminate]. }
    apply Forall_forall. intros d Hd. pose proof R1 as (_ & Tr & (F & _) & _). rewrite Forall_forall in F, Tr. pose proof (F d Hd) as [Fi _]. specialize (Tr (n_layer d) (in_map _ _ _ Hd)).
    assert (Dd : is_dense (n_plan d)). { rewrite Forall_forall in Dn. apply Dn. rewrite <- P1. now apply (in_map n_plan). }
    unfold dense. destruct (n_plan d); try contradiction. destruct (n_layer d) eqn:QL; cbn in Fi, Tr; try contradiction. apply Fl. rewrite <- QL. now apply in_map. }
  pose proof (steps_held lo1 lo2 (o_kind o1) (o_lr o1) xs1 ys1 xs2 ys2 (chosen id1 k g1) (chosen id2 k g2) (mk_nst (ns_l st) (ns_x st) (o_t1 o1) (o_t2 o1)) (mk_nst (ns_l st) (ns_x st) (o_t1 o1) (o_t2 o1))) as (F & _).
  { unfold chosen. now rewrite !map_length. } { exact D. } { split; [apply held_list_refl|auto]. }
  change (Forall2 held (ns_l (steps_state lo1 xs1 ys1 (ns_l st) o1 (ns_x st) (chosen id1 k g1))) (ns_l (steps_state lo2 xs2 ys2 (ns_l st) o1 (ns_x st) (chosen id2 k g2)))) in F.
  set (sa := steps_state lo1 xs1 ys1 (ns_l st) o1 (ns_x st) (chosen id1 k g1)) in *. set (sb := steps_state lo2 xs2 ys2 (ns_l st) o1 (ns_x st) (chosen id2 k g2)) in *.
  intros i r tt (Pr & d & Nd & Pd).
  assert (G : forall s : nst (T := T), layers (ns_l s) = layers (ns_l st) -> exists e, nth_error (ns_l s) i = Some e /\ part (n_layer e) r = Some tt).
  { intros s El. pose proof (f_equal (fun q => nth_error q i) El) as Z. unfold layers in Z. cbv beta in Z. rewrite !nth_error_map, Nd in Z. destruct (nth_error (ns_l s) i) as [e|]; cbn in Z; [|discriminate]. exists e. split; [reflexivity|]. congruence. }
  destruct (G sa La) as (ea & Na1 & Pa). destruct (G sb Lb) as (eb & Nb1 & Pb).
  assert (Hh : held ea eb). { clear -F Na1 Nb1. revert i Na1 Nb1. induction F as [|a b la lb H F IH]; intros [|i] Na1 Nb1; cbn in *; try discriminate; [congruence|eauto]. }
  destruct Wa as (Za & _). destruct Wb as (Zb & _). exists (n_data ea r). split.
  - eapply part_holds; [eapply net_layer_at; [apply Za|exact Na1]|exact Pa].
  - destruct Hh as (_ & _ & Hh). rewrite <- Hh by (destruct r; try destruct Pr; exact Logic.I). eapply part_holds; [eapply net_layer_at; [apply Zb|exact Nb1]|exact Pb].
Qed.
End Main.

Module Examples.
Import PropNet.Examples PropDescent.Examples PropOptTrain.Examples.
Local Open Scope R_scope.
(** two dense layers, Adam: the hypotheses hold, and so do those of the second part for the same data *)
Example C90_refuted_applies : exists (l : list (node R)) (m : mem R) t, let xs := fun _ : Z => xv in let ys := fun _ : Z => yv in let o := adam (1/100) (9/10) (999/1000) in
  ready m l t MSE [tx] [ty] xs ys /\ optimizer_for at_addr m l t [tx] [ty] o (fun _ _ _ => (0, 0)) /\ Forall is_dense (plans l).
Proof.
  destruct C89_C90_C91_apply as (l & m & t & Rd & Cl & _ & Dn & Sz & _ & Fr & _). exists l, m, t. cbv zeta.
  assert (Ad : forall i r tt i' r' tt', param_tensor l i r tt -> param_tensor l i' r' tt' -> at_addr (t_data tt) = at_addr (t_data tt') -> i = i' /\ r = r').
  { intros i r tt i' r' tt' Q Q' E. pose proof Rd as (_ & _ & A & _). apply param_part in Q as [_ Q]. apply param_part in Q' as [_ Q'].
    rewrite (part_ptr_of m l i r tt A Q), (part_ptr_of m l i' r' tt' A Q') in E. unfold at_addr in E. assert (Eb : block_of tt = block_of tt') by lia.
    destruct (Nat.eq_dec i i') as [->|Ne]; [destruct (role_eq_dec r r') as [->|Ne]; [auto|]|]; exfalso; refine (parts_blocks m l _ _ _ _ _ _ A Q Q' _ Eb); congruence. }
  split; [exact Rd|]. split; [|exact Dn]. exact (new_for at_addr m l t MSE [tx] [ty] _ _ (1/100) _ (new_adam (1/100) (9/10) (999/1000)) Rd Ad).
Qed.
End Examples.

Print Assumptions C90_stochastic_after_batch_ignores_data_refuted.

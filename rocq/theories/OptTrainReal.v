(** * Training with any optimizer: the rules along a run (proofs for C106) *)
From Coq Require Import QArith Reals Lra FunctionalExtensionality.
From Coquelicot Require Import Coquelicot.
From Verif Require Import Mem Scalar MemSpec MemLemmas Lique LiqueSpec LiqueProofs LiqueProofs2 Linear LinearProofs Functions FunctionSpec FunctionProofs
  Optimizer OptimizerSpec OptimizerProofs OptimizerHist PropOptimizers Layer LayerSpec FCProofs Cells ConvSpec ConvProofs ConvProofs2 PoolSpec PoolProofs RSum RealSpec ActivationProofs LossProofs NetSpec Vjp ConvVjp
  PropFunctions PropFC PropConv PropPool Net NetPlan NetProofs NetBack PropNet NetReal NetGrad PropNetGrad NetTotal Checker PropChecker Schedule PropTraining Descent DescentSpec DescentReal
  OptTrain OptTrainSpec.

Fixpoint iter {A} (n : nat) (f : A -> A) (x : A) : A := match n with O => x | S n => f (iter n f x) end.
Section Fold.
Context {T : Type} `{NT : Num T} (kd : opt_kind T) (lr : T).
Definition it1 (n : nat) (t : T) : T := iter n (next_t1 kd) t.
Definition it2 (n : nat) (t : T) : T := iter n (next_t2 kd) t.
Lemma iter_plus {A} (f : A -> A) a b x : iter (a + b) f x = iter a f (iter b f x).
Proof. induction a as [|a IH]; [reflexivity|]. cbn [Nat.add iter]. now rewrite IH. Qed.
Lemma iter_S {A} (f : A -> A) a x : iter (S a) f x = iter a f (f x).
Proof. replace (S a) with (a + 1)%nat by lia. apply iter_plus. Qed.
Definition el (n : nat) (st : ost (T := T)) (rp rg : role) (j : Z) : est :=
  elem_step kd lr (it1 n (os_t1 st)) (it2 n (os_t2 st)) (mk_est (os_s st rp j) (fst (os_x st rp j)) (snd (os_x st rp j))) (os_s st rg j).
(** the fold of an update over pairs (parameter, gradient) with distinct roles *)
Lemma t_fold ps : forall st, NoDup (map fst ps) -> NoDup (map snd ps) -> Forall (fun q => prole (fst q) = true /\ prole (snd q) = false) ps ->
  let st' := fold_left (t_step kd lr) ps st in
  os_t1 st' = it1 (length ps) (os_t1 st) /\ os_t2 st' = it2 (length ps) (os_t2 st) /\
  (forall k rp rg j, nth_error ps k = Some (rp, rg) ->
     mk_est (os_s st' rp j) (fst (os_x st' rp j)) (snd (os_x st' rp j)) = el (S k) st rp rg j /\
     os_s st' rg j = if scalesb kd then mul (os_s st rg j) lr else os_s st rg j) /\
  (forall r j, ~ In r (map fst ps) -> (~ In r (map snd ps) -> os_s st' r j = os_s st r j) /\ os_x st' r j = os_x st r j).
Proof.
  induction ps as [|[rp rg] ps IH]; intros st N1 N2 F st'.
  - split; [reflexivity|]. split; [reflexivity|]. split; [intros [|k]; discriminate|]. intros r j _. split; reflexivity.
  - cbn [map fst snd] in N1, N2. apply NoDup_cons_iff in N1 as [M1 N1]. apply NoDup_cons_iff in N2 as [M2 N2]. apply Forall_cons_iff in F as [[P1 P2] F]. cbn [fst snd] in P1, P2.
    assert (Q1 : forall r, In r (map fst ps) -> prole r = true). { intros r H. apply in_map_iff in H as ((a & b) & <- & H). rewrite Forall_forall in F. apply (F _ H). }
    assert (Q2 : forall r, In r (map snd ps) -> prole r = false). { intros r H. apply in_map_iff in H as ((a & b) & <- & H). rewrite Forall_forall in F. apply (F _ H). }
    assert (Ng : rg <> rp) by congruence.
    unfold st'. cbn [fold_left]. set (st1 := t_step kd lr st (rp, rg)).
    assert (S1 : forall j, mk_est (os_s st1 rp j) (fst (os_x st1 rp j)) (snd (os_x st1 rp j)) = el 1 st rp rg j).
    { intros j. unfold st1, t_step. cbn [os_s os_x]. rewrite set_role_same. destruct (role_eq_dec rp rp); [|congruence]. cbn [fst snd]. unfold el, t_elem, it1, it2. cbn [iter]. now destruct (elem_step _ _ _ _ _ _). }
    assert (S2 : forall j, os_s st1 rg j = if scalesb kd then mul (os_s st rg j) lr else os_s st rg j).
    { intros j. unfold st1, t_step. cbn [os_s]. rewrite set_role_other by congruence. destruct (scalesb kd); [now rewrite set_role_same|reflexivity]. }
    assert (S3 : forall r j, r <> rp -> (r <> rg -> os_s st1 r j = os_s st r j) /\ os_x st1 r j = os_x st r j).
    { intros r j H1. split.
      - intros H2. unfold st1, t_step. cbn [os_s]. rewrite set_role_other by congruence. destruct (scalesb kd); [now rewrite set_role_other by congruence|reflexivity].
      - unfold st1, t_step. cbn [os_x]. destruct (role_eq_dec r rp); [congruence|reflexivity]. }
    destruct (IH st1 N1 N2 F) as (E1 & E2 & E3 & E4). change (os_t1 st1) with (next_t1 kd (os_t1 st)) in *. change (os_t2 st1) with (next_t2 kd (os_t2 st)) in *.
    split; [rewrite E1; unfold it1; cbn [length]; now rewrite iter_S|]. split; [rewrite E2; unfold it2; cbn [length]; now rewrite iter_S|]. split.
    + intros [|k] r r' j E; cbn [nth_error] in E.
      * injection E as <- <-. destruct (E4 rp j M1) as [A1 A2].
        assert (A3 : ~ In rp (map snd ps)) by (intros H; apply Q2 in H; congruence). rewrite (A1 A3), A2. split; [apply S1|].
        assert (A4 : ~ In rg (map fst ps)) by (intros H; apply Q1 in H; congruence). rewrite (proj1 (E4 rg j A4) M2). apply S2.
      * assert (I1 : In r (map fst ps)) by (apply nth_error_In, (in_map fst) in E; exact E). assert (I2 : In r' (map snd ps)) by (apply nth_error_In, (in_map snd) in E; exact E).
        assert (H1 : r <> rp) by congruence. assert (H2 : r' <> rg) by congruence.
        assert (H3 : r <> rg) by (intros ->; apply Q1 in I1; congruence). assert (H4 : r' <> rp) by (intros ->; apply Q2 in I2; congruence).
        destruct (E3 k r r' j E) as [A1 A2]. destruct (S3 r j H1) as [B1 B2]. destruct (S3 r' j H4) as [C1 _]. split.
        -- rewrite A1. unfold el. rewrite (B1 H3), B2, (C1 H2). f_equal; unfold it1, it2; now rewrite (iter_S _ (S k)).
        -- rewrite A2, (C1 H2). reflexivity.
    + intros r j H. cbn [map fst In] in H. destruct (E4 r j ltac:(tauto)) as [A1 A2]. destruct (S3 r j ltac:(intros ->; tauto)) as [B1 B2]. split.
      * intros H'. cbn [map snd In] in H'. rewrite A1 by tauto. apply B1. intros ->; tauto.
      * now rewrite A2.
Qed.
(** layers one after the other *)
Definition ncalls (l : list (node T)) : nat := fold_right (fun d k => length (n_pairs d) + k)%nat O l.
Lemma layers_fold alpha l : (forall d x t1 t2, In d l -> let st := o_layer kd lr alpha d x t1 t2 in os_t1 st = it1 (length (n_pairs d)) t1 /\ os_t2 st = it2 (length (n_pairs d)) t2) ->
  forall i x t1 t2, let r := o_layers kd lr alpha i l x t1 t2 in
  ns_t1 r = it1 (ncalls l) t1 /\ ns_t2 r = it2 (ncalls l) t2 /\
  (forall i', (i' < i)%nat -> ns_x r i' = x i') /\
  forall k d, nth_error l k = Some d -> let n := ncalls (firstn k l) in let st := o_layer kd lr alpha d (x (i + k)%nat) (it1 n t1) (it2 n t2) in
    nth_error (ns_l r) k = Some (with_data d (os_s st)) /\ ns_x r (i + k)%nat = os_x st.
Proof.
  induction l as [|d l IH]; intros H i x t1 t2 r.
  - split; [reflexivity|]. split; [reflexivity|]. split; [reflexivity|]. intros [|k]; discriminate.
  - destruct (H d (x i) t1 t2 ltac:(now left)) as [T1 T2]. unfold r. cbn [o_layers ns_l ns_x ns_t1 ns_t2]. set (st0 := o_layer kd lr alpha d (x i) t1 t2) in *.
    set (x1 := fun i' => if Nat.eqb i' i then os_x st0 else x i').
    destruct (IH ltac:(intros; apply H; now right) (S i) x1 (os_t1 st0) (os_t2 st0)) as (E1 & E2 & E3 & E4). rewrite T1, T2 in *.
    split; [rewrite E1; cbn [ncalls fold_right]; unfold it1; rewrite <- iter_plus; f_equal; fold (ncalls l); lia|].
    split; [rewrite E2; cbn [ncalls fold_right]; unfold it2; rewrite <- iter_plus; f_equal; fold (ncalls l); lia|]. split.
    + intros i' Hi. rewrite E3 by lia. unfold x1. destruct (Nat.eqb_spec i' i); [lia|reflexivity].
    + intros [|k] d' E; cbn [nth_error] in E.
      * injection E as <-. cbn [firstn ncalls fold_right it1 it2 iter nth_error]. rewrite Nat.add_0_r. split; [reflexivity|]. rewrite E3 by lia. unfold x1. now rewrite Nat.eqb_refl.
      * destruct (E4 k d' E) as [A1 A2]. cbv zeta in A1, A2. cbn [nth_error firstn ncalls fold_right]. fold (ncalls (firstn k l)). rewrite Nat.add_succ_r. change (S (i + k)) with (S i + k)%nat.
        unfold x1 in A1, A2 at 2. replace (S i + k =? i)%nat with false in A1, A2 by (symmetry; apply Nat.eqb_neq; lia).
        unfold it1, it2 in *. rewrite <- !iter_plus in A1, A2. rewrite (Nat.add_comm (length _)). auto.
Qed.
End Fold.

Local Open Scope R_scope.
(** ** the pairs of a layer *)
Lemma conv_pairs_nodup n : NoDup (map RW (zrange 0 n) ++ [RB]) /\ NoDup (map RGradW (zrange 0 n) ++ [RGradB]).
Proof.
  assert (Z0 : NoDup (zrange 0 n)) by (unfold zrange; apply FinFun.Injective_map_NoDup; [intros x y Q; lia|apply seq_NoDup]).
  split; (rewrite <- rev_involutive; apply NoDup_rev; rewrite rev_app_distr; cbn; constructor; [rewrite <- in_rev; intros H; apply in_map_iff in H as (? & Q & _); discriminate|]; apply NoDup_rev;
    apply FinFun.Injective_map_NoDup; [intros x y Q; now injection Q|exact Z0]).
Qed.
Lemma pairs_fine (d : node R) : NoDup (map fst (n_pairs d)) /\ NoDup (map snd (n_pairs d)) /\ Forall (fun q => prole (fst q) = true /\ prole (snd q) = false) (n_pairs d).
Proof.
  unfold n_pairs. destruct (n_layer d) as [L|L|L|L|L|L]; try solve [split; [constructor|split; constructor]].
  - unfold rGB, rGW. destruct (f_acc L); cbn [map fst snd]; (split; [|split]); repeat constructor; cbn; intuition discriminate.
  - destruct (n_plan d) as [| g |]; try solve [split; [constructor|split; constructor]]. rewrite !map_app, !map_map. cbn [map fst snd]. destruct (conv_pairs_nodup (g_f g)) as [A B].
    split; [exact A|]. split; [exact B|]. apply Forall_app. split; [|repeat constructor]. apply Forall_forall. intros q Q. apply in_map_iff in Q as (f & <- & _). split; reflexivity.
Qed.
Lemma pairs_order (d : node R) : sound d -> map fst (n_pairs d) = layer_order (n_plan d).
Proof.
  intros (T1 & F & _). unfold n_pairs. destruct (n_layer d) as [L|L|L|L|L|L], (n_plan d) as [a n k|g|a q]; cbn [fits train_class] in *; try contradiction; try reflexivity.
  rewrite map_app, map_map. reflexivity.
Qed.
Lemma pairs_conv (d : node R) k r rg g : n_plan d = PConv g -> sound d -> nth_error (n_pairs d) k = Some (r, rg) -> rg = grad_role r.
Proof.
  intros Ep (T1 & F & _) E. apply nth_error_In in E. unfold n_pairs in E. rewrite Ep in *. destruct (n_layer d) as [L|L|L|L|L|L]; cbn [fits train_class] in *; try contradiction.
  apply in_app_or in E as [E|[E|[]]]; [apply in_map_iff in E as (f & E & _)|]; injection E as <- <-; reflexivity.
Qed.
Lemma prole_params r : prole r = true -> params_role r. Proof. destruct r; cbn; intros; try discriminate; exact Logic.I. Qed.
Lemma scaled_param alpha (d : node R) r j : params_role r -> n_scaled alpha d r j = n_data d r j.
Proof.
  intros P. unfold n_scaled, fc_scaled, conv_scaled, rGB, rGW. destruct (n_layer d) as [L|L|L|L|L|L]; try reflexivity.
  - destruct (f_acc L), r; try destruct P; rewrite !set_role_other by discriminate; reflexivity.
  - destruct r; try destruct P; reflexivity.
Qed.
Lemma scaled_flagged alpha (d : node R) k r rg j : sound d -> flagged d -> nth_error (n_pairs d) k = Some (r, rg) -> n_scaled alpha d rg j = alpha * acc (n_plan d) (n_data d) r j.
Proof.
  intros (T1 & F & _) Fl E. apply nth_error_In in E. unfold n_pairs, n_scaled, flagged in *.
  destruct (n_layer d) as [L|L|L|L|L|L], (n_plan d) as [a n k'|g|a q]; cbn [fits train_class] in *; try contradiction.
  - unfold fc_scaled, rGB, rGW in *. rewrite Fl in *. destruct E as [E|[E|[]]]; injection E as <- <-.
    + rewrite set_role_other, set_role_same, scaled_R by discriminate. cbn [acc]. ring.
    + rewrite set_role_same, scaled_R. cbn [acc Z.eqb]. ring.
  - unfold conv_scaled. apply in_app_or in E as [E|[E|[]]]; [apply in_map_iff in E as (f & E & _)|]; injection E as <- <-; cbn [acc mul Num_R]; ring.
Qed.
(** without accumulation: the gradients of the last sample *)
Lemma scaled_unflagged (d d2 : node R) k r rg j : sound d -> unflagged d -> one_sample d d2 -> nth_error (n_pairs d2) k = Some (r, rg) ->
  n_scaled 1 d2 rg j = gained (n_plan d) (n_data d) (n_data d2) r j + match n_plan d with PConv _ => n_data d (grad_role r) j | _ => 0 end.
Proof.
  intros (T1 & F & _) U (EL & (EP & _) & _ & _) E. apply nth_error_In in E. unfold n_pairs, n_scaled, unflagged in *. rewrite EL, EP in *.
  destruct (n_layer d) as [L|L|L|L|L|L], (n_plan d) as [a n k'|g|a q]; cbn [fits train_class] in *; try contradiction.
  - unfold fc_scaled, rGB, rGW in *. rewrite U in *. destruct E as [E|[E|[]]]; injection E as <- <-.
    + rewrite set_role_other, set_role_same, scaled_R by discriminate. cbn [gained]. ring.
    + rewrite set_role_same, scaled_R. cbn [gained Z.eqb]. ring.
  - unfold conv_scaled. apply in_app_or in E as [E|[E|[]]]; [apply in_map_iff in E as (f & E & _)|]; injection E as <- <-; cbn [gained grad_role mul Num_R]; ring.
Qed.

(** ** positions in the order of an update *)
Definition order_len (ps : list plan) : nat := length (update_order ps).
Lemma order_from_len ps : forall i, length (order_from i ps) = fold_right (fun p k => length (layer_order p) + k)%nat O ps.
Proof. induction ps as [|p ps IH]; intros i; [reflexivity|]. cbn [order_from fold_right]. rewrite app_length, map_length, IH. reflexivity. Qed.
Lemma ncalls_order (l : list (node R)) : Forall sound l -> ncalls l = order_len (plans l).
Proof.
  unfold order_len, update_order. rewrite order_from_len. induction 1 as [|d l S F IH]; [reflexivity|]. cbn [ncalls plans map fold_right]. fold (ncalls l). fold (plans l). rewrite IH.
  rewrite <- (pairs_order d S), map_length. reflexivity.
Qed.
Lemma order_position ps : forall i0 i p r, nth_error ps i = Some p -> forall k, nth_error (layer_order p) k = Some r ->
  nth_error (order_from i0 ps) (length (order_from 0 (firstn i ps)) + k) = Some ((i0 + i)%nat, r).
Proof.
  induction ps as [|q ps IH]; intros i0 [|i] p r E k Ek; cbn [nth_error] in E; try discriminate.
  - injection E as ->. cbn [firstn order_from length Nat.add]. rewrite nth_error_app1; [|rewrite map_length; apply nth_error_Some; congruence]. rewrite nth_error_map, Ek. cbn. now rewrite Nat.add_0_r.
  - cbn [firstn order_from]. rewrite app_length, map_length. rewrite nth_error_app2; [|rewrite map_length; lia]. rewrite map_length.
    rewrite (order_from_len (firstn i ps) 1%nat), <- (order_from_len (firstn i ps) O).
    replace (length (layer_order q) + length (order_from 0 (firstn i ps)) + k - length (layer_order q))%nat with (length (order_from 0 (firstn i ps)) + k)%nat by lia.
    rewrite (IH (S i0) i p r E k Ek). do 2 f_equal. lia.
Qed.
Lemma param_ordered p r j : is_param p r j -> exists k, nth_error (layer_order p) k = Some r.
Proof.
  intros P. apply In_nth_error. destruct p as [a n k|g|a q], r; cbn [is_param layer_order] in *; try contradiction.
  - now left.
  - destruct P as [-> _]. right. now left.
  - apply in_or_app. right. now left.
  - apply in_or_app. left. apply in_map. apply in_zrange. lia.
Qed.

(** ** one update of the whole network *)
Section Runs.
Context (lo : loss) (xs ys : Z -> Z -> R) (kd : opt_kind R) (lr : R).
Notation nst := (nst (T := R)).
Definition est_at (l : list (node R)) (x : nat -> role -> Z -> R * R) (i : nat) (r : role) (j : Z) : est :=
  mk_est (datas l i r j) (fst (x i r j)) (snd (x i r j)).
Definition call_no (ps : list plan) (i k : nat) : nat := S (length (order_from 0 (firstn i ps)) + k).
Definition moved (st st' : nst) (G : nat -> contents R) : Prop :=
  plans (ns_l st') = plans (ns_l st) /\
  ns_t1 st' = it1 kd (order_len (plans (ns_l st))) (ns_t1 st) /\ ns_t2 st' = it2 kd (order_len (plans (ns_l st))) (ns_t2 st) /\
  forall i p k r j, nth_error (plans (ns_l st)) i = Some p -> nth_error (layer_order p) k = Some r -> let c := call_no (plans (ns_l st)) i k in
     est_at (ns_l st') (ns_x st') i r j = elem_step kd lr (it1 kd c (ns_t1 st)) (it2 kd c (ns_t2 st)) (est_at (ns_l st) (ns_x st) i r j) (G i r j) /\
     match p with PConv _ => datas (ns_l st') i (grad_role r) j = if scalesb kd then lr * G i r j else G i r j | _ => True end.
Lemma firstn_plans (l : list (node R)) k : plans (firstn k l) = firstn k (plans l).
Proof. unfold plans. symmetry. apply firstn_map. Qed.
Lemma firstn_sound k (l : list (node R)) : Forall sound l -> Forall sound (firstn k l).
Proof. intros F. apply Forall_forall. intros d Hd. rewrite Forall_forall in F. apply F. rewrite <- (firstn_skipn k l). apply in_or_app. now left. Qed.
Lemma net_moved alpha st l2 G : Forall sound l2 -> Forall2 same_params (ns_l st) l2 ->
  (forall i d2 k r rg j, nth_error l2 i = Some d2 -> nth_error (n_pairs d2) k = Some (r, rg) -> n_scaled alpha d2 rg j = G i r j) ->
  let st' := o_net kd lr alpha (with_l st l2) in moved st st' G /\ Forall sound (ns_l st').
Proof.
  intros S F H st'.
  assert (Ep : plans l2 = plans (ns_l st)) by now apply same_plans.
  assert (Tl : forall d x t1 t2, In d l2 -> let q := o_layer kd lr alpha d x t1 t2 in os_t1 q = it1 kd (length (n_pairs d)) t1 /\ os_t2 q = it2 kd (length (n_pairs d)) t2).
  { intros d x t1 t2 _. destruct (pairs_fine d) as (N1 & N2 & Fp). destruct (t_fold kd lr (n_pairs d) (mk_ost (n_scaled alpha d) x t1 t2) N1 N2 Fp) as (E1 & E2 & _). auto. }
  destruct (layers_fold kd lr alpha l2 Tl 0 (ns_x st) (ns_t1 st) (ns_t2 st)) as (E1 & E2 & _ & E3). fold (o_net kd lr alpha (with_l st l2)) in E1, E2, E3.
  change (o_layers kd lr alpha 0 l2 (ns_x st) (ns_t1 st) (ns_t2 st)) with st' in E1, E2, E3.
  assert (Nd : forall i d2, nth_error l2 i = Some d2 -> exists q, q = o_layer kd lr alpha d2 (ns_x st i) (it1 kd (length (order_from 0 (firstn i (plans l2)))) (ns_t1 st)) (it2 kd (length (order_from 0 (firstn i (plans l2)))) (ns_t2 st)) /\
     nth_error (ns_l st') i = Some (with_data d2 (os_s q)) /\ ns_x st' i = os_x q).
  { intros i d2 Q. eexists. split; [reflexivity|]. destruct (E3 i d2 Q) as [A B]. cbv zeta in A, B. cbn [Nat.add] in A, B. rewrite (ncalls_order _ (firstn_sound i l2 S)) in A, B. unfold order_len, update_order in A, B.
    rewrite firstn_plans in A, B. auto. }
  split.
  - split; [unfold st'; now rewrite (proj2 (layers_o_net kd lr alpha _))|]. rewrite (ncalls_order l2 S), Ep in E1, E2. split; [exact E1|]. split; [exact E2|].
    intros i p k r j Q Qk c. pose proof Q as Qp. rewrite <- Ep in Qp. unfold plans in Qp. rewrite nth_error_map in Qp. destruct (nth_error l2 i) as [d2|] eqn:Ed2; [|discriminate]. injection Qp as Qp.
    assert (S2 : sound d2) by (rewrite Forall_forall in S; apply S; eapply nth_error_In; eauto).
    assert (exists rg, nth_error (n_pairs d2) k = Some (r, rg)) as (rg & Er).
    { rewrite <- Qp, <- (pairs_order d2 S2), nth_error_map in Qk. destruct (nth_error (n_pairs d2) k) as [[a b]|]; [|discriminate]. injection Qk as ->. eauto. }
    destruct (Nd i d2 Ed2) as (q & Eq & A & B). destruct (pairs_fine d2) as (N1 & N2 & Fp).
    destruct (t_fold kd lr (n_pairs d2) (mk_ost (n_scaled alpha d2) (ns_x st i) (it1 kd (length (order_from 0 (firstn i (plans l2)))) (ns_t1 st)) (it2 kd (length (order_from 0 (firstn i (plans l2)))) (ns_t2 st))) N1 N2 Fp) as (_ & _ & C & _).
    destruct (C k r rg j Er) as [C1 C2]. clear C. unfold o_layer in Eq. rewrite <- Eq in C1, C2.
    assert (Pr : params_role r). { apply prole_params. apply nth_error_In in Er. rewrite Forall_forall in Fp. apply (Fp _ Er). }
    split.
    + unfold est_at, datas. rewrite A, B. cbn [with_data n_data]. rewrite C1. unfold el. cbn [os_s os_x os_t1 os_t2]. rewrite (H i d2 k r rg j Ed2 Er), (scaled_param alpha d2 r j Pr).
      destruct (nth_error (ns_l st) i) as [d|] eqn:Ed.
      * destruct (nth_Forall2 _ _ _ F i d Ed) as (d2' & Ed2' & Sp). assert (d2' = d2) by congruence. subst d2'. rewrite (same_params_role d d2 r Sp Pr).
        unfold c, call_no. rewrite <- Ep. unfold it1, it2. rewrite <- !iter_plus. now rewrite (Nat.add_comm (Datatypes.S k)), <- plus_n_Sm.
      * exfalso. unfold plans in Q. rewrite nth_error_map, Ed in Q. discriminate.
    + destruct p as [| g |]; try exact Logic.I. unfold datas. rewrite A. cbn [with_data n_data]. rewrite <- (pairs_conv d2 k r rg g Qp S2 Er), C2. cbn [os_s]. rewrite (H i d2 k r rg j Ed2 Er). destruct (scalesb kd); [|reflexivity]. cbn [mul Num_R]. ring.
  - apply Forall_forall. intros d' Hd. apply In_nth_error in Hd as (i & Q). 
    assert (exists d2, nth_error l2 i = Some d2) as (d2 & Ed2).
    { destruct (nth_error l2 i) as [d2|] eqn:Ed2; [eauto|]. exfalso. apply nth_error_None in Ed2. assert (i < length (ns_l st'))%nat by (apply nth_error_Some; congruence).
      pose proof (f_equal (@length _) (proj2 (layers_o_net kd lr alpha (with_l st l2)))) as Q2. unfold plans in Q2. rewrite !map_length in Q2. cbn [with_l ns_l] in Q2. fold st' in Q2. lia. }
    destruct (Nd i d2 Ed2) as (q & Eq & A & _). assert (d' = with_data d2 (os_s q)) by congruence. subst d'. assert (S2 : sound d2) by (rewrite Forall_forall in S; apply S; eapply nth_error_In; eauto).
    pose proof S2 as (T1 & F1 & C1). split; [exact T1|]. split; [exact F1|]. cbn [with_data n_plan n_data]. destruct (n_plan d2) as [| g |] eqn:Epl; auto.
    eapply off_grid_role; [|exact C1]. apply functional_extensionality. intros j. destruct (pairs_fine d2) as (N1 & N2 & Fp).
    destruct (t_fold kd lr (n_pairs d2) (mk_ost (n_scaled alpha d2) (ns_x st i) (it1 kd (length (order_from 0 (firstn i (plans l2)))) (ns_t1 st)) (it2 kd (length (order_from 0 (firstn i (plans l2)))) (ns_t2 st))) N1 N2 Fp) as (_ & _ & _ & C).
    unfold o_layer in Eq. rewrite <- Eq in C. destruct (C RBuff j) as [C2 _].
    { intros Hi. apply in_map_iff in Hi as (z & Ez & Hi). rewrite Forall_forall in Fp. destruct (Fp z Hi) as [P1 _]. rewrite Ez in P1. discriminate. }
    rewrite C2; cbn [os_s].
    + unfold n_scaled. destruct (n_layer d2) as [L|L|L|L|L|L]; cbn [fits train_class] in *; try contradiction. reflexivity.
    + intros Hi. apply in_map_iff in Hi as ((z & z') & Ez & Hi). cbn [snd] in Ez. subst z'. apply In_nth_error in Hi as (k & Hk).
      pose proof (pairs_conv d2 k z RBuff g Epl S2 Hk) as Q2. apply nth_error_In in Hk. rewrite Forall_forall in Fp. destruct (Fp _ Hk) as [P1 _]. cbn [fst] in P1. destruct z; discriminate.
Qed.
Definition grads_fit (is : list Z) (l : list (node R)) (G : nat -> contents R) : Prop := smooth_on lo (to_model l) xs ys is ->
  forall i d r j, nth_error l i = Some d -> is_param (n_plan d) r j ->
  exists g, partial (fun v => mean_loss lo (with_param (to_model l) i r v) xs ys is) (n_data d r) j g /\
    G i r j = g + match n_plan d with PConv _ => / INR (length is) * n_data d (grad_role r) j | _ => 0 end.
Definition G_round (is : list Z) (l : list (node R)) : nat -> contents R := fun i r j => / INR (length is) * accs (summed lo xs ys is l) i r j.
Lemma round_moved is st s0 : is <> [] -> Forall sound (ns_l st) -> wired s0 (plans (ns_l st)) -> let st' := o_round lo xs ys kd lr st is in
  moved st st' (G_round is (ns_l st)) /\ Forall sound (ns_l st') /\ grads_fit is (ns_l st) (G_round is (ns_l st)).
Proof.
  intros Hi S W st'. destruct (summed_inv lo xs ys is (ns_l st) Hi S) as (S2 & F2 & G2).
  destruct (net_moved (div one (ofZ (Z.of_nat (length is)))) st (summed lo xs ys is (ns_l st)) (G_round is (ns_l st)) S2 F2) as [M Sd].
  { intros i d2 k r rg j E Er. rewrite alpha_R. rewrite Forall_forall in S2, G2. pose proof (nth_error_In _ _ E) as Q.
    rewrite (scaled_flagged (/ INR (length is)) d2 k r rg j (S2 d2 Q) (G2 d2 Q) Er). unfold G_round, accs. now rewrite E. }
  split; [exact M|]. split; [exact Sd|]. intros Sm i d r j E P. exists (mean_grad lo xs ys is (ns_l st) i r j). split; [now apply (mean_partial lo xs ys is (ns_l st) s0 i d r j)|].
  unfold mean_grad, G_round. rewrite (reset_accs (ns_l st) i d r j S E (is_param_role _ _ _ P)). destruct (n_plan d); ring.
Qed.
Definition G_step (i : Z) (l : list (node R)) : nat -> contents R := fun i' r j =>
  match nth_error l i', nth_error (l_sample lo (xs i) (ys i) l) i' with
  | Some d, Some d2 => gained (n_plan d) (n_data d) (n_data d2) r j + match n_plan d with PConv _ => n_data d (grad_role r) j | _ => 0 end
  | _, _ => 0
  end.
Lemma step_moved i st s0 : Forall sound (ns_l st) -> Forall unflagged (ns_l st) -> wired s0 (plans (ns_l st)) -> let st' := o_step lo xs ys kd lr st i in
  moved st st' (G_step i (ns_l st)) /\ (Forall sound (ns_l st') /\ Forall unflagged (ns_l st')) /\ grads_fit [i] (ns_l st) (G_step i (ns_l st)).
Proof.
  intros S U W st'. pose proof (sample_nodes lo (xs i) (ys i) (ns_l st)) as Fs. set (l2 := l_sample lo (xs i) (ys i) (ns_l st)) in *.
  assert (Bk : forall i' d2, nth_error l2 i' = Some d2 -> exists d, nth_error (ns_l st) i' = Some d /\ one_sample d d2).
  { clear -Fs. induction Fs as [|a b l l' H F IH]; intros [|k] c E; cbn in *; try discriminate; eauto. injection E as <-. eauto. }
  destruct (net_moved one st l2 (G_step i (ns_l st)) (one_sample_sound _ _ Fs S) (one_sample_same _ _ Fs)) as [M Sd].
  { intros i' d2 k r rg j E Er. destruct (Bk i' d2 E) as (d & Ed & Os). rewrite Forall_forall in S, U. pose proof (nth_error_In _ _ Ed) as Q.
    change (one (T := R)) with 1. rewrite (scaled_unflagged d d2 k r rg j (S d Q) (U d Q) Os Er). unfold G_step. fold l2. now rewrite Ed, E. }
  split; [exact M|]. split; [split; [exact Sd|]|].
  - pose proof (proj1 (layers_o_net kd lr one (with_l st l2))) as Q. cbn [with_l ns_l] in Q. unfold l2 in Q at 2. rewrite layers_sample in Q. fold st' in Q.
    apply Forall_forall. intros d' Hd. assert (In (n_layer d') (layers (ns_l st))) as Hi. { rewrite <- Q. unfold layers. now apply in_map. }
    unfold layers in Hi. apply in_map_iff in Hi as (d & El & Hi). rewrite Forall_forall in U. specialize (U d Hi). unfold unflagged in *. now rewrite El in U.
  - intros Sm i' d r j E P. destruct (step_step lo xs ys 1 i (ns_l st) s0 S U W Sm) as [_ H]. destruct (H i' (n_plan d) (n_data d) (nth_to_model _ _ _ E)) as (s' & Es & Hp).
    destruct (Hp r j P) as (g & Pg & Eg). exists g. split; [exact Pg|]. destruct (nth_Forall2 _ _ _ Fs i' d E) as (d2 & E2 & Os). unfold G_step. fold l2. rewrite E, E2.
    assert (Es' : s' = n_data (n_update 1 1 d2)).
    { pose proof (map_nth_error (n_update (T := R) 1 one) i' l2 E2) as Q. change (map (n_update 1 one) l2) with (l_step lo xs ys 1 (ns_l st) i) in Q. apply nth_to_model in Q. pose proof (eq_trans (eq_sym Es) Q) as Q'. exact (f_equal (fun z => match z with Some (_, w) => w | None => s' end) Q'). }
    subst s'. assert (Sd' : sound d) by (rewrite Forall_forall in S; apply S; eapply nth_error_In; eauto). assert (Ud : unflagged d) by (rewrite Forall_forall in U; apply U; eapply nth_error_In; eauto).
    pose proof (proj1 (update_unflagged 1 d d2 r j Sd' Ud Os (is_param_role _ _ _ P))) as Q. replace (INR (length [i])) with 1 in * by reflexivity. rewrite Rinv_1 in *.
    destruct (n_plan d) as [a n k|q|a q]; [|destruct Eg as [Eg _]|]; lra.
Qed.

(** ** along a run *)
Definition e_fold (w v s : R) (cs : list (nat * (R * R))) : est :=
  fold_left (fun x c => elem_step kd (fst (snd c)) (it1 kd (fst c) 1) (it2 kd (fst c) 1) x (snd (snd c))) cs (mk_est w v s).
Lemma run_trained o (f : nst -> list Z -> nst) (Gf : list Z -> list (node R) -> nat -> contents R) (Inv : list (node R) -> Prop) s0 l iss :
  (forall w cs, rule o w cs = e_w (e_fold w 0 0 cs)) -> rescales o = scalesb kd -> o_lr o = lr ->
  (forall st is, In is iss -> Inv (ns_l st) -> wired s0 (plans (ns_l st)) -> moved st (f st is) (Gf is (ns_l st)) /\ Inv (ns_l (f st is)) /\ grads_fit is (ns_l st) (Gf is (ns_l st))) ->
  Inv l -> wired s0 (plans l) -> trained_by o lo xs ys iss (to_model l) (to_model (ns_l (fold_left f iss (mk_nst l (fun _ _ _ => (0, 0)) 1 1)))).
Proof.
  intros Hr Hs El H I W. set (S0 := mk_nst l (fun _ _ _ => (0, 0)) 1 1). set (Se := fun e => fold_left f (firstn e iss) S0). set (K := order_len (plans l)).
  assert (Sn : forall e is, nth_error iss e = Some is -> Se (S e) = f (Se e) is).
  { intros e is E. unfold Se. replace (firstn (S e) iss) with (firstn e iss ++ [is]); [now rewrite fold_left_app|]. clear -E. revert e E. induction iss as [|a t IH]; intros [|e] E; cbn in E; try discriminate; [injection E as ->; reflexivity|].
    cbn [firstn app]. f_equal. now apply IH. }
  assert (B : forall e, (e <= length iss)%nat -> Inv (ns_l (Se e)) /\ plans (ns_l (Se e)) = plans l /\ ns_t1 (Se e) = it1 kd (e * K) 1 /\ ns_t2 (Se e) = it2 kd (e * K) 1).
  { induction e as [|e IH]; intros He; [repeat split; auto|]. destruct (IH ltac:(lia)) as (I1 & P1 & T1 & T2). destruct (nth_error iss e) as [is|] eqn:E; [|apply nth_error_None in E; lia].
    rewrite (Sn e is E). destruct (H (Se e) is (nth_error_In _ _ E) I1 ltac:(now rewrite P1)) as ((M1 & M2 & M3 & _) & I2 & _). split; [exact I2|]. split; [congruence|]. rewrite P1 in M2, M3. fold K in M2, M3.
    rewrite M2, M3, T1, T2. unfold it1, it2. rewrite <- !iter_plus. cbn [Nat.mul]. auto. }
  exists (fun e => to_model (ns_l (Se e))), (fun e => Gf (nth e iss []) (ns_l (Se e))).
  assert (Nn : forall e is, nth_error iss e = Some is -> nth e iss [] = is) by (intros e is E; apply nth_error_nth with (d := []) in E; exact E).
  assert (Mp : forall e, (e <= length iss)%nat -> map fst (to_model (ns_l (Se e))) = plans l).
  { intros e He. destruct (B e He) as (_ & P1 & _). rewrite <- P1. unfold to_model. rewrite map_map. reflexivity. }
  assert (Ml : map fst (to_model l) = plans l) by (unfold to_model; rewrite map_map; reflexivity).
  split; [reflexivity|]. split; [unfold Se; now rewrite firstn_all|]. split; [intros e He; rewrite Ml; now apply Mp|]. split.
  - intros e is i p s r j E En P. rewrite (Nn e is E). assert (He : (e < length iss)%nat) by (apply nth_error_Some; congruence). destruct (B e ltac:(lia)) as (I1 & P1 & _).
    destruct (H (Se e) is (nth_error_In _ _ E) I1 ltac:(now rewrite P1)) as ((M1 & _ & _ & M4) & _ & Gr). unfold to_model in En. rewrite nth_error_map in En. destruct (nth_error (ns_l (Se e)) i) as [d|] eqn:Ed; [|discriminate]. injection En as <- <-. split.
    + intros Sm. exact (Gr Sm i d r j Ed P).
    + intros s' Es. rewrite (Sn e is E) in Es. destruct (param_ordered _ _ _ P) as (k & Hk). destruct (M4 i (n_plan d) k r j (map_nth_error n_plan i _ Ed) Hk) as [_ M]. rewrite Hs, El.
      destruct (n_plan d) as [| g |]; auto. unfold to_model in Es. rewrite nth_error_map in Es. destruct (nth_error (ns_l (f (Se e) is)) i) as [d'|] eqn:Ed'; [|discriminate]. injection Es as Es1 Es2.
      unfold datas in M. rewrite Ed' in M. rewrite <- Es2. exact M.
  - intros e i p sa s r j He En0 En P. rewrite Ml. fold K. destruct (param_ordered _ _ _ P) as (k & Hk).
    assert (Ep : nth_error (plans l) i = Some p). { rewrite <- Ml. rewrite nth_error_map, En0. reflexivity. }
    exists (length (order_from 0 (firstn i (plans l))) + k)%nat. split; [exact (order_position (plans l) 0 i p r Ep k Hk)|].
    assert (Es : forall e, (e <= length iss)%nat -> est_at (ns_l (Se e)) (ns_x (Se e)) i r j =
      e_fold (sa r j) 0 0 (map (fun e' => ((e' * length (update_order (plans l)) + (length (order_from 0 (firstn i (plans l))) + k) + 1)%nat, (o_lr o, Gf (nth e' iss []) (ns_l (Se e')) i r j))) (seq 0 e))).
    { clear e He En s. induction e as [|e IH]; intros He.
      - cbn [seq map e_fold fold_left]. unfold e_fold. cbn [fold_left]. unfold est_at, Se. cbn [firstn fold_left S0 ns_l ns_x fst snd]. unfold datas. unfold to_model in En0. rewrite nth_error_map in En0.
        destruct (nth_error l i) as [d|]; [|discriminate]. injection En0 as <- <-. reflexivity.
      - specialize (IH ltac:(lia)). rewrite seq_S, map_app. unfold e_fold in *. rewrite fold_left_app, <- IH. cbn [map fold_left fst snd Nat.add].
        destruct (nth_error iss e) as [is|] eqn:E; [|apply nth_error_None in E; lia]. rewrite (Sn e is E), (Nn e is E). destruct (B e ltac:(lia)) as (I1 & P1 & T1 & T2).
        destruct (H (Se e) is (nth_error_In _ _ E) I1 ltac:(now rewrite P1)) as ((_ & _ & _ & M4) & _ & _). destruct (M4 i p k r j ltac:(now rewrite P1) Hk) as [M _]. rewrite M, El, P1, T1, T2. unfold call_no.
        unfold it1, it2. rewrite <- !iter_plus. unfold K, order_len.
        replace (S (length (order_from 0 (firstn i (plans l))) + k) + e * length (update_order (plans l)))%nat with (e * length (update_order (plans l)) + (length (order_from 0 (firstn i (plans l))) + k) + 1)%nat by lia. reflexivity. }
    specialize (Es e He). rewrite Hr, <- Es. cbn [e_w est_at]. unfold datas. unfold to_model in En. rewrite nth_error_map in En. destruct (nth_error (ns_l (Se e)) i) as [d|]; [|discriminate]. injection En as <- <-. reflexivity.
Qed.
End Runs.

(** ** the rules are folds of the element step *)
Lemma it1_other kd n (t : R) : not_adam kd -> it1 kd n t = t.
Proof. intros H. unfold it1. induction n as [|n IH]; [reflexivity|]. cbn [iter]. rewrite IH. destruct kd; try reflexivity. destruct H. Qed.
Lemma rule_fold lr o : OptTrainSpec.new_optimizer lr o -> forall w cs, rule o w cs = e_w (e_fold (o_kind o) w 0 0 cs).
Proof.
  intros Ho. destruct Ho as [|decay|mu|mu| |beta|b1 b2]; intros w cs; unfold rule; cbn [o_kind grad_descent sto_grad_descent momentum_opt nestorov_opt ada_grad rms_prop adam opt_new].
  1-6: match goal with |- _ = e_w (e_fold ?kd _ _ _ _) => set (kd0 := kd) end.
  - enough (G : forall w v s, gd_rule w (map snd cs) = e_w (e_fold kd0 w v s cs)) by apply G. induction cs as [|[n [lr1 g]] cs IH]; intros x v s; [reflexivity|].
    unfold e_fold in *. cbn [map fold_left fst snd elem_step gd_rule kd0]. rewrite <- IH. f_equal. cbn [sub mul Num_R]. ring.
  - enough (G : forall w v s, sgd_rule (sub one (mul lr decay)) w (map snd cs) = e_w (e_fold kd0 w v s cs)) by apply G. induction cs as [|[n [lr1 g]] cs IH]; intros x v s; [reflexivity|].
    unfold e_fold in *. cbn [map fold_left fst snd elem_step sgd_rule kd0]. rewrite <- IH. f_equal. cbn [sub mul Num_R]. ring.
  - enough (G : forall w v s, momentum_rule mu w v (map snd cs) = e_w (e_fold kd0 w v s cs)) by apply G. induction cs as [|[n [lr1 g]] cs IH]; intros x v s; [reflexivity|].
    unfold e_fold in *. cbn [map fold_left fst snd elem_step momentum_rule kd0]. cbv zeta. rewrite <- IH. cbn [add sub mul Num_R]. f_equal; ring.
  - enough (G : forall w v s, nestorov_rule mu w v (map snd cs) = e_w (e_fold kd0 w v s cs)) by apply G. induction cs as [|[n [lr1 g]] cs IH]; intros x v s; [reflexivity|].
    unfold e_fold in *. cbn [map fold_left fst snd elem_step nestorov_rule kd0]. cbv zeta. rewrite <- IH. cbn [add sub mul Num_R]. f_equal; ring.
  - enough (G : forall w v s, adagrad_rule w v (map snd cs) = e_w (e_fold kd0 w v s cs)) by apply G. induction cs as [|[n [lr1 g]] cs IH]; intros x v s; [reflexivity|].
    unfold e_fold in *. cbn [map fold_left fst snd elem_step adagrad_rule kd0]. cbv zeta. rewrite <- IH, inv_sqrt_R. cbn [add sub mul Num_R]. replace (v + g * g) with (v + g ^ 2) by ring. f_equal. unfold Rdiv. ring.
  - enough (G : forall w v s, rmsprop_rule beta w v (map snd cs) = e_w (e_fold kd0 w v s cs)) by apply G. induction cs as [|[n [lr1 g]] cs IH]; intros x v s; [reflexivity|].
    unfold e_fold in *. cbn [map fold_left fst snd elem_step rmsprop_rule kd0]. cbv zeta. rewrite <- IH, inv_sqrt_R. cbn [add sub mul one Num_R].
    replace (v * beta + g * g * (1 - beta)) with (beta * v + (1 - beta) * g ^ 2) by ring. f_equal. unfold Rdiv. ring.
  - match goal with |- _ = e_w (e_fold ?kd _ _ _ _) => set (kd0 := kd) end.
    assert (P1 : forall n, it1 kd0 n 1 = b1 ^ n). { induction n as [|n IH]; [reflexivity|]. unfold it1 in *. cbn [iter next_t1 kd0 pow]. fold kd0. rewrite IH. cbn [mul Num_R]. ring. }
    assert (P2 : forall n, it2 kd0 n 1 = b2 ^ n). { induction n as [|n IH]; [reflexivity|]. unfold it2 in *. cbn [iter next_t2 kd0 pow]. fold kd0. rewrite IH. cbn [mul Num_R]. ring. }
    enough (G : forall w v s, adam_rule b1 b2 w v s cs = e_w (e_fold kd0 w v s cs)) by apply G. induction cs as [|[n [lr1 g]] cs IH]; intros x v s; [reflexivity|].
    unfold e_fold in *. cbn [fold_left fst snd adam_rule]. rewrite P1, P2. cbn [elem_step kd0]. cbv zeta. rewrite <- IH, inv_sqrt_R. cbn [add sub mul div one Num_R].
    replace (v * b1 + (1 - b1) * g) with (b1 * v + (1 - b1) * g) by ring. replace (s * b2 + g * g * (1 - b2)) with (b2 * s + (1 - b2) * g ^ 2) by ring.
    f_equal. replace (1 / (1 - b2 ^ n) * (b2 * s + (1 - b2) * g ^ 2)) with ((b2 * s + (1 - b2) * g ^ 2) / (1 - b2 ^ n)) by (unfold Rdiv; ring). unfold Rdiv. ring.
Qed.
Lemma rescales_kind (o : opt R) : rescales o = scalesb (o_kind o). Proof. unfold rescales, scalesb. destruct (o_kind o); reflexivity. Qed.

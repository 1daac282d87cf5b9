(** * The order of the samples in a batch does not matter in exact arithmetic (proofs for C108) *)
From Coq Require Import Reals Lra FunctionalExtensionality Permutation.
From Verif Require Import Mem Scalar MemSpec MemLemmas Lique LiqueSpec LiqueProofs LiqueProofs2 Linear LinearProofs Functions FunctionSpec FunctionProofs
  Optimizer OptimizerSpec OptimizerProofs OptimizerHist Layer LayerSpec FCProofs Cells ConvSpec ConvProofs ConvProofs2 PoolSpec PoolProofs RSum RealSpec NetSpec Vjp ConvVjp
  PropFC PropConv PropPool Net NetPlan NetProofs NetBack PropNet NetReal NetGrad PropNetGrad Schedule Descent DescentSpec DescentReal OptTrain OptTrainReal.
Open Scope Z_scope.

(** a cell of the spread buffer that back-propagation never writes *)
Definition off_cell (g : geometry) (o : Z) : bool := negb (((o / spread_w g) mod spread_h g) mod g_vs g =? 0) || negb ((o mod spread_w g) mod g_hs g =? 0).
Definition proper (d : node R) : Prop := match n_plan d, n_layer d with PDense _ _ _, LFC _ => True | PConv g, LConv _ => geometry_ok g | _, _ => False end.
(** same plan, parameters and unwritten cells *)
Definition weak (d d' : node R) : Prop :=
  n_plan d' = n_plan d /\ (forall r, params_role r -> n_data d' r = n_data d r) /\
  match n_plan d with PConv g => forall o, off_cell g o = true -> n_data d' RBuff o = n_data d RBuff o | _ => True end.
(** .. and the outputs of a forward pass *)
Definition passed (d d' : node R) : Prop :=
  weak d d' /\ n_data d' RValue = n_data d RValue /\ match n_plan d with PDense _ _ _ => n_data d' RBuff = n_data d RBuff | _ => True end.
Lemma weak_refl d : weak d d.
Proof. split; [reflexivity|]. split; [reflexivity|]. destruct (n_plan d); auto. Qed.
Lemma weak_sym d d' : weak d d' -> weak d' d.
Proof. intros (A & B & C). split; [auto|]. split; [intros; symmetry; auto|]. rewrite A. destruct (n_plan d); auto. intros. symmetry. auto. Qed.
Lemma weak_trans d1 d2 d3 : weak d1 d2 -> weak d2 d3 -> weak d1 d3.
Proof.
  intros (A & B & C) (A' & B' & C'). split; [congruence|]. split; [intros; rewrite B' by auto; auto|]. rewrite A in C'. destruct (n_plan d1); auto. intros. rewrite C' by auto. auto.
Qed.
Lemma weak_out d d' x : proper d -> weak d d' -> node_out d' x = node_out d x.
Proof.
  intros P (A & B & _). unfold node_out. rewrite A. unfold proper in P. destruct (n_plan d) as [a n k|g|a q].
  - now rewrite !B by exact Logic.I.
  - rewrite B by exact Logic.I. f_equal. apply functional_extensionality. intros f. now rewrite B by exact Logic.I.
  - destruct P.
Qed.
Lemma fwd_params (d : node R) x r : params_role r -> n_data (fwd d x) r = n_data d r.
Proof. intros P. cbn [fwd n_data]. apply after_forward_other; intros ->; destruct P. Qed.
Lemma fwd_conv_buff (d : node R) x g : n_plan d = PConv g -> n_data (fwd d x) RBuff = n_data d RBuff.
Proof. intros E. cbn [fwd n_data]. unfold after_forward. rewrite E. destruct (n_layer d); reflexivity. Qed.
Lemma fwd_weak d x : weak d (fwd d x).
Proof.
  split; [reflexivity|]. split; [intros; now apply fwd_params|]. destruct (n_plan d) as [| g |] eqn:E; auto. intros o _. now rewrite (fwd_conv_buff d x g E).
Qed.
Lemma proper_weak_layer d d' : proper d -> weak d d' -> proper d' -> match n_plan d with PDense _ _ _ => exists L L', n_layer d = LFC L /\ n_layer d' = LFC L' | _ => True end.
Proof. intros P (A & _) P'. unfold proper in *. rewrite A in P'. destruct (n_plan d); auto. destruct (n_layer d), (n_layer d'); try contradiction. eauto. Qed.
Lemma fwd_passed d d' x : proper d -> proper d' -> weak d d' -> passed (fwd d x) (fwd d' x).
Proof.
  intros P P' W. pose proof (weak_out d d' x P W) as O. split; [|split].
  - eapply weak_trans; [apply weak_sym, fwd_weak|]. eapply weak_trans; [exact W|apply fwd_weak].
  - cbn [fwd n_data]. now rewrite !after_forward_value.
  - pose proof (proper_weak_layer d d' P W P') as Q. destruct W as (A & B & _). cbn [fwd n_plan n_data]. unfold after_forward. rewrite A. destruct (n_plan d) as [a n k| |]; auto.
    destruct Q as (L & L' & -> & ->). rewrite !(set_role_other _ RValue _ RBuff), !set_role_same by discriminate. now rewrite !B by exact Logic.I.
Qed.
Lemma run_fwd_passed l l' : Forall2 weak l l' -> Forall proper l -> Forall proper l' -> forall x, Forall2 passed (run_fwd l x) (run_fwd l' x) /\ net_out l' x = net_out l x.
Proof.
  induction 1 as [|d d' l l' W F IH]; intros P P' x; [split; [constructor|reflexivity]|]. apply Forall_cons_iff in P as [P1 P2]. apply Forall_cons_iff in P' as [P1' P2'].
  cbn [run_fwd]. pose proof (weak_out d d' x P1 W) as E. destruct (IH P2 P2' (node_out d x)) as [A B]. rewrite E. split; [constructor; [now apply fwd_passed|exact A]|].
  change (net_out l' (node_out d' x) = net_out l (node_out d x)). rewrite E. exact B.
Qed.
(** ** back-propagation *)
Lemma flat3_same h w (old : Z -> R) o : 1 <= h -> 1 <= w -> at3 h w (o / w / h) ((o / w) mod h) (o mod w) = o.
Proof.
  intros Hh Hw. unfold at3. pose proof (Z.div_mod o w ltac:(lia)). pose proof (Z.div_mod (o / w) h ltac:(lia)).
  replace ((o / w / h * h + (o / w) mod h) * w + o mod w) with (w * (h * (o / w / h) + (o / w) mod h) + o mod w) by ring. rewrite <- H0. lia.
Qed.
Lemma spread_off g (x : Z -> R) s o : geometry_ok g -> off_cell g o = true -> spread_flat g x s o = s RBuff o.
Proof.
  intros G C. unfold spread_flat, flat3, spread_val. unfold off_cell in C.
  destruct ((o / spread_w g) mod spread_h g mod g_vs g =? 0), (o mod spread_w g mod g_hs g =? 0); cbn in C; try discriminate; cbn [andb]; f_equal;
    apply (flat3_same (spread_h g) (spread_w g) (s RBuff) o (spread_h_pos g G) (spread_w_pos g G)).
Qed.
Lemma spread_eq g (x : Z -> R) (s s' : contents R) : geometry_ok g -> (forall o, off_cell g o = true -> s' RBuff o = s RBuff o) -> spread_flat g x s' = spread_flat g x s.
Proof.
  intros G H. apply functional_extensionality. intros o. destruct (off_cell g o) eqn:C.
  - rewrite !spread_off by auto. auto.
  - unfold spread_flat, flat3, spread_val. unfold off_cell in C. destruct ((o / spread_w g) mod spread_h g mod g_vs g =? 0), (o mod spread_w g mod g_hs g =? 0); cbn in C; try discriminate. reflexivity.
Qed.
Lemma gained_fwd d x s2 : gained (n_plan d) (n_data (fwd d x)) s2 = gained (n_plan d) (n_data d) s2.
Proof.
  apply functional_extensionality. intros r. apply functional_extensionality. intros j. unfold gained. cbn [fwd n_data]. destruct (n_plan d); auto; destruct r; auto; now rewrite after_forward_other by discriminate.
Qed.
Lemma bwd_rel d d' x dl full : proper d -> proper d' -> passed d d' -> let e := bwd d x dl full in let e' := bwd d' x dl full in
  weak d e /\ (forall r j, gained (n_plan d) (n_data d') (n_data e') r j = gained (n_plan d) (n_data d) (n_data e) r j) /\ (full = true -> n_data e' RDelta = n_data e RDelta) /\ proper e.
Proof.
  intros P P' ((A & B & C) & Ev & Eb). cbv zeta. unfold bwd, after_backward, weak. cbn [n_plan n_data n_layer]. rewrite A. unfold proper in *. rewrite A in P'. cbn [n_plan n_layer].
  destruct (n_plan d) as [a n k|g|a q]; [| |destruct P].
  - assert (Eg : fc_gradB a (n_data d') dl = fc_gradB a (n_data d) dl) by (unfold fc_gradB; now rewrite Eb).
    assert (Ew : fc_gradW k a (n_data d') x dl = fc_gradW k a (n_data d) x dl) by (unfold fc_gradW; now rewrite Eg).
    assert (Ed : fc_delta k a (n_data d') dl = fc_delta k a (n_data d) dl) by (unfold fc_delta; rewrite Eg; now rewrite B by exact Logic.I).
    split; [|split; [|split; [|exact P]]].
    + split; [reflexivity|]. split; [|exact Logic.I]. intros r Pr. unfold fc_after_backward. cbv zeta. destruct full; rewrite !set_role_other by (intros ->; destruct Pr); reflexivity.
    + intros r j. unfold gained, fc_after_backward. cbv zeta. rewrite Eg, Ew. destruct r; auto; destruct full; try (destruct (f =? 0)); auto;
        rewrite ?(set_role_other _ RDelta) by discriminate; rewrite ?set_role_same; rewrite ?(set_role_other _ (RGradW 0) _ RGradB) by discriminate; rewrite ?set_role_same; reflexivity.
    + intros ->. unfold fc_after_backward. cbv zeta. now rewrite !set_role_same.
  - destruct (n_layer d); try contradiction. destruct (n_layer d'); try contradiction. rename P into G.
    pose proof (spread_eq g dl (n_data d) (n_data d') G C) as Es.
    set (s1 := set_role (n_data d) RBuff (spread_flat g dl (n_data d))). set (s1' := set_role (n_data d') RBuff (spread_flat g dl (n_data d'))).
    assert (E3 : buff3 g s1' = buff3 g s1). { unfold buff3, s1, s1'. rewrite !set_role_same. now rewrite Es. }
    split; [|split; [|split; [|exact G]]].
    + split; [reflexivity|]. split.
      * intros r Pr. unfold conv_after_backward. cbv zeta. rewrite set_role_other by (intros ->; destruct Pr). unfold conv_after_grads. destruct r; try destruct Pr; apply functional_extensionality; intros o; now rewrite set_role_other by discriminate.
      * intros o Co. unfold conv_after_backward. cbv zeta. rewrite set_role_other by discriminate. cbn [conv_after_grads]. rewrite set_role_same. now apply spread_off.
    + intros r j. unfold gained, conv_after_backward. cbv zeta. fold s1 s1'. destruct r; auto; rewrite !(set_role_other _ RDelta) by discriminate; cbn [conv_after_grads].
      * rewrite !gradb_val_R. rewrite E3. unfold s1, s1'. rewrite !set_role_other by discriminate. ring.
      * rewrite !gradw_val_R. rewrite E3. unfold s1, s1'. rewrite !(set_role_other _ RBuff) by discriminate. ring.
    + intros _. unfold conv_after_backward. cbv zeta. fold s1 s1'. rewrite !set_role_same. unfold cdelta_flat.
      assert (Ew : (fun f => conv_after_grads g x s1' (RW f)) = (fun f => conv_after_grads g x s1 (RW f))).
      { apply functional_extensionality. intros f. apply functional_extensionality. intros o. cbn [conv_after_grads]. unfold s1, s1'. rewrite !(set_role_other _ RBuff) by discriminate. now rewrite B by exact Logic.I. }
      rewrite Ew. f_equal. f_equal. unfold buff3 in E3 |- *. cbn [conv_after_grads]. exact E3.
Qed.
(** two layers before and after back-propagation *)
Definition stepped (d d' e e' : node R) : Prop :=
  weak d e /\ weak d d' /\ weak d' e' /\ (forall r j, gained (n_plan d) (n_data d') (n_data e') r j = gained (n_plan d) (n_data d) (n_data e) r j) /\ proper e /\ proper e'.
Inductive all4 (P : node R -> node R -> node R -> node R -> Prop) : list (node R) -> list (node R) -> list (node R) -> list (node R) -> Prop :=
| all4_nil : all4 P [] [] [] []
| all4_cons a b c d la lb lc ld : P a b c d -> all4 P la lb lc ld -> all4 P (a :: la) (b :: lb) (c :: lc) (d :: ld).
Lemma bwd_stepped d d' x dl full : proper d -> proper d' -> passed d d' -> stepped d d' (bwd d x dl full) (bwd d' x dl full).
Proof.
  intros P P' Q. destruct (bwd_rel d d' x dl full P P' Q) as (W & G & _ & Pe).
  assert (Q' : passed d' d'). { split; [apply weak_refl|]. split; [reflexivity|]. destruct (n_plan d'); auto. }
  destruct (bwd_rel d' d' x dl full P' P' Q') as (W' & _ & _ & Pe'). repeat split; auto; try apply W; try apply W'; try apply Q.
Qed.
Lemma run_back_rel l l' : Forall2 passed l l' -> Forall proper l -> Forall proper l' -> forall x full dl,
  all4 stepped l l' (run_back l x full dl) (run_back l' x full dl) /\
  (full = true -> match run_back l x full dl, run_back l' x full dl with e :: _, e' :: _ => n_data e' RDelta = n_data e RDelta | _, _ => True end).
Proof.
  induction 1 as [|d d' l l' Q F IH]; intros P P' x full dl; [split; [constructor|intros _; exact Logic.I]|]. apply Forall_cons_iff in P as [P1 P2]. apply Forall_cons_iff in P' as [P1' P2'].
  cbn [run_back]. pose proof Q as (_ & Ev & _). rewrite Ev. destruct (IH P2 P2' (n_data d RValue) true dl) as [A B]. specialize (B eq_refl).
  assert (G : forall dv, stepped d d' (bwd d x dv full) (bwd d' x dv full) /\ (full = true -> n_data (bwd d' x dv full) RDelta = n_data (bwd d x dv full) RDelta)).
  { intros dv. split; [now apply bwd_stepped|]. apply (bwd_rel d d' x dv full P1 P1' Q). }
  destruct (run_back l (n_data d RValue) true dl) as [|e r], (run_back l' (n_data d RValue) true dl) as [|e' r'].
  - split; [|intros Hf; apply G, Hf]. constructor; [apply G|exact A].
  - inversion A.
  - inversion A.
  - rewrite B. split; [|intros Hf; apply G, Hf]. constructor; [apply G|exact A].
Qed.
Lemma f2_len {A B} (P : A -> B -> Prop) l l' : Forall2 P l l' -> length l = length l'. Proof. induction 1; cbn; congruence. Qed.
(** what sample [i] adds to the gradient sums *)
Definition contrib (l l2 : list (node R)) (i : nat) (r : role) (j : Z) : R :=
  match nth_error l i, nth_error l2 i with Some d, Some d2 => gained (n_plan d) (n_data d) (n_data d2) r j | _, _ => 0 end.
Lemma all4_nth P la lb lc ld : all4 P la lb lc ld -> forall i a, nth_error la i = Some a -> exists b c d, nth_error lb i = Some b /\ nth_error lc i = Some c /\ nth_error ld i = Some d /\ P a b c d.
Proof. induction 1 as [|a b c d la lb lc ld H F IH]; intros [|i] z E; cbn in *; try discriminate; [injection E as <-; eauto 8|eauto]. Qed.
Lemma weak_list_refl l : Forall2 weak l l. Proof. induction l; constructor; auto using weak_refl. Qed.
Lemma weak_list_sym l l' : Forall2 weak l l' -> Forall2 weak l' l. Proof. induction 1; constructor; auto using weak_sym. Qed.
Lemma weak_list_trans l1 l2 : Forall2 weak l1 l2 -> forall l3, Forall2 weak l2 l3 -> Forall2 weak l1 l3.
Proof. induction 1 as [|a b la lb H F IH]; intros l3 F'; inversion F'; subst; constructor; eauto using weak_trans. Qed.
Lemma run_fwd_weak l : forall x, Forall2 weak l (run_fwd l x).
Proof. induction l as [|d l IH]; intros x; constructor; [apply fwd_weak|apply IH]. Qed.
Lemma run_fwd_proper l : Forall proper l -> forall x, Forall proper (run_fwd l x).
Proof. induction 1 as [|d l P F IH]; intros x; cbn [run_fwd]; constructor; [exact P|apply IH]. Qed.
Lemma contrib_fwd l x l2 i r j : contrib (run_fwd l x) l2 i r j = contrib l l2 i r j.
Proof.
  unfold contrib. destruct (nth_error l i) as [d|] eqn:E.
  - assert (exists y, nth_error (run_fwd l x) i = Some (fwd d y)) as (y & ->).
    { clear -E. revert x i E. induction l as [|e l IH]; intros x [|i] E; cbn in E |- *; try discriminate; [injection E as ->; eauto|eauto]. }
    cbn [fwd n_plan]. change (after_forward d y) with (n_data (fwd d y)). change (mk_node (n_layer d) (n_plan d) (n_data (fwd d y))) with (fwd d y). destruct (nth_error l2 i); [now rewrite gained_fwd|reflexivity].
  - assert (nth_error (run_fwd l x) i = None) as ->; [|reflexivity].
    clear -E. revert x i E. induction l as [|e l IH]; intros x [|i] E; cbn in E |- *; try discriminate; auto.
Qed.
Lemma sample_rel lo x y l l' : Forall2 weak l l' -> Forall proper l -> Forall proper l' ->
  Forall2 weak l (l_sample lo x y l) /\ Forall proper (l_sample lo x y l) /\ forall i r j, contrib l' (l_sample lo x y l') i r j = contrib l (l_sample lo x y l) i r j.
Proof.
  intros W P P'. destruct (run_fwd_passed l l' W P P' x) as [F E]. unfold l_sample. rewrite E.
  destruct (run_back_rel _ _ F (run_fwd_proper l P x) (run_fwd_proper l' P' x) x false (loss_dval lo y (net_out l x))) as [A _].
  set (l2 := run_back (run_fwd l x) x false _) in *. set (l2' := run_back (run_fwd l' x) x false _) in *.
  split; [|split].
  - eapply weak_list_trans; [apply (run_fwd_weak l x)|]. clear -A. induction A as [|a b c d la lb lc ld H F IH]; constructor; [apply H|exact IH].
  - clear -A. induction A as [|a b c d la lb lc ld H F IH]; constructor; [apply H|exact IH].
  - intros i r j. rewrite <- (contrib_fwd l x), <- (contrib_fwd l' x). unfold contrib. destruct (nth_error (run_fwd l x) i) as [d|] eqn:Ed.
    + destruct (all4_nth _ _ _ _ _ A i d Ed) as (d' & e & e' & -> & -> & -> & (_ & W' & _ & G & _)). destruct W' as (-> & _). apply G.
    + assert (nth_error (run_fwd l' x) i = None) as ->; [|reflexivity]. apply nth_error_None in Ed. apply nth_error_None. clear -F Ed. apply f2_len in F. lia.
Qed.
(** ** gradient sums over a batch *)
Lemma accum_weak d : weak d (n_accum d).
Proof.
  unfold n_accum. destruct d as [[L|L|L|L|L|L] p s]; cbn [n_layer n_plan]; try apply weak_refl. split; [reflexivity|]. cbn [n_data n_plan]. unfold fc_after_accumulate. split.
  - intros r Pr. now rewrite !set_role_other by (intros ->; destruct Pr).
  - destruct p; auto.
Qed.
Lemma reset_weak d : weak d (n_reset d).
Proof.
  unfold n_reset. destruct d as [[L|L|L|L|L|L] p s]; cbn [n_layer n_plan]; try apply weak_refl. split; [reflexivity|]. cbn [n_data n_plan]. unfold fc_after_reset. split.
  - intros r Pr. now rewrite !set_role_other by (intros ->; destruct Pr).
  - destruct p; auto.
Qed.
Lemma accum_proper d : proper d -> proper (n_accum d). Proof. unfold proper, n_accum. destruct d as [[L|L|L|L|L|L] [| |] s]; auto. Qed.
Lemma reset_proper d : proper d -> proper (n_reset d). Proof. unfold proper, n_reset. destruct d as [[L|L|L|L|L|L] [| |] s]; auto. Qed.
Lemma map_weak (f : node R -> node R) l : (forall d, weak d (f d)) -> Forall2 weak l (map f l). Proof. intros H. induction l; constructor; auto. Qed.
Lemma map_proper (f : node R -> node R) l : (forall d, proper d -> proper (f d)) -> Forall proper l -> Forall proper (map f l).
Proof. intros H F. rewrite Forall_map. eapply Forall_impl; [|exact F]. exact H. Qed.
Lemma accum_gain d d2 r j : proper d -> one_sample d d2 -> params_role r ->
  acc (n_plan d) (n_data (n_accum d2)) r j = (acc (n_plan d) (n_data d) r j + gained (n_plan d) (n_data d) (n_data d2) r j)%R.
Proof.
  intros P (EL & (EP & _) & Sm & _) Pr. unfold n_accum. rewrite EL. unfold proper in P. destruct (n_plan d) as [a n k|g|a q] eqn:Ep.
  - destruct (n_layer d) as [L|L|L|L|L|L]; try contradiction. cbn [n_data]. destruct (Sm Logic.I) as [S1 S2].
    unfold acc, gained, fc_after_accumulate. destruct r; try destruct Pr.
    + rewrite set_role_other, set_role_same, S1 by discriminate. reflexivity.
    + destruct (f =? 0)%Z; [|lra]. rewrite set_role_same, S2. reflexivity.
  - destruct (n_layer d) as [L|L|L|L|L|L]; try contradiction. unfold acc, gained. destruct r; try destruct Pr; lra.
  - destruct P.
Qed.
Section Batch.
Context (lo : loss).
(** samples given by their contents *)
Notation pair := ((Z -> R) * (Z -> R))%type.
Notation smp l q := (l_sample lo (fst q) (snd q) l).
Definition shown (l : list (node R)) (q : pair) : list (node R) := map n_accum (smp l q).
Lemma shown_fold xs ys is l : fold_left (Descent.l_present (T := R) lo xs ys) is l = fold_left shown (map (fun i => (xs i, ys i)) is) l.
Proof. revert l. induction is as [|i is IH]; intros l; [reflexivity|]. cbn [fold_left map]. apply IH. Qed.
Lemma present_weak l i : Forall proper l -> Forall2 weak l (shown l i) /\ Forall proper (shown l i).
Proof.
  intros P. destruct (sample_rel lo (fst i) (snd i) l l (weak_list_refl l) P P) as (W & P2 & _). unfold shown. split.
  - eapply weak_list_trans; [exact W|]. apply map_weak, accum_weak.
  - apply map_proper; [apply accum_proper|exact P2].
Qed.
Lemma presents_weak is : forall l, Forall proper l -> Forall2 weak l (fold_left shown is l) /\ Forall proper (fold_left shown is l).
Proof.
  induction is as [|i is IH]; intros l P; cbn [fold_left]; [split; [apply weak_list_refl|exact P]|]. destruct (present_weak l i P) as [W1 P1]. destruct (IH _ P1) as [W2 P2].
  split; [eapply weak_list_trans; eauto|exact P2].
Qed.
Lemma present_accs l i i' r j : Forall proper l -> params_role r -> accs (shown l i) i' r j = (accs l i' r j + contrib l (smp l i) i' r j)%R.
Proof.
  intros P Pr. pose proof (sample_nodes lo (fst i) (snd i) l) as F. unfold accs, contrib, shown. rewrite nth_error_map. destruct (nth_error l i') as [d|] eqn:E.
  - destruct (nth_Forall2 _ _ _ F i' d E) as (d2 & -> & Os). cbn [option_map]. rewrite Forall_forall in P.
    replace (n_plan (n_accum d2)) with (n_plan d). { apply accum_gain; auto. apply P. eapply nth_error_In; eauto. }
    destruct (accum_same d2) as (-> & _). destruct Os as (_ & (-> & _) & _). reflexivity.
  - assert (nth_error (smp l i) i' = None) as ->; [|cbn; lra]. apply nth_error_None in E. apply nth_error_None. apply f2_len in F. lia.
Qed.
Definition sum_l (f : pair -> R) (is : list pair) : R := fold_right (fun i a => (f i + a)%R) 0%R is.
Lemma sum_l_perm f is is' : Permutation is is' -> sum_l f is = sum_l f is'.
Proof. induction 1; cbn [sum_l fold_right]; unfold sum_l in *; lra. Qed.
Lemma sum_l_ext f f' is : (forall i, f i = f' i) -> sum_l f is = sum_l f' is.
Proof. intros H. unfold sum_l. induction is as [|i is IH]; [reflexivity|]. cbn [fold_right]. now rewrite H, IH. Qed.
Lemma presents_accs is i' r j : params_role r -> forall l, Forall proper l -> accs (fold_left shown is l) i' r j = (accs l i' r j + sum_l (fun i => contrib l (smp l i) i' r j) is)%R.
Proof.
  intros Pr. induction is as [|i is IH]; intros l P; cbn [fold_left]; [unfold sum_l; cbn; lra|]. destruct (present_weak l i P) as [W1 P1]. rewrite (IH _ P1), (present_accs l i i' r j P Pr).
  rewrite (sum_l_ext _ (fun k => contrib l (smp l k) i' r j)); [unfold sum_l; cbn [fold_right]; lra|].
  intros k. now apply sample_rel.
Qed.

(** ** networks that agree on everything the next batch depends on *)
Definition cells (p : plan) (r : role) (o : Z) : Prop :=
  match r, p with
  | RB, _ | RW _, _ => True
  | RGradBs, PDense _ _ _ | RGradWs, PDense _ _ _ => True
  | RGradB, PConv _ | RGradW _, PConv _ => True
  | RBuff, PConv g => off_cell g o = true
  | _, _ => False
  end.
Definition core (d d' : node R) : Prop := n_layer d' = n_layer d /\ n_plan d' = n_plan d /\ forall r o, cells (n_plan d) r o -> n_data d' r o = n_data d r o.
Lemma core_weak d d' : core d d' -> weak d d'.
Proof.
  intros (_ & E & C). split; [exact E|]. split.
  - intros r Pr. apply functional_extensionality. intros o. apply C. destruct r; try destruct Pr; exact Logic.I.
  - destruct (n_plan d) eqn:Q; auto.
Qed.
Lemma core_list_weak l l' : Forall2 core l l' -> Forall2 weak l l'. Proof. induction 1; constructor; auto using core_weak. Qed.
Lemma core_reset d d' : core d d' -> core (n_reset d) (n_reset d').
Proof.
  intros (EL & EP & C). unfold n_reset. rewrite EL. destruct (n_layer d) as [L|L|L|L|L|L] eqn:Q; try (split; [now rewrite EL, Q|split; [exact EP|exact C]]).
  split; [reflexivity|]. split; [exact EP|]. cbn [n_plan n_data]. intros r o H. specialize (C r o H). unfold fc_after_reset, set_role. destruct (role_eq_dec r RGradWs), (role_eq_dec r RGradBs); auto.
Qed.
Lemma core_list_reset l l' : Forall2 core l l' -> Forall2 core (map n_reset l) (map n_reset l'). Proof. induction 1; constructor; auto using core_reset. Qed.
Lemma core_accs l l' : Forall2 core l l' -> forall i r j, accs l' i r j = accs l i r j.
Proof.
  induction 1 as [|d d' l l' H F IH]; intros [|i] r j; try reflexivity; [|apply IH]. unfold accs. cbn [nth_error]. destruct H as (_ & EP & C). rewrite EP. unfold acc.
  destruct (n_plan d) eqn:Q; auto; destruct r; auto; try (apply C; exact Logic.I). destruct (f =? 0)%Z; [apply C; exact Logic.I|reflexivity].
Qed.
Lemma core_of d d' : n_layer d' = n_layer d -> weak d d' -> (forall r j, params_role r -> acc (n_plan d) (n_data d') r j = acc (n_plan d) (n_data d) r j) -> core d d'.
Proof.
  intros EL (EP & A & B) C. split; [exact EL|]. split; [exact EP|]. intros r o H. destruct r; cbn [cells] in H; try contradiction; try (now rewrite A); destruct (n_plan d) eqn:Q; try contradiction.
  - now apply B.
  - exact (C RB o Logic.I).
  - exact (C (RW f) o Logic.I).
  - exact (C RB o Logic.I).
  - exact (C (RW 0) o Logic.I).
Qed.
Lemma core_list_of l l' : layers l' = layers l -> Forall2 weak l l' -> (forall i r j, params_role r -> accs l' i r j = accs l i r j) -> Forall2 core l l'.
Proof.
  intros EL W. revert EL. induction W as [|d d' l l' H F IH]; intros EL C; [constructor|]. cbn in EL. injection EL as E1 E2. constructor.
  - apply core_of; auto. intros r j Pr. specialize (C 0%nat r j Pr). unfold accs in C. cbn [nth_error] in C. destruct H as (EP & _). now rewrite EP in C.
  - apply IH; [exact E2|]. intros i r j Pr. exact (C (S i) r j Pr).
Qed.
(** the accumulation flags after a batch depend on its length only *)
Definition la (L : layer) : layer := match L with LFC L => LFC (fc_set_acc L true) | L => L end.
Lemma layers_shown l i : layers (shown l i) = map la (layers l).
Proof.
  unfold shown. rewrite <- (layers_sample lo (fst i) (snd i) l). unfold layers. rewrite !map_map. apply map_ext. intros d. unfold n_accum, la. destruct (n_layer d) eqn:E; cbn [n_layer]; congruence.
Qed.
Lemma layers_shown_fold is is' l l' : length is = length is' -> layers l' = layers l -> layers (fold_left shown is' l') = layers (fold_left shown is l).
Proof.
  revert is' l l'. induction is as [|i is IH]; intros [|i' is'] l l' Len E; try discriminate; [exact E|]. cbn [fold_left]. apply IH; [cbn in Len; congruence|]. now rewrite !layers_shown, E.
Qed.
Lemma shown_flagged is l : is <> [] -> Forall flagged (fold_left shown is l).
Proof.
  intros Ne. destruct (exists_last Ne) as (is' & i & ->). rewrite fold_left_app. cbn [fold_left]. unfold shown at 1. rewrite Forall_map. apply Forall_forall. intros d _. unfold flagged, n_accum. destruct (n_layer d) eqn:E; cbn [n_layer]; rewrite ?E; auto.
Qed.
Lemma core_reset_layers l l' : Forall2 core l l' -> layers l' = layers l.
Proof. induction 1 as [|d d' l l' H F IH]; [reflexivity|]. cbn. f_equal; [apply H|exact IH]. Qed.
(** a batch and a reordering of it *)
Lemma summed_core is is' l l' : Permutation is is' -> Forall2 core l l' -> Forall proper l -> Forall proper l' ->
  Forall2 core (fold_left shown is (map n_reset l)) (fold_left shown is' (map n_reset l')).
Proof.
  intros Pm C P P'. pose proof (core_list_reset l l' C) as Cr. pose proof (map_proper n_reset l reset_proper P) as Pr. pose proof (map_proper n_reset l' reset_proper P') as Pr'.
  destruct (presents_weak is _ Pr) as [W _]. destruct (presents_weak is' _ Pr') as [W' _]. apply core_list_of.
  - apply layers_shown_fold; [now apply Permutation_length|now apply core_reset_layers].
  - eapply weak_list_trans; [apply weak_list_sym, W|]. eapply weak_list_trans; [apply core_list_weak, Cr|exact W'].
  - intros i r j Hr. rewrite (presents_accs is i r j Hr _ Pr), (presents_accs is' i r j Hr _ Pr'). rewrite (core_accs _ _ Cr). f_equal. rewrite <- (sum_l_perm _ _ _ Pm). apply sum_l_ext.
    intros q. exact (proj2 (proj2 (sample_rel lo (fst q) (snd q) _ _ (core_list_weak _ _ Cr) Pr Pr')) i r j).
Qed.
End Batch.

(** ** the update *)
Section Update.
Context (kd : opt_kind R) (lr al : R).
Definition same_ost (p : plan) (st st' : ost (T := R)) : Prop :=
  (forall r o, cells p r o -> os_s st' r o = os_s st r o) /\ os_x st' = os_x st /\ os_t1 st' = os_t1 st /\ os_t2 st' = os_t2 st.
Lemma t_step_same p st st' rp rg : (forall o, cells p rp o) -> (forall o, cells p rg o) -> same_ost p st st' -> same_ost p (t_step kd lr st (rp, rg)) (t_step kd lr st' (rp, rg)).
Proof.
  intros Cp Cg (A & Ex & E1 & E2).
  assert (Ee : forall j, t_elem kd lr st' rp rg j = t_elem kd lr st rp rg j). { intros j. unfold t_elem. rewrite Ex, E1, E2, (A rp j (Cp j)), (A rg j (Cg j)). reflexivity. }
  unfold t_step. split; [|split; [|split]]; cbn [os_s os_x os_t1 os_t2].
  - intros r o H. specialize (A r o H) as Ar. unfold set_role. destruct (role_eq_dec r rp); [now rewrite Ee|]. destruct (scalesb kd); [|exact Ar]. destruct (role_eq_dec r rg); [now rewrite (A rg o (Cg o))|exact Ar].
  - apply functional_extensionality. intros r. destruct (role_eq_dec r rp); [|now rewrite Ex]. apply functional_extensionality. intros j. now rewrite Ee.
  - now rewrite E1.
  - now rewrite E2.
Qed.
Lemma t_fold_same p prs : Forall (fun q => (forall o, cells p (fst q) o) /\ forall o, cells p (snd q) o) prs -> forall st st', same_ost p st st' ->
  same_ost p (fold_left (t_step kd lr) prs st) (fold_left (t_step kd lr) prs st').
Proof.
  induction 1 as [|[rp rg] prs [H1 H2] F IH]; intros st st' Q; cbn [fold_left]; [exact Q|]. apply IH. now apply t_step_same.
Qed.
Lemma pairs_cells d : proper d -> flagged d -> Forall (fun q => (forall o, cells (n_plan d) (fst q) o) /\ forall o, cells (n_plan d) (snd q) o) (n_pairs d).
Proof.
  unfold proper, flagged, n_pairs. intros P Fl. destruct (n_plan d) as [a n k|g|a q], (n_layer d) as [L|L|L|L|L|L]; try contradiction.
  - unfold rGB, rGW. rewrite Fl. repeat constructor.
  - apply Forall_app. split; [|repeat constructor]. rewrite Forall_map. apply Forall_forall. intros f _. repeat constructor.
Qed.
Lemma scaled_same d d' : proper d -> flagged d -> core d d' -> forall r o, cells (n_plan d) r o -> n_scaled al d' r o = n_scaled al d r o.
Proof.
  unfold proper, flagged, n_scaled. intros P Fl (EL & EP & C) r o H. rewrite EL. pose proof (C r o H) as Cr. destruct (n_plan d) as [a n k|g|a q] eqn:Q, (n_layer d) as [L|L|L|L|L|L]; try contradiction.
  - unfold fc_scaled, rGB, rGW, set_role. rewrite Fl. destruct (role_eq_dec r RGradWs) as [->|]; [now rewrite Cr|]. destruct (role_eq_dec r RGradBs) as [->|]; [now rewrite Cr|exact Cr].
  - unfold conv_scaled. destruct r; now rewrite ?Cr.
Qed.
Lemma o_layer_same d d' x t1 t2 : proper d -> flagged d -> core d d' -> same_ost (n_plan d) (o_layer kd lr al d x t1 t2) (o_layer kd lr al d' x t1 t2).
Proof.
  intros P Fl C. unfold o_layer. replace (n_pairs d') with (n_pairs d) by (unfold n_pairs; destruct C as (-> & -> & _); reflexivity).
  apply t_fold_same; [now apply pairs_cells|]. split; [|auto]. cbn [os_s]. now apply scaled_same.
Qed.
Lemma o_layers_same l l' : Forall2 core l l' -> Forall proper l -> Forall flagged l -> forall i x t1 t2, let r := o_layers kd lr al i l x t1 t2 in let r' := o_layers kd lr al i l' x t1 t2 in
  Forall2 core (ns_l r) (ns_l r') /\ ns_x r' = ns_x r /\ ns_t1 r' = ns_t1 r /\ ns_t2 r' = ns_t2 r.
Proof.
  induction 1 as [|d d' l l' C F IH]; intros P Fl i x t1 t2; [repeat split; constructor|]. apply Forall_cons_iff in P as [P1 P2]. apply Forall_cons_iff in Fl as [F1 F2].
  destruct (o_layer_same d d' (x i) t1 t2 P1 F1 C) as (A & Ex & E1 & E2). cbv zeta. cbn [o_layers ns_l ns_x ns_t1 ns_t2]. rewrite Ex, E1, E2.
  destruct (IH P2 F2 (S i) (fun i' => if Nat.eqb i' i then os_x (o_layer kd lr al d (x i) t1 t2) else x i') (os_t1 (o_layer kd lr al d (x i) t1 t2)) (os_t2 (o_layer kd lr al d (x i) t1 t2))) as (B1 & B2 & B3 & B4).
  split; [|auto]. constructor; [|exact B1]. destruct C as (EL & EP & _). split; [exact EL|]. split; [exact EP|]. exact A.
Qed.
Lemma o_layers_proper l : Forall proper l -> forall i x t1 t2, Forall proper (ns_l (o_layers kd lr al i l x t1 t2)).
Proof. induction 1 as [|d l P F IH]; intros i x t1 t2; cbn [o_layers ns_l]; constructor; [exact P|apply IH]. Qed.
End Update.

Section Rounds.
Context (lo : loss) (kd : opt_kind R) (lr : R).
Definition same_nst (st st' : nst (T := R)) : Prop := Forall2 core (ns_l st) (ns_l st') /\ ns_x st' = ns_x st /\ ns_t1 st' = ns_t1 st /\ ns_t2 st' = ns_t2 st.
Notation vals xs ys is := (map (fun i : Z => (xs i, ys i)) is).
Lemma round_same xs ys xs' ys' is is' st st' : is <> [] -> Permutation (vals xs ys is) (vals xs' ys' is') -> Forall proper (ns_l st) -> Forall proper (ns_l st') -> same_nst st st' ->
  let r := o_round lo xs ys kd lr st is in let r' := o_round lo xs' ys' kd lr st' is' in same_nst r r' /\ Forall proper (ns_l r) /\ Forall proper (ns_l r').
Proof.
  intros Ne Pm P P' (C & Ex & E1 & E2). cbv zeta. unfold o_round, o_net, with_l. cbn [ns_l ns_x ns_t1 ns_t2]. rewrite Ex, E1, E2.
  assert (Len : length is' = length is). { apply Permutation_length in Pm. rewrite !map_length in Pm. congruence. } rewrite Len. rewrite !shown_fold.
  destruct (presents_weak lo (vals xs ys is) _ (map_proper n_reset _ reset_proper P)) as [_ Q]. destruct (presents_weak lo (vals xs' ys' is') _ (map_proper n_reset _ reset_proper P')) as [_ Q'].
  split; [|split; now apply o_layers_proper]. apply o_layers_same; [now apply summed_core|exact Q|]. apply shown_flagged. destruct is; [congruence|discriminate].
Qed.
Lemma rounds_same xs ys xs' ys' iss iss' : Forall2 (fun is is' => is <> [] /\ Permutation (vals xs ys is) (vals xs' ys' is')) iss iss' ->
  forall st st', Forall proper (ns_l st) -> Forall proper (ns_l st') -> same_nst st st' ->
  same_nst (fold_left (o_round lo xs ys kd lr) iss st) (fold_left (o_round lo xs' ys' kd lr) iss' st').
Proof.
  induction 1 as [|is is' iss iss' [Ne Pm] F IH]; intros st st' P P' S; [exact S|]. cbn [fold_left]. destruct (round_same xs ys xs' ys' is is' st st' Ne Pm P P' S) as (S1 & P1 & P1'). now apply IH.
Qed.
Lemma same_nst_refl st : same_nst st st.
Proof. split; [|auto]. induction (ns_l st) as [|d l IH]; constructor; [split; [reflexivity|split; [reflexivity|reflexivity]]|exact IH]. Qed.
End Rounds.

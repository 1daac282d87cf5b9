(** * Two dense networks with the same parameters train alike (proofs for C109) *)
From Coq Require Import FunctionalExtensionality.
From Verif Require Import Mem Scalar MemSpec MemLemmas Lique LiqueSpec LiqueProofs LiqueProofs2 Linear LinearProofs Functions FunctionSpec FunctionProofs
  Skel Bufs Optimizer OptimizerSpec OptimizerProofs OptimizerHist Layer LayerSpec FCProofs Cells ConvSpec ConvProofs ConvProofs2 PoolSpec PoolProofs PropFC PropConv PropPool
  Net NetPlan NetProofs NetBack PropNet Schedule PropTraining Descent PropDescent DescentSpec OptTrain OptTrainSpec PropOptTrain.
Open Scope Z_scope.

Section Twin.
Context {T : Type} `{NT : Num T}.
Implicit Types (m : mem T) (l : list (node T)) (d : node T) (o : opt T).
Definition dense_pair d d' : Prop := n_plan d' = n_plan d /\ match n_plan d, n_layer d, n_layer d' with PDense _ _ _, LFC _, LFC _ => True | _, _, _ => False end.
(** same parameters *)
Definition kin d d' : Prop := dense_pair d d' /\ forall r, prole r = true -> n_data d' r = n_data d r.
Section Sums.
(** .. and the same flags and, if [sums], gradient sums *)
Context (sums : bool).
Definition summed_role (r : role) : Prop := match r with RB | RW _ => True | RGradBs | RGradWs => sums = true | _ => False end.
Definition twin d d' : Prop := dense_pair d d' /\ match n_layer d, n_layer d' with LFC L, LFC L' => f_acc L' = f_acc L | _, _ => False end /\ forall r, summed_role r -> n_data d' r = n_data d r.
Definition also (r : role) d d' : Prop := n_data d' r = n_data d r.
Lemma twin_kin d d' : twin d d' -> kin d d'.
Proof. intros (P & _ & C). split; [exact P|]. intros r H. apply C. destruct r; try discriminate; exact Logic.I. Qed.
Lemma twin_out d d' x : twin d d' -> node_out d' x = node_out d x.
Proof.
  intros ((E & P) & _ & C). unfold node_out. rewrite E. destruct (n_plan d) as [a n k|g|a q]; try contradiction. now rewrite (C RB Logic.I), (C (RW 0) Logic.I).
Qed.
Lemma twin_fwd d d' x : twin d d' -> twin (fwd d x) (fwd d' x) /\ also RValue (fwd d x) (fwd d' x) /\ also RBuff (fwd d x) (fwd d' x).
Proof.
  intros Tw. pose proof (twin_out d d' x Tw) as O. destruct Tw as ((E & P) & F & C). split; [|split].
  - split; [split; [exact E|exact P]|]. split; [exact F|]. intros r H. cbn [fwd n_data]. rewrite !after_forward_other by (intros ->; destruct H). now apply C.
  - unfold also. cbn [fwd n_data]. now rewrite !after_forward_value.
  - unfold also. cbn [fwd n_data]. unfold after_forward. rewrite E, O. destruct (n_plan d) as [a n k|g|a q]; try contradiction. destruct (n_layer d); try contradiction. destruct (n_layer d'); try contradiction.
    rewrite !(set_role_other _ RValue _ RBuff), !set_role_same by discriminate. now rewrite (C RB Logic.I), (C (RW 0) Logic.I).
Qed.
Definition after_fwd d d' : Prop := twin d d' /\ also RValue d d' /\ also RBuff d d'.
Definition after_bwd d d' : Prop := twin d d' /\ also RGradB d d' /\ also (RGradW 0) d d'.
Lemma run_fwd_twin l l' : Forall2 twin l l' -> forall x, Forall2 after_fwd (run_fwd l x) (run_fwd l' x) /\ net_out l' x = net_out l x.
Proof.
  induction 1 as [|d d' l l' Tw F IH]; intros x; [split; [constructor|reflexivity]|]. cbn [run_fwd]. rewrite (twin_out d d' x Tw). destruct (IH (node_out d x)) as [A B]. split; [constructor; [now apply twin_fwd|exact A]|].
  change (net_out l' (node_out d' x) = net_out l (node_out d x)). now rewrite (twin_out d d' x Tw).
Qed.
Lemma twin_bwd d d' x dl full : after_fwd d d' -> after_bwd (bwd d x dl full) (bwd d' x dl full) /\ (full = true -> also RDelta (bwd d x dl full) (bwd d' x dl full)).
Proof.
  intros (((E & P) & F & C) & Ev & Eb). unfold also in Ev, Eb. unfold after_bwd, twin, dense_pair, also, bwd, after_backward. cbn [n_plan n_layer n_data]. rewrite E. destruct (n_plan d) as [a n k|g|a q]; try contradiction.
  assert (Eg : fc_gradB a (n_data d') dl = fc_gradB a (n_data d) dl) by (unfold fc_gradB; now rewrite Eb).
  assert (Ew : fc_gradW k a (n_data d') x dl = fc_gradW k a (n_data d) x dl) by (unfold fc_gradW; now rewrite Eg).
  assert (Ed : fc_delta k a (n_data d') dl = fc_delta k a (n_data d) dl) by (unfold fc_delta; rewrite Eg; now rewrite (C (RW 0) Logic.I)).
  unfold fc_after_backward. cbv zeta. rewrite Eg, Ew, Ed. split; [split; [split; [split; [reflexivity|exact P]|split; [exact F|]]|split]|].
  - intros r H. specialize (C r H). destruct full; unfold set_role; repeat match goal with |- context [role_eq_dec ?u ?v] => destruct (role_eq_dec u v) end; auto.
  - destruct full; rewrite ?(set_role_other _ RDelta) by discriminate; rewrite !(set_role_other _ (RGradW 0)), !set_role_same by discriminate; reflexivity.
  - destruct full; rewrite ?(set_role_other _ RDelta) by discriminate; rewrite !set_role_same; reflexivity.
  - intros ->. now rewrite !set_role_same.
Qed.
Lemma run_back_twin l l' : Forall2 after_fwd l l' -> forall x full dl, Forall2 after_bwd (run_back l x full dl) (run_back l' x full dl) /\
  (full = true -> match run_back l x full dl, run_back l' x full dl with e :: _, e' :: _ => n_data e' RDelta = n_data e RDelta | _, _ => True end).
Proof.
  induction 1 as [|d d' l l' Q F IH]; intros x full dl; [split; [constructor|intros _; exact Logic.I]|]. cbn [run_back]. pose proof Q as (_ & Ev & _). unfold also in Ev. rewrite Ev.
  destruct (IH (n_data d RValue) true dl) as [A B]. specialize (B eq_refl).
  destruct (run_back l (n_data d RValue) true dl) as [|e r], (run_back l' (n_data d RValue) true dl) as [|e' r']; try (inversion A; fail).
  - destruct (twin_bwd d d' x dl full Q) as [U V]. split; [constructor; [exact U|constructor]|exact V].
  - rewrite B. destruct (twin_bwd d d' x (n_data e RDelta) full Q) as [U V]. split; [constructor; [exact U|exact A]|exact V].
Qed.
Lemma sample_twin lo x y l l' : Forall2 twin l l' -> Forall2 after_bwd (l_sample lo x y l) (l_sample lo x y l').
Proof. intros F. unfold l_sample. destruct (run_fwd_twin l l' F x) as [A B]. rewrite B. apply run_back_twin. exact A. Qed.
End Sums.
Lemma kin_reset d d' : kin d d' -> twin true (n_reset d) (n_reset d').
Proof.
  intros ((E & P) & C). unfold n_reset. destruct d as [L p s], d' as [L' p' s']. cbn [n_plan n_layer n_data] in *. subst p'. destruct p as [a n k|g|a q]; try contradiction. destruct L; try contradiction. destruct L'; try contradiction.
  split; [split; [reflexivity|exact Logic.I]|]. split; [reflexivity|]. cbn [n_data]. intros r H. unfold fc_after_reset, set_role. destruct (role_eq_dec r RGradWs); [reflexivity|]. destruct (role_eq_dec r RGradBs); [reflexivity|].
  apply C. destruct r; try contradiction; try reflexivity; congruence.
Qed.
Lemma accum_twin d d' : after_bwd true d d' -> twin true (n_accum d) (n_accum d').
Proof.
  intros (((E & P) & F & C) & G1 & G2). unfold also in G1, G2. unfold n_accum, twin, dense_pair. destruct d as [L p s], d' as [L' p' s']. cbn [n_plan n_layer n_data] in *. subst p'. destruct p as [a n k|g|a q]; try contradiction. destruct L; try contradiction. destruct L'; try contradiction.
  cbn [n_plan n_layer n_data]. split; [split; [reflexivity|exact Logic.I]|]. split; [reflexivity|]. intros r H. unfold fc_after_accumulate, set_role.
  rewrite G1, G2, (C RGradBs eq_refl), (C RGradWs eq_refl). destruct (role_eq_dec r RGradWs); [reflexivity|]. destruct (role_eq_dec r RGradBs); [reflexivity|]. now apply C.
Qed.
Lemma present_twin lo xs ys l l' i : Forall2 (twin true) l l' -> Forall2 (twin true) (l_present lo xs ys l i) (l_present lo xs ys l' i).
Proof. intros F. unfold l_present. pose proof (sample_twin true lo (xs i) (ys i) l l' F) as G. induction G; cbn [map]; constructor; auto using accum_twin. Qed.
Lemma presents_twin lo xs ys is : forall l l', Forall2 (twin true) l l' -> Forall2 (twin true) (fold_left (l_present lo xs ys) is l) (fold_left (l_present lo xs ys) is l').
Proof. induction is as [|i is IH]; intros l l' F; cbn [fold_left]; auto. apply IH, present_twin, F. Qed.
Definition set_flag d : Prop := match n_layer d with LFC L => f_acc L = true | _ => True end.
Lemma presents_flags lo xs ys is l : is <> [] -> Forall set_flag (fold_left (l_present lo xs ys) is l).
Proof.
  intros Ne. destruct (exists_last Ne) as (is' & i & ->). rewrite fold_left_app. cbn [fold_left]. unfold l_present at 1. rewrite Forall_map. apply Forall_forall. intros d _. unfold set_flag, n_accum. destruct (n_layer d) eqn:E; cbn [n_layer]; rewrite ?E; auto.
Qed.
(** ** the update *)
Section Update.
Context (kd : opt_kind T) (lr al : T).
Section Roles.
Context (Q : role -> Prop).
Definition same_os (st st' : ost (T := T)) : Prop := (forall r, Q r -> os_s st' r = os_s st r) /\ os_x st' = os_x st /\ os_t1 st' = os_t1 st /\ os_t2 st' = os_t2 st.
Lemma t_step_same st st' rp rg : Q rp -> Q rg -> same_os st st' -> same_os (t_step kd lr st (rp, rg)) (t_step kd lr st' (rp, rg)).
Proof.
  intros Cp Cg (A & Ex & E1 & E2).
  assert (Ee : forall j, t_elem kd lr st' rp rg j = t_elem kd lr st rp rg j). { intros j. unfold t_elem. now rewrite Ex, E1, E2, (A rp Cp), (A rg Cg). }
  unfold t_step. split; [|split; [|split]]; cbn [os_s os_x os_t1 os_t2].
  - intros r H. pose proof (A r H) as Ar. unfold set_role. destruct (role_eq_dec r rp); [apply functional_extensionality; intros j; now rewrite Ee|]. destruct (scalesb kd); [|exact Ar]. destruct (role_eq_dec r rg); [now rewrite (A rg Cg)|exact Ar].
  - apply functional_extensionality. intros r. destruct (role_eq_dec r rp); [|now rewrite Ex]. apply functional_extensionality. intros j. now rewrite Ee.
  - now rewrite E1.
  - now rewrite E2.
Qed.
End Roles.
Lemma o_layer_same d d' x t1 t2 : twin true d d' -> set_flag d -> same_os (summed_role true) (o_layer kd lr al d x t1 t2) (o_layer kd lr al d' x t1 t2).
Proof.
  unfold set_flag, o_layer, n_pairs, n_scaled. intros ((E & P) & F & C) H. destruct (n_plan d) as [a n k|g|a q]; try contradiction. destruct (n_layer d) as [L|L|L|L|L|L]; try contradiction. destruct (n_layer d') as [L'|L'|L'|L'|L'|L']; try contradiction.
  unfold fc_scaled, rGB, rGW. rewrite F, H. cbn [fold_left]. apply t_step_same; [exact Logic.I|exact eq_refl|]. apply t_step_same; [exact Logic.I|exact eq_refl|]. split; [|auto]. cbn [os_s].
  rewrite (C RGradBs eq_refl), (C RGradWs eq_refl). intros r K. pose proof (C r K) as Cr. unfold set_role. destruct (role_eq_dec r RGradWs); [reflexivity|]. destruct (role_eq_dec r RGradBs); [reflexivity|exact Cr].
Qed.
Lemma o_layers_same l l' : Forall2 (twin true) l l' -> Forall set_flag l -> forall i x t1 t2, let r := o_layers kd lr al i l x t1 t2 in let r' := o_layers kd lr al i l' x t1 t2 in
  Forall2 (twin true) (ns_l r) (ns_l r') /\ ns_x r' = ns_x r /\ ns_t1 r' = ns_t1 r /\ ns_t2 r' = ns_t2 r.
Proof.
  induction 1 as [|d d' l l' C F IH]; intros P i x t1 t2; [repeat split; constructor|]. apply Forall_cons_iff in P as [P1 P2].
  destruct (o_layer_same d d' (x i) t1 t2 C P1) as (A & Ex & E1 & E2). cbv zeta. cbn [o_layers ns_l ns_x ns_t1 ns_t2]. rewrite Ex, E1, E2.
  destruct (IH P2 (S i) (fun i' => if Nat.eqb i' i then os_x (o_layer kd lr al d (x i) t1 t2) else x i') (os_t1 (o_layer kd lr al d (x i) t1 t2)) (os_t2 (o_layer kd lr al d (x i) t1 t2))) as (B1 & B2 & B3 & B4).
  split; [|auto]. constructor; [|exact B1]. destruct C as (Q1 & Q2 & _). split; [exact Q1|]. split; [exact Q2|]. exact A.
Qed.
(** without sums *)
Definition flag_off d : Prop := match n_layer d with LFC L => f_acc L = false | _ => True end.
Definition step_role (r : role) : Prop := match r with RB | RW _ | RGradB | RGradW 0 => True | _ => False end.
Lemma o_layer_off d d' x t1 t2 : after_bwd false d d' -> flag_off d -> same_os step_role (o_layer kd lr al d x t1 t2) (o_layer kd lr al d' x t1 t2).
Proof.
  unfold flag_off, o_layer, n_pairs, n_scaled. intros (((E & P) & F & C) & G1 & G2) H. unfold also in G1, G2. destruct (n_plan d) as [a n k|g|a q]; try contradiction. destruct (n_layer d) as [L|L|L|L|L|L]; try contradiction. destruct (n_layer d') as [L'|L'|L'|L'|L'|L']; try contradiction.
  unfold fc_scaled, rGB, rGW. rewrite F, H. cbn [fold_left]. apply t_step_same; [exact Logic.I|exact Logic.I|]. apply t_step_same; [exact Logic.I|exact Logic.I|]. split; [|auto]. cbn [os_s].
  rewrite G1, G2. intros r K. unfold set_role. destruct (role_eq_dec r (RGradW 0)); [reflexivity|]. destruct (role_eq_dec r RGradB); [reflexivity|]. apply C. destruct r as [|f| | | |f| | | |]; try destruct K; try exact Logic.I; try congruence. destruct f; try destruct K. congruence.
Qed.
Lemma o_layers_off l l' : Forall2 (after_bwd false) l l' -> Forall flag_off l -> forall i x t1 t2, let r := o_layers kd lr al i l x t1 t2 in let r' := o_layers kd lr al i l' x t1 t2 in
  Forall2 (twin false) (ns_l r) (ns_l r') /\ Forall flag_off (ns_l r) /\ ns_x r' = ns_x r /\ ns_t1 r' = ns_t1 r /\ ns_t2 r' = ns_t2 r.
Proof.
  induction 1 as [|d d' l l' C F IH]; intros P i x t1 t2; [repeat split; constructor|]. apply Forall_cons_iff in P as [P1 P2].
  destruct (o_layer_off d d' (x i) t1 t2 C P1) as (A & Ex & E1 & E2). cbv zeta. cbn [o_layers ns_l ns_x ns_t1 ns_t2]. rewrite Ex, E1, E2.
  destruct (IH P2 (S i) (fun i' => if Nat.eqb i' i then os_x (o_layer kd lr al d (x i) t1 t2) else x i') (os_t1 (o_layer kd lr al d (x i) t1 t2)) (os_t2 (o_layer kd lr al d (x i) t1 t2))) as (B1 & B0 & B2 & B3 & B4).
  split; [|split; [constructor; [exact P1|exact B0]|auto]]. constructor; [|exact B1]. destruct C as ((Q1 & Q2 & _) & _). split; [exact Q1|]. split; [exact Q2|]. intros r H. apply A. destruct r; cbn in H; try contradiction; try discriminate; exact Logic.I.
Qed.
End Update.
Section Rounds.
Context (lo : loss) (xs ys : Z -> Z -> T) (kd : opt_kind T) (lr : T).
Definition kin_nst (st st' : nst (T := T)) : Prop := Forall2 kin (ns_l st) (ns_l st') /\ ns_x st' = ns_x st /\ ns_t1 st' = ns_t1 st /\ ns_t2 st' = ns_t2 st.
Lemma round_kin st st' is : is <> [] -> kin_nst st st' -> kin_nst (o_round lo xs ys kd lr st is) (o_round lo xs ys kd lr st' is).
Proof.
  intros Ne (F & Ex & E1 & E2). unfold o_round, o_net, with_l. cbn [ns_l ns_x ns_t1 ns_t2]. rewrite Ex, E1, E2.
  assert (Tw : Forall2 (twin true) (map n_reset (ns_l st)) (map n_reset (ns_l st'))) by (clear -F; induction F; cbn [map]; constructor; auto using kin_reset).
  destruct (o_layers_same kd lr (div one (ofZ (Z.of_nat (length is)))) _ _ (presents_twin lo xs ys is _ _ Tw) (presents_flags lo xs ys is _ Ne) 0%nat (ns_x st) (ns_t1 st) (ns_t2 st)) as (A & B & C & D).
  split; [|auto]. clear -A. induction A; constructor; eauto using twin_kin.
Qed.
Lemma rounds_kin iss : Forall (fun is : list Z => is <> []) iss -> forall st st', kin_nst st st' -> kin_nst (fold_left (o_round lo xs ys kd lr) iss st) (fold_left (o_round lo xs ys kd lr) iss st').
Proof. induction 1 as [|is iss Ne F IH]; intros st st' K; [exact K|]. cbn [fold_left]. apply IH, round_kin; auto. Qed.
Definition off_nst (st st' : nst (T := T)) : Prop := Forall2 (twin false) (ns_l st) (ns_l st') /\ Forall flag_off (ns_l st) /\ ns_x st' = ns_x st /\ ns_t1 st' = ns_t1 st /\ ns_t2 st' = ns_t2 st.
Lemma step_off st st' i : off_nst st st' -> off_nst (o_step lo xs ys kd lr st i) (o_step lo xs ys kd lr st' i).
Proof.
  intros (F & Fl & Ex & E1 & E2). unfold o_step, o_net, with_l. cbn [ns_l ns_x ns_t1 ns_t2]. rewrite Ex, E1, E2. apply o_layers_off; [now apply sample_twin|].
  unfold l_sample. assert (G : forall l x, Forall flag_off l -> Forall flag_off (run_fwd l x)) by (induction l as [|d l IH]; intros x H; cbn [run_fwd]; inversion H; subst; constructor; auto).
  assert (G' : forall l x full dl, Forall flag_off l -> Forall flag_off (run_back l x full dl)).
  { induction l as [|d l IH]; intros x full dl H; cbn [run_back]; [constructor|]. inversion H; subst. specialize (IH (n_data d RValue) true dl ltac:(assumption)). destruct (run_back l (n_data d RValue) true dl); constructor; auto. }
  apply G', G, Fl.
Qed.
Lemma steps_off is : forall st st', off_nst st st' -> off_nst (fold_left (o_step lo xs ys kd lr) is st) (fold_left (o_step lo xs ys kd lr) is st').
Proof. induction is as [|i is IH]; intros st st' K; [exact K|]. cbn [fold_left]. apply IH, step_off, K. Qed.
End Rounds.
End Twin.

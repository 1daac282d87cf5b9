(** * Sessions: what evaluation leaves behind does not reach training (proofs for C107) *)
From Coq Require Import FunctionalExtensionality.
From Verif Require Import Mem Scalar MemSpec MemLemmas Lique LiqueSpec LiqueProofs LiqueProofs2 Linear LinearProofs Functions FunctionSpec FunctionProofs
  Skel Bufs Optimizer OptimizerSpec OptimizerProofs OptimizerHist Layer LayerSpec FCProofs Cells ConvSpec ConvProofs ConvProofs2 PoolSpec PoolProofs PropFC PropConv PropPool
  Net NetPlan NetProofs NetBack PropNet Checker PropChecker Schedule PropTraining Descent PropDescent OptTrain OptTrainSpec PropOptTrain SessionSpec.
Open Scope Z_scope.

Section Any.
Context {T : Type} `{NT : Num T}.
Implicit Types (m : mem T) (l : list (node T)) (d : node T) (o : opt T).

(** ** two networks that differ only in what a forward pass overwrites *)
Definition calm l l' : Prop := forall x, run_fwd l' x = run_fwd l x.
Lemma role_set_comm (s : contents T) r r' f g : r <> r' -> set_role (set_role s r f) r' g = set_role (set_role s r' g) r f.
Proof. intros N. apply functional_extensionality. intros r0. unfold set_role. repeat match goal with |- context [role_eq_dec ?a ?b] => destruct (role_eq_dec a b) end; congruence. Qed.
Lemma role_set_twice (s : contents T) r f g : set_role (set_role s r f) r g = set_role s r g.
Proof. apply functional_extensionality. intros r0. unfold set_role. repeat match goal with |- context [role_eq_dec ?a ?b] => destruct (role_eq_dec a b) end; congruence. Qed.
Lemma node_out_reset d x : node_out (n_reset d) x = node_out d x.
Proof.
  unfold n_reset. destruct d as [[L|L|L|L|L|L] p s]; cbn [n_layer]; reflexivity.
Qed.
Lemma fwd_reset d x : fwd (n_reset d) x = n_reset (fwd d x).
Proof.
  unfold fwd, after_forward. rewrite node_out_reset. unfold n_reset. destruct d as [[L|L|L|L|L|L] p s]; cbn [n_layer n_plan n_data]; try reflexivity.
  unfold fc_after_reset. destruct p as [a n k|g|a q]; f_equal.
  - rewrite !(role_set_comm _ RGradWs) by discriminate. rewrite !(role_set_comm _ RGradBs) by discriminate. rewrite !set_role_other by discriminate. reflexivity.
  - rewrite !(role_set_comm _ RGradWs) by discriminate. rewrite !(role_set_comm _ RGradBs) by discriminate. reflexivity.
  - rewrite !(role_set_comm _ RGradWs) by discriminate. rewrite !(role_set_comm _ RGradBs) by discriminate. reflexivity.
Qed.
Lemma run_fwd_reset l : forall x, run_fwd (map n_reset l) x = map n_reset (run_fwd l x).
Proof. induction l as [|d l IH]; intros x; [reflexivity|]. cbn [run_fwd map]. now rewrite fwd_reset, node_out_reset, IH. Qed.
Lemma calm_reset l l' : calm l l' -> calm (map n_reset l) (map n_reset l').
Proof. intros C x. now rewrite !run_fwd_reset, C. Qed.
Lemma fwd_fwd d y x : fwd (fwd d y) x = fwd d x.
Proof.
  unfold fwd at 1 3. cbn [fwd n_layer n_plan]. f_equal. unfold after_forward at 1 2. rewrite node_out_fwd. cbn [fwd n_layer n_plan n_data]. unfold after_forward.
  destruct (n_plan d) as [a n k|g|a q], (n_layer d) as [L|L|L|L|L|L]; rewrite ?set_role_other by discriminate; try (now rewrite role_set_twice).
  - rewrite (role_set_comm _ RValue RBuff) by discriminate. now rewrite !role_set_twice.
  - rewrite (role_set_comm _ RValue RMask) by discriminate. now rewrite !role_set_twice.
Qed.
Lemma calm_fwd l : forall y, calm l (run_fwd l y).
Proof. intros y x. revert y x. induction l as [|d l IH]; intros y x; [reflexivity|]. cbn [run_fwd]. now rewrite fwd_fwd, node_out_fwd, IH. Qed.
Lemma calm_refl l : calm l l. Proof. intros x. reflexivity. Qed.
Lemma calm_trans l1 l2 l3 : calm l1 l2 -> calm l2 l3 -> calm l1 l3. Proof. intros A B x. now rewrite B, A. Qed.
Lemma calm_layers l l' : calm l l' -> layers l' = layers l /\ plans l' = plans l.
Proof. intros C. specialize (C (fun _ => zero)). split; [rewrite <- (layers_run_fwd l' (fun _ => zero)), C; apply layers_run_fwd|rewrite <- (plans_run_fwd l' (fun _ => zero)), C; apply plans_run_fwd]. Qed.
Lemma calm_length l l' : calm l l' -> length l' = length l.
Proof. intros C. apply calm_layers in C as [C _]. apply (f_equal (@length _)) in C. unfold layers in C. now rewrite !map_length in C. Qed.
Lemma calm_out l l' : calm l l' -> forall x, net_out l' x = net_out l x.
Proof.
  intros C x. destruct l as [|d l].
  - apply calm_length in C. destruct l'; [reflexivity|discriminate].
  - pose proof (calm_length _ _ C) as Q. rewrite <- (last_run_fwd (d :: l) x d) by discriminate. rewrite <- (last_run_fwd l' x d) by (intros ->; discriminate). now rewrite C.
Qed.
Lemma calm_param l l' i d d' r : calm l l' -> nth_error l i = Some d -> nth_error l' i = Some d' -> prole r = true -> n_data d' r = n_data d r.
Proof.
  intros C E E' P. pose proof (C (fun _ => zero)) as Q. apply (f_equal (fun q => nth_error q i)) in Q. revert Q E E'.
  generalize (fun _ : Z => zero (T := T)) at 2. generalize (fun _ : Z => zero (T := T)). intros x x'.
  assert (G : forall (l : list (node T)) x i d, nth_error l i = Some d -> exists y, nth_error (run_fwd l x) i = Some (fwd d y)).
  { clear. induction l as [|e l IH]; intros x [|i] d E; cbn in E |- *; try discriminate; [injection E as ->; eauto|eauto]. }
  intros Q E E'. destruct (G l x' i d E) as [y Ey]. destruct (G l' x i d' E') as [y' Ey']. cbv beta in Q. rewrite Ey, Ey' in Q. injection Q as _ _ Q.
  pose proof (f_equal (fun s => s r) Q) as Qr. cbv beta in Qr. rewrite !after_forward_other in Qr by (intros ->; discriminate). exact Qr.
Qed.
Lemma calm_sample lo x y l l' : l <> [] -> calm l l' -> l_sample lo x y l' = l_sample lo x y l.
Proof. intros Ne C. unfold l_sample. now rewrite C, (calm_out l l' C). Qed.

(** ** training forgets the difference *)
Section Forget.
Context (lo : loss) (xs ys : Z -> Z -> T) (kd : opt_kind T) (lr : T).
Definition alike_state (st st' : nst) : Prop := calm (ns_l st) (ns_l st') /\ ns_x st' = ns_x st /\ ns_t1 st' = ns_t1 st /\ ns_t2 st' = ns_t2 st.
Lemma round_forgets st st' is : ns_l st <> [] -> is <> [] -> alike_state st st' -> o_round lo xs ys kd lr st' is = o_round lo xs ys kd lr st is.
Proof.
  intros Nl Ne (C & E1 & E2 & E3). destruct is as [|i is]; [congruence|]. unfold o_round, with_l. rewrite E1, E2, E3. do 2 f_equal. cbn [fold_left]. f_equal. unfold l_present. f_equal.
  apply calm_sample; [destruct (ns_l st); [congruence|discriminate]|now apply calm_reset].
Qed.
Lemma step_forgets st st' i : ns_l st <> [] -> alike_state st st' -> o_step lo xs ys kd lr st' i = o_step lo xs ys kd lr st i.
Proof. intros Nl (C & E1 & E2 & E3). unfold o_step, with_l. rewrite E1, E2, E3. do 2 f_equal. now apply calm_sample. Qed.
Lemma rounds_forget st st' iss : ns_l st <> [] -> Forall (fun is : list Z => is <> []) iss -> alike_state st st' ->
  alike_state (fold_left (o_round lo xs ys kd lr) iss st) (fold_left (o_round lo xs ys kd lr) iss st').
Proof.
  intros Nl Ne A. destruct iss as [|is iss]; [exact A|]. apply Forall_cons_iff in Ne as [Ne _]. cbn [fold_left]. rewrite (round_forgets st st' is Nl Ne A).
  split; [apply calm_refl|auto].
Qed.
Lemma steps_forget st st' is : ns_l st <> [] -> alike_state st st' ->
  alike_state (fold_left (o_step lo xs ys kd lr) is st) (fold_left (o_step lo xs ys kd lr) is st').
Proof.
  intros Nl A. destruct is as [|i is]; [exact A|]. cbn [fold_left]. rewrite (step_forgets st st' i Nl A). split; [apply calm_refl|auto].
Qed.
End Forget.

(** ** evaluation *)
Lemma bind_ext_at A B (c c' : M T A) (f : A -> M T B) m : c m = c' m -> bind c f m = bind c' f m.
Proof. intros E. unfold bind. now rewrite E. Qed.
Definition reads {A} (c : M T A) m : Prop := exists a, c m = Ok (a, m).
Lemma reads_fold A n (body : Z -> A -> M T A) m : 0 <= n -> (forall i a, 0 <= i < n -> reads (body i a) m) -> forall lo a, 0 <= lo <= n -> reads (mfold lo n body a) m.
Proof.
  intros Hn H lo a Hl. assert (W : wp (mfold lo n body a) m (fun _ m' => m' = m)).
  { apply (wp_mfold _ lo n _ (fun _ _ m' => m' = m)); [lia|reflexivity| |auto]. intros i b m' Hi ->. destruct (H i b ltac:(lia)) as (c & E). unfold wp. now rewrite E. }
  apply wp_elim in W as (r & m' & E & ->). exists r. exact E.
Qed.
Lemma guide_max_reads n p m f : 0 < n -> holds m p n f -> reads (guide_max n p) m.
Proof.
  intros Hn H. assert (W : wp (guide_max n p) m (fun i m' => m' = m /\ 0 <= i < n)).
  { unfold guide_max. apply (wp_mfold _ 1 n _ (fun j i m' => m' = m /\ 0 <= i < n)); [lia|split; [reflexivity|lia]| |auto].
    intros j best m' Hj (-> & Hb). eapply wp_bind, wp_load; [apply H; lia|]. eapply wp_bind, wp_load; [apply H; lia|]. apply wp_ret. split; [reflexivity|]. destruct (ltb _ _); lia. }
  apply wp_elim in W as (r & m' & E & -> & _). exists r. exact E.
Qed.
Lemma guide_max_reads0 n p m : n <= 0 -> reads (guide_max (T := T) n p) m.
Proof. intros Hn. unfold guide_max, mfold. replace (Z.to_nat (n - 1)) with 0%nat by lia. exists 0. reflexivity. Qed.
Lemma eval_loop A m l k vi vo vx vy (body : tensor -> tensor -> A -> M T A) a0 :
  l <> [] -> Z.of_nat (length l) < 2 ^ 64 -> net_at m l -> has_outputs l k -> PropChecker.data_at m l (Z.of_nat (length vo)) k vi vo vx vy ->
  (forall z y a mm zv yv, t_size z = k -> holds mm (t_data z) k zv -> holds mm (t_data y) k yv -> reads (body z y a) mm) ->
  exists r m' l', mfold 0 (Z.of_nat (length vo)) (fun i a =>
      let* x := nth_of vi i in
      let* y := net_feedforward (layers l) x in
      let* z := nth_of vo i in
      body z y a) a0 m = Ok (r, m') /\
    net_at m' l' /\ calm l l' /\ only (fun b _ => net_block l b) m m'.
Proof.
  intros Ne Hn A0 (p & Ep & Eo) (_ & Hd) Hb. set (n := Z.of_nat (length vo)) in *. assert (0 <= n) by lia.
  match goal with |- exists r m' l', ?c m = _ /\ _ => assert (W : wp c m (fun r m' => only (fun b _ => net_block l b) m m' /\ exists l', net_at m' l' /\ calm l l')) end.
  { apply (wp_mfold _ 0 n _ (fun i r m' => only (fun b _ => net_block l b) m m' /\ exists l', net_at m' l' /\ calm l l')); [lia| | |auto].
    - split; [apply only_refl|]. exists l. split; [exact A0|apply calm_refl].
    - intros i r m' Hi (O & l' & A' & C). destruct (Hd i ltac:(lia)) as (x & y & Ex & Ey & Sx & Ty & Hy & Oy).
      destruct (calm_layers _ _ C) as [L' P']. pose proof (calm_length _ _ C) as Len.
      assert (Sx' : sample_at m' l' x (vx i)).
      { apply (sample_same _ l); [congruence|congruence|]. destruct Sx as (Q1 & Q2 & Q3). split; [exact Q1|]. split; [|exact Q3]. eapply outside_only; eauto. }
      destruct (feedforward_run m' l' x (vx i)) as (y' & m2 & E2 & A2 & O2 & p' & Ep' & Yp' & Yh' & _); auto; [intros ->; destruct l; [congruence|discriminate]|lia|].
      assert (p' = p) by (rewrite P', Len in Ep'; congruence). subst p'. rewrite Eo in Yh'. rewrite L' in E2.
      assert (O2' : only (fun b _ => net_block l b) m' m2). { eapply only_weaken; [|exact O2]. cbn. intros b _ Q. now apply (net_block_same l' l). }
      unfold wp, bind. unfold nth_of at 1. rewrite Ex. cbn [ret]. rewrite E2. unfold nth_of. rewrite Ey. cbn [ret].
      destruct (Hb y y' r m2 (vy i) (net_out l' (vx i)) Ty) as (r' & Er); [|exact Yh'|].
      + eapply outside_only; [exact O2'|exact Oy|]. eapply outside_only; eauto.
      + rewrite Er. split; [eapply only_trans; eauto|]. exists (run_fwd l' (vx i)). split; [exact A2|]. eapply calm_trans; [exact C|apply calm_fwd]. }
  apply wp_elim in W as (r & m' & E & O & l' & A' & C). exists r, m', l'. auto.
Qed.

Lemma guide_normal_reads k z y m zv yv : t_size z = k -> holds m (t_data z) k zv -> holds m (t_data y) k yv -> reads (guide_normal z y) m.
Proof.
  intros Tz Hz Hy. unfold guide_normal. rewrite Tz. destruct (Z_lt_le_dec 0 k) as [P|P].
  - destruct (guide_max_reads k _ m _ P Hz) as (i & Ei). destruct (guide_max_reads k _ m _ P Hy) as (j & Ej). exists (i =? j). unfold bind, ret. now rewrite Ei, Ej.
  - destruct (guide_max_reads0 k (t_data z) m P) as (i & Ei). destruct (guide_max_reads0 k (t_data y) m P) as (j & Ej). exists (i =? j). unfold bind, ret. now rewrite Ei, Ej.
Qed.
Lemma guide_full_reads k r z y m zv yv : 0 <= k -> t_size z = k -> holds m (t_data z) k zv -> holds m (t_data y) k yv -> reads (guide_full z y r) m.
Proof.
  intros Hk Tz Hz Hy. unfold guide_full. rewrite Tz. apply reads_fold; [exact Hk| |lia]. intros i [|] Hi; [|exists false; reflexivity].
  unfold reads, bind, ret. rewrite (load_ok _ _ _ _ (Hz i Hi)), (load_ok _ _ _ _ (Hy i Hi)). eauto.
Qed.
Lemma guide_global_reads k r z y m zv yv : 0 <= k -> t_size z = k -> holds m (t_data z) k zv -> holds m (t_data y) k yv -> reads (guide_global z y r) m.
Proof.
  intros Hk Tz Hz Hy. unfold guide_global. rewrite Tz. apply reads_fold; [exact Hk| |lia]. intros i c Hi.
  unfold reads, bind, ret. rewrite (load_ok _ _ _ _ (Hz i Hi)), (load_ok _ _ _ _ (Hy i Hi)). eauto.
Qed.
Lemma reads_bind_ret A B (c : M T A) (f : A -> B) m : reads c m -> reads (bind c (fun a => ret (f a))) m.
Proof. intros (a & E). exists (f a). unfold bind. now rewrite E. Qed.
(** the data of an evaluation call in the present memory *)
Definition eval_now m l (c : call T) : Prop :=
  match c with
  | Predict x => exists v, sample_at m l x v
  | MeanLoss vi vo | CheckLoss _ vi vo | Accuracy vi vo | AccuracyFull vi vo _ => exists k vx vy, 0 <= k /\ has_outputs l k /\ PropChecker.data_at m l (Z.of_nat (length vo)) k vi vo vx vy
  | AccuracyGlobal vi vo _ => (exists k vx vy, 0 <= k /\ has_outputs l k /\ PropChecker.data_at m l (Z.of_nat (length vo)) k vi vo vx vy) /\ vo <> []
  | _ => False
  end.
Lemma eval_run addr t lo idata odata c m l o : l <> [] -> Z.of_nat (length l) < 2 ^ 64 -> net_at m l -> tr_loss t = Some lo -> eval_now m l c ->
  exists m' l', do_call addr t idata odata c (layers l, o) m = Ok ((layers l, o), m') /\ net_at m' l' /\ calm l l' /\ only (fun b _ => net_block l b) m m'.
Proof.
  intros Ne Hn A El Ev. destruct c as [E|E b|k g|x|vi vo|lo' vi vo|vi vo|vi vo r|vi vo r]; cbn [eval_now] in Ev; try tauto; cbn [do_call].
  - destruct Ev as (v & Sx). destruct (feedforward_run m l x v Ne Hn A Sx) as (y & m' & E & A' & O & _). exists m', (run_fwd l v). unfold bind. rewrite E.
    split; [reflexivity|]. split; [exact A'|]. split; [apply calm_fwd|exact O].
  - destruct Ev as (k & vx & vy & Hk & Ho & Hd). erewrite bind_ext_at by (exact (C71_checker_equals_trainer m (layers l) t lo vi vo El)).
    destruct (eval_loop T m l k vi vo vx vy (fun z y result => let* error := loss_f lo (t_size z) (t_data z) (t_data y) in ret (add result error)) zero Ne Hn A Ho Hd) as (r & m' & l' & E & Q).
    { intros z y a mm zv yv Tz Hz Hy. apply reads_bind_ret. rewrite Tz. exists (loss_val lo k zv yv). now apply loss_f_ok. }
    exists m', l'. split; [|exact Q]. unfold chk_loss, bind at 1 2. rewrite E. reflexivity.
  - destruct Ev as (k & vx & vy & Hk & Ho & Hd).
    destruct (eval_loop T m l k vi vo vx vy (fun z y result => let* error := loss_f lo' (t_size z) (t_data z) (t_data y) in ret (add result error)) zero Ne Hn A Ho Hd) as (r & m' & l' & E & Q).
    { intros z y a mm zv yv Tz Hz Hy. apply reads_bind_ret. rewrite Tz. exists (loss_val lo' k zv yv). now apply loss_f_ok. }
    exists m', l'. split; [|exact Q]. unfold chk_loss, bind at 1 2. rewrite E. reflexivity.
  - destruct Ev as (k & vx & vy & Hk & Ho & Hd).
    destruct (eval_loop Z m l k vi vo vx vy (fun z y count => let* b := guide_normal z y in ret (if b : bool then count + 1 else count)) 0 Ne Hn A Ho Hd) as (r & m' & l' & E & Q).
    { intros z y a mm zv yv Tz Hz Hy. apply reads_bind_ret. eapply guide_normal_reads; eauto. }
    exists m', l'. split; [|exact Q]. unfold acc_normal, bind at 1 2. rewrite E. reflexivity.
  - destruct Ev as (k & vx & vy & Hk & Ho & Hd).
    destruct (eval_loop Z m l k vi vo vx vy (fun z y count => let* b := guide_full z y r in ret (if b : bool then count + 1 else count)) 0 Ne Hn A Ho Hd) as (r' & m' & l' & E & Q).
    { intros z y a mm zv yv Tz Hz Hy. apply reads_bind_ret. eapply guide_full_reads; eauto. }
    exists m', l'. split; [|exact Q]. unfold acc_full, bind at 1 2. rewrite E. reflexivity.
  - destruct Ev as ((k & vx & vy & Hk & Ho & Hd) & Nv).
    destruct (eval_loop Z m l k vi vo vx vy (fun z y count => let* c := guide_global z y r in ret (count + c)) 0 Ne Hn A Ho Hd) as (r' & m' & l' & E & Q).
    { intros z y a mm zv yv Tz Hz Hy. apply reads_bind_ret. eapply guide_global_reads; eauto. }
    exists m', l'. split; [|exact Q]. unfold acc_global, bind at 1 2. rewrite E. destruct vo as [|z vo]; [congruence|]. reflexivity.
Qed.
End Any.

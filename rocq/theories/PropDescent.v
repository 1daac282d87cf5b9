(** * Properties C89-C91: training runs end to end *)
From Coq Require Import QArith Reals Lra FunctionalExtensionality.
From Coquelicot Require Import Coquelicot.
From Verif Require Import Mem Scalar MemSpec MemLemmas Lique LiqueSpec LiqueProofs LiqueProofs2 Linear LinearProofs Functions FunctionSpec FunctionProofs
  Optimizer Layer LayerSpec FCProofs Cells ConvSpec ConvProofs ConvProofs2 PoolSpec PoolProofs RSum RealSpec ActivationProofs LossProofs NetSpec Vjp ConvVjp
  PropFunctions PropFC PropConv PropPool Net NetPlan NetProofs NetBack PropNet NetReal NetGrad PropNetGrad NetTotal Checker PropChecker Schedule PropTraining Descent DescentSpec DescentReal.
Open Scope Z_scope.

(** ** C89: training runs to the end *)
(** [ready m l t lo idata odata xs ys] (Descent.v): a network [l] of two or more trainable layers, a
    trainer [t] for it with loss [lo] and, for each of the samples, an input tensor of [xs i] fitting
    the network and a target tensor of [ys i], all in separate memory.  [train_mem l t]: the memory of
    the network and of the trainer. *)
Lemma rounds_plans {T} `{Num T} lo xs ys lr iss : forall l : list (node T), plans (fold_left (l_round lo xs ys lr) iss l) = plans l.
Proof.
  induction iss as [|is iss IH]; intros l; [reflexivity|]. cbn [fold_left]. rewrite IH. unfold l_round.
  rewrite (proj1 (alike_map (n_update lr _) _ (alike_update _ _))). rewrite <- (proj1 (alike_map n_reset l alike_reset)).
  generalize (map n_reset l). induction is as [|i is IHi]; intros l'; [reflexivity|]. cbn [fold_left]. rewrite IHi. unfold l_present.
  rewrite (proj1 (alike_map n_accum _ alike_accum)). apply plans_sample.
Qed.
Lemma steps_plans {T} `{Num T} lo xs ys lr is : forall l : list (node T), plans (fold_left (l_step lo xs ys lr) is l) = plans l.
Proof.
  induction is as [|i is IH]; intros l; [reflexivity|]. cbn [fold_left]. rewrite IH. unfold l_step.
  rewrite (proj1 (alike_map (n_update lr _) _ (alike_update _ _))). apply plans_sample.
Qed.
Section Total.
Context {T : Type} `{NT : Num T}.
Context (addr : ptr -> Z) (m : mem T) (l : list (node T)) (t : trainer) (lo : loss) (idata odata : list tensor) (xs ys : Z -> Z -> T) (o : opt T).
Notation n := (Z.of_nat (length idata)).
Context (Rd : ready m l t lo idata odata xs ys) (Ko : o_kind o = GradDescent).
Lemma all_valid a b : 0 <= a -> b <= n -> Forall (valid idata) (zrange a b).
Proof. intros Ha Hb. apply Forall_forall. intros i Hi. apply in_zrange in Hi. unfold valid. lia. Qed.
Definition batches (E : Z) : list (list Z) := repeat (zrange 0 n) (Z.to_nat E).
Definition mini_batches (b E : Z) : list (list Z) := concat (repeat (map (fun k => zrange (k * b) (k * b + b)) (zrange 0 (n / b))) (Z.to_nat E)).
Lemma batches_valid E : Forall (Forall (valid idata)) (batches E).
Proof. apply Forall_forall. intros is Hi. apply repeat_spec in Hi as ->. apply all_valid; lia. Qed.
Lemma mini_valid b E : 0 < b -> Forall (Forall (valid idata)) (mini_batches b E).
Proof.
  intros Hb. apply Forall_forall. intros is Hi. apply in_concat in Hi as (l' & Hl & Hi). apply repeat_spec in Hl as ->.
  apply in_map_iff in Hi as (k & <- & Hk). apply in_zrange in Hk. apply all_valid; [nia|]. pose proof (Z.mul_div_le n b Hb). nia.
Qed.
Lemma batch_run E : 0 <= E -> exists m', tr_batch addr (layers l) t idata odata o E m = Ok ((layers (fold_left (l_round lo xs ys (o_lr o)) (batches E) l), o), m') /\
  ready m' (fold_left (l_round lo xs ys (o_lr o)) (batches E) l) t lo idata odata xs ys /\ only (train_mem l t) m m'.
Proof.
  intros HE. rewrite C67_batch_schedule by auto. destruct (rounds_run addr t lo idata odata xs ys (batches E) m l o Ko Rd (batches_valid E)) as (m' & R & A).
  exists m'. split; [|exact A]. rewrite <- R. f_equal. unfold batch_schedule, batches. induction (Z.to_nat E) as [|k IH]; [reflexivity|]. cbn [repeat concat flat_map]. now rewrite IH.
Qed.
Lemma mini_run b E : 0 <= E -> 0 < b -> n < 2 ^ 64 ->
  exists m', tr_mini_batch addr (layers l) t idata odata o E b m = Ok ((layers (fold_left (l_round lo xs ys (o_lr o)) (mini_batches b E) l), o), m') /\
  ready m' (fold_left (l_round lo xs ys (o_lr o)) (mini_batches b E) l) t lo idata odata xs ys /\ only (train_mem l t) m m'.
Proof.
  intros HE Hb Hn. rewrite C68_mini_batch_schedule by auto. destruct (rounds_run addr t lo idata odata xs ys (mini_batches b E) m l o Ko Rd (mini_valid b E Hb)) as (m' & R & A).
  exists m'. split; [|exact A]. rewrite <- R. f_equal. unfold mini_batch_schedule, mini_batches. induction (Z.to_nat E) as [|k IH]; [reflexivity|]. cbn [repeat concat flat_map].
  rewrite flat_map_app, <- IH. f_equal. clear. induction (zrange 0 (n / b)) as [|k ks IH]; [reflexivity|]. cbn [map flat_map]. now rewrite IH.
Qed.
Lemma layers_steps is : forall l0 : list (node T), layers (fold_left (l_step lo xs ys (o_lr o)) is l0) = layers l0.
Proof.
  induction is as [|i is IH]; intros l0; [reflexivity|]. cbn [fold_left]. rewrite IH. unfold l_step, layers. rewrite map_map.
  change (map n_layer l0) with (layers l0). rewrite <- (layers_sample lo (xs i) (ys i) l0). unfold layers. apply map_ext. intros d. unfold n_update. destruct d as [[L|L|L|L|L|L] p s]; reflexivity.
Qed.
Definition chosen (S : Z) (g : Z -> Z) : list Z := map (fun i => g i mod n) (zrange 0 S).
Lemma stochastic_run S g : 0 <= S -> idata <> [] -> (forall i, 0 <= g i < 2 ^ 64) ->
  exists m', tr_stochastic addr (layers l) t idata odata o S g m = Ok (o, m') /\
  ready m' (fold_left (l_step lo xs ys (o_lr o)) (chosen S g) l) t lo idata odata xs ys /\ only (train_mem l t) m m'.
Proof.
  intros HS Hn Hg. assert (V : Forall (valid idata) (chosen S g)).
  { apply Forall_forall. intros i Hi. apply in_map_iff in Hi as (k & <- & _). apply Z.mod_pos_bound. destruct idata; [congruence|cbn; lia]. }
  destruct (steps_run addr t lo idata odata xs ys (chosen S g) m l o Ko Rd V) as (m' & R & A). exists m'. split; [|exact A].
  pose proof (C69_stochastic_schedule addr t idata odata (layers l) o S g m HS Hn Hg) as Q. unfold stochastic_schedule in Q.
  replace (flat_map (fun i => step_on (g i mod n)) (zrange 0 S)) with (flat_map (step_on (T := T)) (chosen S g)) in Q.
  - pose proof (eq_trans Q R) as Q'. clear Q. rename Q' into Q. rewrite layers_steps in Q. unfold bind, ret in Q. destruct (tr_stochastic addr (layers l) t idata odata o S g m) as [[o' m'']|e]; [|discriminate]. injection Q as <- <-. reflexivity.
  - unfold chosen. clear. induction (zrange 0 S) as [|k ks IH]; [reflexivity|]. cbn [map flat_map]. now rewrite IH.
Qed.
(** Every network, whatever its layers (dense, convolution, pooling), numbers and batch sizes: batch,
    mini-batch and stochastic training with gradient descent succeed, write only to the network and
    the trainer and leave them ready for more; stochastic training also keeps the layer objects. *)
Theorem C89_batch_succeeds E : 0 <= E -> exists l' m', tr_batch addr (layers l) t idata odata o E m = Ok ((layers l', o), m') /\
  ready m' l' t lo idata odata xs ys /\ plans l' = plans l /\ only (train_mem l t) m m'.
Proof.
  intros HE. destruct (batch_run E HE) as (m' & R & A & O). eexists _, m'. split; [exact R|]. split; [exact A|]. split; [|exact O]. apply rounds_plans.
Qed.
Theorem C89_mini_batch_succeeds E b : 0 <= E -> 0 < b -> n < 2 ^ 64 -> exists l' m', tr_mini_batch addr (layers l) t idata odata o E b m = Ok ((layers l', o), m') /\
  ready m' l' t lo idata odata xs ys /\ plans l' = plans l /\ only (train_mem l t) m m'.
Proof.
  intros HE Hb Hn. destruct (mini_run b E HE Hb Hn) as (m' & R & A & O). eexists _, m'. split; [exact R|]. split; [exact A|]. split; [|exact O]. apply rounds_plans.
Qed.
Theorem C89_stochastic_succeeds S g : 0 <= S -> idata <> [] -> (forall i, 0 <= g i < 2 ^ 64) ->
  exists l' m', tr_stochastic addr (layers l) t idata odata o S g m = Ok (o, m') /\
  ready m' l' t lo idata odata xs ys /\ layers l' = layers l /\ plans l' = plans l /\ only (train_mem l t) m m'.
Proof.
  intros HS Hn Hg. destruct (stochastic_run S g HS Hn Hg) as (m' & R & A & O). eexists _, m'. split; [exact R|]. split; [exact A|]. split; [apply layers_steps|]. split; [|exact O]. apply steps_plans.
Qed.
End Total.

(** ** C90: training is gradient descent on the mean loss *)
Section Real.
Local Open Scope R_scope.
Context (addr : ptr -> Z) (m : mem R) (l : list (node R)) (t : trainer) (lo : loss) (idata odata : list tensor) (xs ys : Z -> Z -> R).
Notation n := (Z.of_nat (length idata)).
Lemma ready_sound : ready m l t lo idata odata xs ys -> clean (to_model l) -> Forall sound l.
Proof.
  intros (_ & Tr & A & _) Cl. apply Forall_forall. intros d Hd. unfold layers in Tr. rewrite Forall_map, Forall_forall in Tr. destruct A as [A _]. rewrite Forall_forall in A.
  unfold clean, to_model in Cl. rewrite Forall_map, Forall_forall in Cl. split; [now apply Tr|]. split; [now apply A|]. exact (Cl d Hd).
Qed.
Lemma ready_wired : ready m l t lo idata odata xs ys -> idata <> [] -> exists s0, wired s0 (plans l).
Proof.
  intros (_ & _ & _ & _ & Da) Hn. destruct (Da 0%Z) as (x & y & _ & _ & (W & _) & _); [destruct idata; [congruence|cbn; lia]|]. eauto.
Qed.
Lemma zrange_ne a b : (a < b)%Z -> zrange a b <> [].
Proof. intros H Q. assert (I : In a (zrange a b)) by (apply in_zrange; lia). rewrite Q in I. destruct I. Qed.
(** Dense and convolution layers, activations and losses as in C65.  Batch training for [E] epochs: [E]
    steps against the gradient of the mean loss over all samples.  ([descends], [descent_step] in
    DescentSpec.v: a convolution adds its last displacement, divided by the number of samples, to
    the gradient; at points where the loss has no derivative nothing is said of that step.) *)
Theorem C90_batch_descends o E : ready m l t lo idata odata xs ys -> o_kind o = GradDescent -> (0 <= E)%Z -> idata <> [] -> clean (to_model l) ->
  exists l' m', tr_batch addr (layers l) t idata odata o E m = Ok ((layers l', o), m') /\ ready m' l' t lo idata odata xs ys /\ clean (to_model l') /\
    descends lo xs ys (o_lr o) (repeat (zrange 0 n) (Z.to_nat E)) (to_model l) (to_model l').
Proof.
  intros Rd Ko HE Hn Cl. destruct (batch_run addr m l t lo idata odata xs ys o Rd Ko E HE) as (m' & R & A & O). eexists _, m'. split; [exact R|]. split; [exact A|].
  pose proof (ready_sound Rd Cl) as S. destruct (ready_wired Rd Hn) as [s0 W].
  assert (Ne : Forall (fun is : list Z => is <> []) (batches idata E)).
  { apply Forall_forall. intros is Hi. apply repeat_spec in Hi as ->. apply zrange_ne. destruct idata; [congruence|cbn; lia]. }
  split; [|exact (rounds_descend lo xs ys (o_lr o) (batches idata E) l s0 Ne S W)]. apply sound_clean. now apply rounds_sound.
Qed.
(** Mini-batches of [b]: a step per mini-batch, in order, [E] times over. *)
Theorem C90_mini_batch_descends o E b : ready m l t lo idata odata xs ys -> o_kind o = GradDescent -> (0 <= E)%Z -> (0 < b)%Z -> (0 < n < 2 ^ 64)%Z -> clean (to_model l) ->
  exists l' m', tr_mini_batch addr (layers l) t idata odata o E b m = Ok ((layers l', o), m') /\ ready m' l' t lo idata odata xs ys /\ clean (to_model l') /\
    descends lo xs ys (o_lr o) (concat (repeat (map (fun k => zrange (k * b) (k * b + b)) (zrange 0 (n / b))) (Z.to_nat E))) (to_model l) (to_model l').
Proof.
  intros Rd Ko HE Hb Hn Cl. destruct (mini_run addr m l t lo idata odata xs ys o Rd Ko b E HE Hb ltac:(lia)) as (m' & R & A & O). eexists _, m'. split; [exact R|]. split; [exact A|].
  pose proof (ready_sound Rd Cl) as S. destruct (ready_wired Rd) as [s0 W]; [intros Q; rewrite Q in Hn; cbn in Hn; lia|].
  assert (Ne : Forall (fun is : list Z => is <> []) (mini_batches idata b E)).
  { apply Forall_forall. intros is Hi. apply in_concat in Hi as (l' & Hl & Hi). apply repeat_spec in Hl as ->. apply in_map_iff in Hi as (k & <- & Hk). apply zrange_ne. lia. }
  split; [|exact (rounds_descend lo xs ys (o_lr o) (mini_batches idata b E) l s0 Ne S W)]. apply sound_clean. now apply rounds_sound.
Qed.
(** Stochastic training: a step on the loss of one sample at a time, the [i]-th on sample g(i) mod n -
    as long as no dense layer has accumulated gradients since it was created or reset. *)
Theorem C90_stochastic_descends_partial o S g : ready m l t lo idata odata xs ys -> o_kind o = GradDescent -> (0 <= S)%Z -> idata <> [] -> (forall i, (0 <= g i < 2 ^ 64)%Z) ->
  clean (to_model l) -> (forall L, In (LFC L) (layers l) -> f_acc L = false) ->
  exists l' m', tr_stochastic addr (layers l) t idata odata o S g m = Ok (o, m') /\ ready m' l' t lo idata odata xs ys /\ clean (to_model l') /\ layers l' = layers l /\
    descends lo xs ys (o_lr o) (map (fun i => [(g i mod n)%Z]) (zrange 0 S)) (to_model l) (to_model l').
Proof.
  intros Rd Ko HS Hn Hg Cl U. destruct (stochastic_run addr m l t lo idata odata xs ys o Rd Ko S g HS Hn Hg) as (m' & R & A & O). eexists _, m'. split; [exact R|]. split; [exact A|].
  pose proof (ready_sound Rd Cl) as Sd. destruct (ready_wired Rd Hn) as [s0 W].
  assert (Uf : Forall unflagged l).
  { apply Forall_forall. intros d Hd. unfold unflagged. destruct (n_layer d) as [L|L|L|L|L|L] eqn:EL; auto. apply U. rewrite <- EL. now apply in_map. }
  split; [|split; [apply layers_steps|]].
  - apply sound_clean. generalize (chosen idata S g). clear -Sd. intros is. revert l Sd. induction is as [|i is IH]; intros l Sd; [exact Sd|]. cbn [fold_left]. apply IH. now apply step_sound.
  - replace (map (fun i : Z => [(g i mod n)%Z]) (zrange 0 S)) with (map (fun i => [i]) (chosen idata S g)) by (unfold chosen; now rewrite map_map).
    exact (steps_descend lo xs ys (o_lr o) (chosen idata S g) l s0 Sd Uf W).
Qed.

(** ** C91: with a small enough learning rate the loss decreases *)
(** The convolutions' gradient tensors are zero (so they are in new layers); some partial derivative of
    the mean loss is not zero.  Then there is a bound below which every learning rate makes one epoch
    of batch training decrease the mean loss over the data. *)
Theorem C91_small_rate_decreases : ready m l t lo idata odata xs ys -> idata <> [] -> clean (to_model l) -> no_velocity (to_model l) ->
  smooth_on lo (to_model l) xs ys (zrange 0 n) -> not_stationary (fun th => mean_loss lo th xs ys (zrange 0 n)) (to_model l) ->
  exists eps, 0 < eps /\ forall o, o_kind o = GradDescent -> 0 < o_lr o < eps ->
  exists l' m', tr_batch addr (layers l) t idata odata o 1 m = Ok ((layers l', o), m') /\ ready m' l' t lo idata odata xs ys /\ plans l' = plans l /\ clean (to_model l') /\
    mean_loss lo (to_model l') xs ys (zrange 0 n) < mean_loss lo (to_model l) xs ys (zrange 0 n).
Proof.
  intros Rd Hn Cl Nv Sm Ns. pose proof (ready_sound Rd Cl) as S. destruct (ready_wired Rd Hn) as [s0 W].
  assert (Ne : zrange 0 n <> []) by (apply zrange_ne; destruct idata; [congruence|cbn; lia]).
  destruct (round_decreases lo xs ys (zrange 0 n) l s0 Ne S W Sm Nv Ns) as (eps & He & Dc). exists eps. split; [exact He|]. intros o Ko Ho.
  destruct (batch_run addr m l t lo idata odata xs ys o Rd Ko 1 ltac:(lia)) as (m' & R & A & O). eexists _, m'. split; [exact R|]. split; [exact A|].
  unfold batches. change (Z.to_nat 1) with 1%nat. cbn [repeat fold_left]. split; [apply round_plans|]. split; [|now apply Dc]. apply sound_clean. now apply round_sound.
Qed.
(** The same as the user sees it, for dense layers: loss(idata, odata), one epoch of batch training, then
    loss(idata, odata) returns less.  (The loss returned is the one trained: with a SoftMax layer at
    the end this is a condition on the targets, met by NLL with one-hot targets.) *)
Definition loss_shown (p : plan) (y : Z -> R) : Prop := match p with PDense SoftMax _ k => forall z, cross_entropy k y z = std_loss lo k y z | _ => True end.
Lemma shown_net p y z : loss_shown p y -> net_loss lo p y z = std_loss lo (out_count p) y z.
Proof. destruct p as [[a|] n' k|g|a q]; cbn; auto. Qed.
End Real.
Section Shown.
Local Open Scope R_scope.
Context (addr : ptr -> Z) (t : trainer) (lo : loss) (idata odata : list tensor) (xs ys : Z -> Z -> R).
Notation n := (Z.of_nat (length idata)).
Lemma sum_zrange (f : Z -> R) k : (0 <= k)%Z -> sum_over f (zrange 0 k) = rsum k f.
Proof.
  intros Hk. assert (Sr : forall a b (h : Z -> R), sum_over h (a ++ b) = sum_over h a + sum_over h b).
  { intros a b h. unfold sum_over. rewrite fold_right_app. induction a as [|x a IH]; cbn [app fold_right]; [lra|]. rewrite IH. lra. }
  revert k Hk. refine (natlike_ind (fun k => sum_over f (zrange 0 k) = rsum k f) _ _).
  - reflexivity.
  - intros k Hk IH. rewrite <- Z.add_1_r. rewrite rsum_S by lia. rewrite <- IH. unfold zrange. replace (Z.to_nat (k + 1 - 0)) with (S (Z.to_nat (k - 0))) by lia.
    rewrite seq_S, map_app, Sr. cbn [map sum_over fold_right]. f_equal. rewrite Nat.add_0_l, Z2Nat.id by lia. rewrite Z.sub_0_r, Z.add_0_l. lra.
Qed.
Lemma loss_run (m : mem R) l : ready m l t lo idata odata xs ys -> length odata = length idata -> idata <> [] -> Forall (fun y => t_size y = t_size (tr_delta t)) odata ->
  Forall (fun p => match p with PPool _ _ => False | _ => True end) (plans l) -> (forall i, (0 <= i < n)%Z -> loss_shown lo (last_plan l) (ys i)) ->
  exists m' l', tr_loss_mean (layers l) t idata odata m = Ok (mean_loss lo (to_model l) xs ys (zrange 0 n), m') /\
    ready m' l' t lo idata odata xs ys /\ layers l' = layers l /\ Forall2 same_params l l'.
Proof.
  intros Rd Len Hn Sz Np Sh. pose proof Rd as (Hl & Tr & A & Ta & Da). assert (Ne : l <> []) by (intros ->; cbn in Hl; lia).
  assert (F : Forall (fun d => fits (n_layer d) (n_plan d)) l) by (eapply Forall_impl; [|exact (proj1 A)]; cbn; tauto).
  destruct l as [|d0 l0] eqn:El0; [congruence|]. rewrite <- El0 in *. clear El0 l0.
  pose proof (wired_back_last l d0 (t_shape (tr_delta t)) Ne F (proj1 (proj2 Ta))) as Ek.
  set (k := out_count (n_plan (last l d0))) in *.
  assert (Elp : last_plan l = n_plan (last l d0)).
  { unfold last_plan, plans. clear -Ne. induction l as [|d l IH]; [congruence|]. destruct l as [|e l]; [reflexivity|]. exact (IH ltac:(discriminate)). }
  assert (Ho : has_outputs l k).
  { exists (n_plan (last l d0)). split; [|reflexivity]. unfold plans. rewrite nth_error_map. replace (nth_error l (length l - 1)) with (Some (last l d0)); [reflexivity|].
    clear -Ne. induction l as [|d l IH]; [congruence|]. destruct l as [|e l]; [reflexivity|]. specialize (IH ltac:(discriminate)).
    replace (length (d :: e :: l) - 1)%nat with (S (length (e :: l) - 1)) by (cbn; lia). exact IH. }
  assert (Dc : PropChecker.data_at m l n k idata odata xs ys).
  { split; [lia|]. intros i Hi. destruct (Da i Hi) as (x & y & Zx & Zy & Sx & _ & (Hy & Oy & _)). exists x, y. split; [exact Zx|]. split; [exact Zy|]. split; [exact Sx|].
    rewrite Forall_forall in Sz. assert (Ey : t_size y = t_size (tr_delta t)). { apply Sz. unfold znth in Zy. destruct (0 <=? i)%Z; [|discriminate]. eapply nth_error_In; exact Zy. }
    change (t_size (tr_delta t)) with (s_size (t_shape (tr_delta t))) in *. rewrite Ek in *. auto. }
  assert (K0 : (0 <= k)%Z). { unfold k. assert (Fl : fits (n_layer (last l d0)) (n_plan (last l d0))). { rewrite Forall_forall in F. apply F. clear -Ne. induction l as [|d l IH]; [congruence|].
      destruct l as [|e l]; [left; reflexivity|]. right. exact (IH ltac:(discriminate)). }
    apply fits_counts in Fl. apply Fl. }
  assert (N0 : (0 < n)%Z) by (destruct idata; [congruence|cbn; lia]).
  destruct (C71_mean_loss m l n k idata odata xs ys lo Ne ltac:(lia) A Ho Dc N0 K0) as (m' & l' & E & A' & Sm & O).
  exists m', l'. split; [|split; [|split]].
  - rewrite (C71_checker_equals_trainer m (layers l) t lo idata odata (proj1 Ta)), E. do 2 f_equal. unfold mean_loss.
    rewrite sum_zrange by lia. f_equal.
    + apply rsum_ext. intros i Hi. unfold sample_loss. rewrite final_plan_model, shown_net by auto. rewrite Elp. fold k. f_equal. rewrite net_out_all; auto. unfold plans in Np. now rewrite Forall_map in Np.
    + unfold zrange. rewrite map_length, seq_length, Z.sub_0_r. rewrite INR_IZR_INZ, Z2Nat.id by lia. reflexivity.
  - eapply ready_step; [exact Rd|apply Sm| | |exact A'|].
    + destruct Sm as (EL & _). now rewrite EL.
    + intros b. rewrite (net_block_same l' l); [reflexivity|apply Sm].
    + eapply only_weaken; [|exact O]. unfold train_mem. cbn. auto.
  - apply Sm.
  - now apply model_same.
Qed.
Theorem C91_loss_call_decreases (m : mem R) l : ready m l t lo idata odata xs ys -> length odata = length idata -> idata <> [] -> Forall (fun y => t_size y = t_size (tr_delta t)) odata ->
  Forall is_dense (plans l) -> (forall i, (0 <= i < n)%Z -> loss_shown lo (last_plan l) (ys i)) ->
  smooth_on lo (to_model l) xs ys (zrange 0 n) -> not_stationary (fun th => mean_loss lo th xs ys (zrange 0 n)) (to_model l) ->
  exists e0 m1, tr_loss_mean (layers l) t idata odata m = Ok (e0, m1) /\
  exists eps, 0 < eps /\ forall o, o_kind o = GradDescent -> 0 < o_lr o < eps ->
  exists N' m2 e1 m3, tr_batch addr (layers l) t idata odata o 1 m1 = Ok ((N', o), m2) /\ tr_loss_mean N' t idata odata m2 = Ok (e1, m3) /\ e1 < e0.
Proof.
  intros Rd Len Hn Sz Dn Sh Sm Ns.
  assert (Np : forall ps, Forall is_dense ps -> Forall (fun p => match p with PPool _ _ => False | _ => True end) ps) by (intros ps H; eapply Forall_impl; [|exact H]; intros []; cbn; tauto).
  destruct (loss_run m l Rd Len Hn Sz (Np _ Dn) Sh) as (m1 & l1 & E1 & R1 & L1 & S1). eexists _, m1. split; [exact E1|].
  assert (P1 : plans l1 = plans l) by now apply same_plans.
  assert (Cn : forall l2 : list (node R), plans l2 = plans l -> clean (to_model l2)).
  { intros l2 Q. unfold clean, to_model. rewrite Forall_map. cbn [fst snd]. rewrite <- Q in Dn. unfold plans in Dn. rewrite Forall_map in Dn. eapply Forall_impl; [|exact Dn]. cbv beta.
    intros d. destruct (n_plan d); cbn; tauto. }
  assert (Nv : no_velocity (to_model l1)).
  { intros i p s r j E _. apply nth_error_In, (in_map fst) in E. cbn [fst] in E. unfold to_model in E. rewrite map_map in E. cbn [fst] in E. change (In p (plans l1)) in E. rewrite P1 in E.
    rewrite Forall_forall in Dn. specialize (Dn p E). destruct p; cbn in Dn; tauto. }
  destruct (C91_small_rate_decreases addr m1 l1 t lo idata odata xs ys R1 Hn (Cn l1 P1) Nv (msame_smooth_on _ _ _ _ _ _ S1 Sm) (msame_stationary _ _ _ _ _ _ S1 Ns)) as (eps & He & H).
  exists eps. split; [exact He|]. intros o Ko Ho. destruct (H o Ko Ho) as (l2 & m2 & E2 & R2 & P2 & _ & Lt). rewrite L1 in E2. rewrite P1 in P2.
  assert (Lp : last_plan l2 = last_plan l) by (unfold last_plan; now rewrite P2).
  destruct (loss_run m2 l2 R2 Len Hn Sz) as (m3 & l3 & E3 & _). { rewrite P2. auto. } { rewrite Lp. exact Sh. }
  exists (layers l2), m2, (mean_loss lo (to_model l2) xs ys (zrange 0 n)), m3. split; [exact E2|]. split; [exact E3|]. rewrite <- (msame_mean lo xs ys _ _ (zrange 0 n) (same_msame _ _ S1)). exact Lt.
Qed.
End Shown.

(** the condition of C90 on stochastic training holds in every network just built *)
Lemma fc_new_fresh {T} `{Num T} i k a (m : mem T) L m' : fc_new i k a m = Ok (L, m') -> f_acc L = false.
Proof.
  unfold fc_new, fc_prepare, bind, ret. cbn [f_isize f_osize f_value f_buff f_gradBs f_gradWs f_gradB f_gradW f_delta f_B f_W f_act].
  repeat (match goal with |- match ?c with Ok _ => _ | UB _ => _ end = _ -> _ => destruct c as [[? ?]|]; [|discriminate] end). intros Q. injection Q as <- _. reflexivity.
Qed.
Lemma conv_or_fc {T} `{Num T} p (m : mem T) X m' : build_layer p m = Ok (X, m') -> forall L, X = LFC L -> f_acc L = false.
Proof.
  destruct p as [a n k|g|a q]; cbn [build_layer]; unfold bind at 1; unfold ret.
  - destruct (fc_new n k (Some a) m) as [[L0 m0]|] eqn:E; [|discriminate]. intros Q L ->. injection Q as <- _. eapply fc_new_fresh; exact E.
  - match goal with |- match ?c with Ok _ => _ | UB _ => _ end = _ -> _ => destruct c as [[L0 m0]|] end; [|discriminate]. intros Q L ->. discriminate Q.
  - match goal with |- match ?c with Ok _ => _ | UB _ => _ end = _ -> _ => destruct c as [[L0 m0]|] end; [|discriminate]. intros Q L ->. discriminate Q.
Qed.
Lemma new_network_fresh {T} `{Num T} ps : forall (N0 : net) (m : mem T) N m', build N0 ps m = Ok (N, m') -> (forall L, In (LFC L) N0 -> f_acc L = false) ->
  forall L, In (LFC L) N -> f_acc L = false.
Proof.
  induction ps as [|p ps IH]; intros N0 m N m' E F; cbn [build] in E.
  - unfold ret in E. injection E as <- _. exact F.
  - unfold bind in E. destruct (build_layer p m) as [[X m1]|] eqn:E1; [|discriminate]. apply (IH _ _ _ _ E). intros L HL. unfold net_add in HL.
    apply in_app_or in HL as [HL|[HL|[]]]; [auto|]. eapply conv_or_fc; [exact E1|exact HL].
Qed.
Module Examples.
Import PropNet.Examples.
Local Open Scope R_scope.
(** two dense layers with tanh and identity, squared error, one sample *)
Definition ps4 : list plan := [PDense (Functions.Scalar Tanh) 16 3; PDense (Functions.Scalar Identity) 3 2].
Example C89_C90_C91_apply : exists (l : list (node R)) (m : mem R) t, let xs := fun _ : Z => xv in let ys := fun _ : Z => yv in
  ready m l t MSE [tx] [ty] xs ys /\ clean (to_model l) /\ no_velocity (to_model l) /\ Forall is_dense (plans l) /\
  Forall (fun y => t_size y = t_size (tr_delta t)) [ty] /\ loss_shown MSE (last_plan l) yv /\ (forall L, In (LFC L) (layers l) -> f_acc L = false) /\
  smooth_on MSE (to_model l) xs ys (zrange 0 1) /\ not_stationary (fun th => mean_loss MSE th xs ys (zrange 0 1)) (to_model l) /\ t_shape (tr_delta t) = shape3 1 1 2.
Proof.
  destruct (C63_every_topology_builds (T := R) ps4 m0) as (N & m & E & Len & Tr & A & P & F).
  { unfold ps4. repeat apply Forall_cons; try apply Forall_nil; cbn [plan_ok]; repeat split; try lia; discriminate. }
  destruct (new_nodes_plans N ps4 Len) as [Ep El]. exists (new_nodes N ps4), m, (mk_trainer td (Some MSE)). cbv zeta.
  pose proof (new_network_fresh ps4 [] m0 N m E ltac:(intros L [])) as Fr. clear E.
  assert (Ln : length (new_nodes (T := R) N ps4) = 2%nat). { pose proof (f_equal (@length _) Ep) as Q. unfold plans in Q. rewrite map_length in Q. exact Q. }
  destruct (sample_kept m (new_nodes N ps4) 0 16 xv P F ltac:(lia) (holds_list m0 0 xs 0 eq_refl)) as [H1 H2].
  destruct (sample_kept m (new_nodes N ps4) 1 2 yv P F ltac:(lia) (holds_list m0 1 ys 0 eq_refl)) as [H3 H4].
  assert (Em : to_model (new_nodes (T := R) N ps4) = map (fun q : plan => (q, (fun _ _ => 0) : contents R)) ps4).
  { clear -Len. revert Len. generalize ps4. induction N as [|L N IH]; intros [|q qs] Len; try discriminate; [reflexivity|]. cbn. f_equal. apply IH. cbn in Len. lia. }
  split; [|split; [|split; [|split; [|split; [|split; [|split; [|split; [|split; [|reflexivity]]]]]]]]].
  - split; [lia|]. split; [rewrite El; exact Tr|]. split; [exact A|]. split.
    + split; [reflexivity|]. split; [rewrite Ep; cbn; auto|]. split. * intros Q. apply F in Q. cbn in Q. lia.
      * split; [reflexivity|]. exists 2%nat. split; [reflexivity|]. exists [None; None]. split; [|reflexivity]. rewrite (proj2 P); [reflexivity|cbn; lia|intros []].
    + intros i Hi. cbn in Hi. assert (i = 0%Z) as -> by lia. exists tx, ty. split; [reflexivity|]. split; [reflexivity|]. split; [|split].
      * split; [|split; [exact H1|exact H2]]. rewrite Ep. cbn. auto.
      * intros b i. cbn. lia.
      * split; [exact H3|split; [exact H4|]]. intros b i. cbn. lia.
  - apply PropNetGrad.Examples.clean_new. exact Len.
  - rewrite Em. intros i p s r j Hn _. destruct i as [|[|[|i]]]; cbn in Hn; try discriminate; injection Hn as <- <-; exact Logic.I.
  - rewrite Ep. repeat constructor.
  - repeat constructor.
  - unfold last_plan. rewrite Ep. exact Logic.I.
  - rewrite El. exact Fr.
  - rewrite Em. intros i _. split; [|left; reflexivity]. cbn [map ps4 smooth]. split; [split; [discriminate|]; intros j _ []|]. split; [split; [discriminate|]; intros j _ []|exact Logic.I].
  - rewrite Em. exists 1%nat, (PDense (Functions.Scalar Identity) 3 2), (fun _ _ => 0), RB, 0%Z, (-1). split; [reflexivity|]. split; [cbn; lia|]. split; [|lra].
    unfold partial. apply is_derive_Reals.
    apply (is_derive_ext (fun b => / 2 * ((1 - b) ^ 2 + (0 - 0) ^ 2))).
    + intros b. change (/ 2 * ((1 - b) ^ 2 + (0 - 0) ^ 2) = (std_loss MSE 2 yv (real_net (with_param (map (fun q : plan => (q, (fun _ _ => 0) : contents R)) ps4) 1 RB (upd (fun _ => 0) 0 b)) xv) + 0) / 1).
      set (h := real_layer (PDense (Functions.Scalar Tanh) 16 3) (fun _ _ => 0) xv).
      assert (Eo : forall j, real_net (with_param (map (fun q : plan => (q, (fun _ _ => 0) : contents R)) ps4) 1 RB (upd (fun _ => 0) 0 b)) xv j = upd (fun _ => 0) 0 b j).
      { intros j. change (rsum 3 (fun i => h i * 0) + upd (fun _ => 0) 0 b j = upd (fun _ => 0) 0 b j). rewrite (rsum_all0 3 (fun i => h i * 0)) by (intros; lra). lra. }
      cbn [std_loss]. rewrite (rsum_ext 2 _ (fun i => (yv i - upd (fun _ => 0) 0 b i) ^ 2)) by (intros; now rewrite Eo).
      change (rsum 2 (fun i => (yv i - upd (fun _ => 0) 0 b i) ^ 2)) with (0 + (1 - b) ^ 2 + (0 - 0) ^ 2). field.
    + auto_derive; auto. lra.
Qed.
End Examples.

Print Assumptions C89_batch_succeeds.
Print Assumptions C89_mini_batch_succeeds.
Print Assumptions C89_stochastic_succeeds.
Print Assumptions C90_batch_descends.
Print Assumptions C90_mini_batch_descends.
Print Assumptions C90_stochastic_descends_partial.
Print Assumptions C91_small_rate_decreases.
Print Assumptions C91_loss_call_decreases.

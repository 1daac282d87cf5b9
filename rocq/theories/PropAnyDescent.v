(** * Properties C113, C114: small steps of every optimizer decrease the loss *)
From Coq Require Import QArith Reals Lra FunctionalExtensionality.
From Coquelicot Require Import Coquelicot.
From Verif Require Import Mem Scalar MemSpec MemLemmas Lique LiqueSpec LiqueProofs LiqueProofs2 Linear LinearProofs Functions FunctionSpec FunctionProofs
  Optimizer OptimizerSpec OptimizerProofs OptimizerHist PropOptimizers Layer LayerSpec FCProofs Cells ConvSpec ConvProofs ConvProofs2 PoolSpec PoolProofs RSum RealSpec ActivationProofs LossProofs NetSpec Vjp ConvVjp
  PropFunctions PropFC PropConv PropPool Net NetPlan NetProofs NetBack PropNet NetReal NetGrad PropNetGrad NetTotal Checker PropChecker Schedule PropTraining Descent DescentSpec DescentReal PropDescent
  OptTrain OptTrainSpec OptTrainReal PropOptTrain AnyDescentSpec AnyDescent.
Local Open Scope R_scope.

Lemma class_new mk lr : optimizer_class mk -> OptTrainSpec.new_optimizer lr (mk lr).
Proof. intros []; constructor. Qed.
Lemma penalised_0 lo xs ys is th : penalised lo 0 xs ys is th = mean_loss lo th xs ys is.
Proof. unfold penalised. lra. Qed.
Lemma stationary_0 lo xs ys is th : not_stationary (fun th => mean_loss lo th xs ys is) th -> not_stationary (penalised lo 0 xs ys is) th.
Proof. intros H. replace (penalised lo 0 xs ys is) with (fun th => mean_loss lo th xs ys is); [exact H|]. apply functional_extensionality. intros q. now rewrite penalised_0. Qed.

Section Small.
Context (addr : ptr -> Z) (t : trainer) (lo : loss) (idata odata : list tensor) (xs ys : Z -> Z -> R).
Notation n := (Z.of_nat (length idata)).
Notation ready m l := (ready m l t lo idata odata xs ys).
Notation L_ th := (mean_loss lo th xs ys (zrange 0 n)).
Context (Hn : idata <> []).
Lemma all_ne : zrange 0 n <> []. Proof. apply zrange_ne. destruct idata; [congruence|cbn; lia]. Qed.
(** one epoch with an optimizer whose first step is proportional to the rate *)
Lemma epoch_decreases (m : mem R) l (mk : R -> opt R) x c t1 t2 : ready m l -> clean (to_model l) ->
  (forall lr, optimizer_for addr m l t idata odata (mk lr) x /\ o_lr (mk lr) = lr /\ o_t1 (mk lr) = t1 /\ o_t2 (mk lr) = t2) ->
  no_velocity (to_model l) -> smooth_on lo (to_model l) xs ys (zrange 0 n) -> not_stationary (penalised lo c xs ys (zrange 0 n)) (to_model l) ->
  (forall i p k r j, nth_error (plans l) i = Some p -> nth_error (layer_order p) k = Some r -> let q := call_no (plans l) i k in
    forall w g, exists D, (is_param p r j -> 0 < D) /\
    forall lr, e_w (elem_step (o_kind (mk lr)) lr (it1 (o_kind (mk lr)) q t1) (it2 (o_kind (mk lr)) q t2) (mk_est w (fst (x i r j)) (snd (x i r j))) g) = w - lr * (D * (g + c * w))) ->
  exists eps, 0 < eps /\ forall lr, 0 < lr < eps -> exists l' o' m', let st := rounds_state lo xs ys l (mk lr) x (batches idata 1) in
    l' = ns_l st /\ tr_batch addr (layers l) t idata odata (mk lr) 1 m = Ok ((layers l', o'), m') /\ well_trained addr t lo idata odata xs ys m l (mk lr) m' l' o' (ns_x st) /\
    penalised lo c xs ys (zrange 0 n) (to_model l') < penalised lo c xs ys (zrange 0 n) (to_model l).
Proof.
  intros Rd Cl Ho Nv Sm Ns Af. pose proof (ready_sound m l t lo idata odata xs ys Rd Cl) as S. destruct (ready_wired m l t lo idata odata xs ys Rd Hn) as [s0 W].
  destruct (rate_decreases lo xs ys (fun lr => o_kind (mk lr)) (zrange 0 n) (mk_nst l x t1 t2) s0 c all_ne S W Nv Sm Ns Af) as (eps & He & Dc). exists eps. split; [exact He|].
  intros lr Hl. destruct (Ho lr) as (Of & E1 & E2 & E3). destruct (batch_any addr t lo idata odata xs ys m l (mk lr) x 1 Rd Of ltac:(lia)) as (o' & m' & Q1 & Q2).
  eexists _, o', m'. cbv zeta. split; [reflexivity|]. split; [exact Q1|]. split; [exact Q2|]. unfold rounds_state, batches. change (Z.to_nat 1) with 1%nat. cbn [repeat fold_left]. rewrite E1, E2, E3. now apply Dc.
Qed.

(** ** C113: the first epoch of every optimizer *)
Section First.
Context (m : mem R) (l : list (node R)).
Context (Rd : ready m l) (Cl : clean (to_model l)) (Nv : no_velocity (to_model l)).
Context (Ad : forall i r tt i' r' tt', param_tensor l i r tt -> param_tensor l i' r' tt' -> addr (t_data tt) = addr (t_data tt') -> i = i' /\ r = r').
Context (Sm : smooth_on lo (to_model l) xs ys (zrange 0 n)).
(** A network ready for training at a point where the gradient of the mean loss is not zero, a new
    optimizer of any of the classes: below some bound every learning rate makes the first epoch of
    batch training decrease the mean loss. *)
Theorem C113_first_epoch_decreases mk : optimizer_class mk -> not_stationary (fun th => L_ th) (to_model l) ->
  exists eps, 0 < eps /\ forall lr, 0 < lr < eps ->
  exists l' o' m', tr_batch addr (layers l) t idata odata (mk lr) 1 m = Ok ((layers l', o'), m') /\ ready m' l' /\ plans l' = plans l /\ L_ (to_model l') < L_ (to_model l).
Proof.
  intros C Ns. destruct (epoch_decreases m l mk (fun _ _ _ => (0, 0)) 0 1 1 Rd Cl) as (eps & He & H); auto.
  - intros lr. destruct (new_rate lr (mk lr) (class_new mk lr C)) as (E1 & E2 & E3). split; [|auto]. exact (new_for addr m l t lo idata odata xs ys lr (mk lr) (class_new mk lr C) Rd Ad).
  - now apply stationary_0.
  - intros i p k r j _ _ q w g. destruct (class_first mk C (length (order_from 0 (firstn i (plans l))) + k)%nat w g) as (D & D0 & HD). exists D. split; [auto|]. exact HD.
  - exists eps. split; [exact He|]. intros lr Hl. destruct (H lr Hl) as (l' & o' & m' & _ & E & (R' & _ & P' & _) & Lt). rewrite !penalised_0 in Lt. exists l', o', m'. auto.
Qed.
(** StoGradDescent with weight decay: the loss plus decay/2 times the sum of the squares of the
    parameters decreases - this is the function it descends on. *)
Theorem C113_weight_decay decay : not_stationary (penalised lo decay xs ys (zrange 0 n)) (to_model l) ->
  exists eps, 0 < eps /\ forall lr, 0 < lr < eps ->
  exists l' o' m', tr_batch addr (layers l) t idata odata (sto_grad_descent lr decay) 1 m = Ok ((layers l', o'), m') /\ ready m' l' /\ plans l' = plans l /\
    penalised lo decay xs ys (zrange 0 n) (to_model l') < penalised lo decay xs ys (zrange 0 n) (to_model l).
Proof.
  intros Ns. assert (C : forall lr, OptTrainSpec.new_optimizer lr (sto_grad_descent lr decay)) by constructor.
  destruct (epoch_decreases m l (fun lr => sto_grad_descent lr decay) (fun _ _ _ => (0, 0)) decay 1 1 Rd Cl) as (eps & He & H); auto.
  - intros lr. destruct (new_rate lr _ (C lr)) as (E1 & E2 & E3). split; [|auto]. exact (new_for addr m l t lo idata odata xs ys lr _ (C lr) Rd Ad).
  - intros i p k r j _ _ q w g. exists 1. split; [intros; lra|]. intros lr. cbn -[Rplus Rminus Rmult]. ring.
  - exists eps. split; [exact He|]. intros lr Hl. destruct (H lr Hl) as (l' & o' & m' & _ & E & (R' & _ & P' & _) & Lt). exists l', o', m'. auto.
Qed.
End First.
(** As the user sees it, for dense layers: loss(idata, odata), one epoch with a new optimizer, then
    loss(idata, odata) returns less. *)
Theorem C113_loss_call_decreases (m : mem R) l mk : ready m l -> length odata = length idata -> Forall (fun y => t_size y = t_size (tr_delta t)) odata ->
  Forall is_dense (plans l) -> (forall i, (0 <= i < n)%Z -> loss_shown lo (last_plan l) (ys i)) ->
  (forall i r tt i' r' tt', param_tensor l i r tt -> param_tensor l i' r' tt' -> addr (t_data tt) = addr (t_data tt') -> i = i' /\ r = r') ->
  smooth_on lo (to_model l) xs ys (zrange 0 n) -> not_stationary (fun th => L_ th) (to_model l) -> optimizer_class mk ->
  exists e0 m1, tr_loss_mean (layers l) t idata odata m = Ok (e0, m1) /\
  exists eps, 0 < eps /\ forall lr, 0 < lr < eps ->
  exists N' o' m2 e1 m3, tr_batch addr (layers l) t idata odata (mk lr) 1 m1 = Ok ((N', o'), m2) /\ tr_loss_mean N' t idata odata m2 = Ok (e1, m3) /\ e1 < e0.
Proof.
  intros Rd Len Sz Dn Sh Ad Sm Ns C.
  assert (Np : forall ps, Forall is_dense ps -> Forall (fun p => match p with PPool _ _ => False | _ => True end) ps) by (intros ps H; eapply Forall_impl; [|exact H]; intros []; cbn; tauto).
  destruct (loss_run t lo idata odata xs ys m l Rd Len Hn Sz (Np _ Dn) Sh) as (m1 & l1 & E1 & R1 & L1 & S1). eexists _, m1. split; [exact E1|].
  assert (P1 : plans l1 = plans l) by now apply same_plans.
  assert (Cn : clean (to_model l1)).
  { unfold clean, to_model. rewrite Forall_map. cbn [fst snd]. rewrite <- P1 in Dn. unfold plans in Dn. rewrite Forall_map in Dn. eapply Forall_impl; [|exact Dn]. cbv beta. intros d. destruct (n_plan d); cbn; tauto. }
  assert (Nv : no_velocity (to_model l1)).
  { intros i p s r j E _. apply nth_error_In, (in_map fst) in E. cbn [fst] in E. unfold to_model in E. rewrite map_map in E. cbn [fst] in E. change (In p (plans l1)) in E. rewrite P1 in E.
    rewrite Forall_forall in Dn. specialize (Dn p E). destruct p; cbn in Dn; tauto. }
  assert (Pt : forall i r tt, param_tensor l1 i r tt -> param_tensor l i r tt) by (intros i r tt Q; apply param_part in Q as [Q1 Q2]; apply param_part; rewrite <- L1; auto).
  destruct (C113_first_epoch_decreases m1 l1 R1 Cn Nv) with (mk := mk) as (eps & He & H); auto.
  { intros i r tt i' r' tt' Q Q'. apply Ad; auto. }
  { exact (msame_smooth_on _ _ _ _ _ _ S1 Sm). } { exact (msame_stationary _ _ _ _ _ _ S1 Ns). }
  exists eps. split; [exact He|]. intros lr Hl. destruct (H lr Hl) as (l2 & o' & m2 & E2 & R2 & P2 & Lt). rewrite L1 in E2. rewrite P1 in P2.
  assert (Lp : last_plan l2 = last_plan l) by (unfold last_plan; now rewrite P2).
  destruct (loss_run t lo idata odata xs ys m2 l2 R2 Len Hn Sz) as (m3 & l3 & E3 & _). { rewrite P2. auto. } { rewrite Lp. exact Sh. }
  exists (layers l2), o', m2, (L_ (to_model l2)), m3. split; [exact E2|]. split; [exact E3|]. rewrite <- (msame_mean lo xs ys _ _ (zrange 0 n) (same_msame _ _ S1)). exact Lt.
Qed.

(** ** C114: AdaGrad and RMSProp at any time *)
Lemma negative_ok l x : no_negative_square (to_model l) x <-> squares_ok (plans l) x.
Proof.
  unfold no_negative_square, squares_ok, to_model, plans. split; intros H i p.
  - intros r j E. rewrite nth_error_map in E. destruct (nth_error l i) as [d|] eqn:Ed; [|discriminate]. injection E as <-. apply (H i (n_plan d) (n_data d)). now rewrite nth_error_map, Ed.
  - intros s r j E. rewrite nth_error_map in E. destruct (nth_error l i) as [d|] eqn:Ed; [|discriminate]. injection E as <- <-. apply (H i (n_plan d)). now rewrite nth_error_map, Ed.
Qed.
Lemma rate_for (m : mem R) l o x lr : optimizer_for addr m l t idata odata o x -> optimizer_for addr m l t idata odata (set_learning_rate o lr) x.
Proof. exact (fun H => H). Qed.
(** The optimizer belongs to the network and none of its accumulators is negative - the next theorem
    says that this is so after any use.  Then changing to any small enough learning rate makes the
    next epoch decrease the mean loss, unless the gradient is zero. *)
Theorem C114_small_rate_decreases (m : mem R) l o x : ready m l -> clean (to_model l) -> optimizer_for addr m l t idata odata o x -> keeps_squares (o_kind o) -> no_negative_square (to_model l) x ->
  no_velocity (to_model l) -> smooth_on lo (to_model l) xs ys (zrange 0 n) -> not_stationary (fun th => L_ th) (to_model l) ->
  exists eps, 0 < eps /\ forall lr, 0 < lr < eps ->
  exists l' o' m', tr_batch addr (layers l) t idata odata (set_learning_rate o lr) 1 m = Ok ((layers l', o'), m') /\ ready m' l' /\ plans l' = plans l /\ L_ (to_model l') < L_ (to_model l).
Proof.
  intros Rd Cl Of Kd Sq Nv Sm Ns. apply negative_ok in Sq. destruct (epoch_decreases m l (set_learning_rate o) x 0 (o_t1 o) (o_t2 o) Rd Cl) as (eps & He & H); auto.
  - now apply stationary_0.
  - intros i p k r j E K q w g. change (forall lr, o_kind (set_learning_rate o lr) = o_kind o) with (forall lr : R, o_kind o = o_kind o).
    destruct (squares_step (o_kind o) Kd (it1 (o_kind o) q (o_t1 o)) (it2 (o_kind o) q (o_t2 o)) (fst (x i r j)) (snd (x i r j)) w g) as (D & D0 & HD).
    exists D. split; [intros P; apply D0; exact (Sq i p r j E P)|]. exact HD.
  - exists eps. split; [exact He|]. intros lr Hl. destruct (H lr Hl) as (l' & o' & m' & _ & E & (R' & _ & P' & _) & Lt). rewrite !penalised_0 in Lt. exists l', o', m'. auto.
Qed.
(** Any sequence of batch and mini-batch trainings and learning rate changes keeps it that way. *)
Theorem C114_any_use us : (n < 2 ^ 64)%Z -> Forall use_ok us -> forall (m : mem R) l o x, ready m l -> clean (to_model l) -> optimizer_for addr m l t idata odata o x -> keeps_squares (o_kind o) ->
  no_negative_square (to_model l) x ->
  exists l' o' m' x', uses addr t idata odata us (layers l) o m = Ok ((layers l', o'), m') /\ ready m' l' /\ clean (to_model l') /\ optimizer_for addr m' l' t idata odata o' x' /\
    o_kind o' = o_kind o /\ no_negative_square (to_model l') x' /\ plans l' = plans l.
Proof.
  intros Hlen. induction us as [|u us IH]; intros Hu m l o x Rd Cl Of Kd Sq; [exists l, o, m, x; split; [reflexivity|auto 10]|]. apply Forall_cons_iff in Hu as [Hu1 Hu].
  pose proof (ready_sound m l t lo idata odata xs ys Rd Cl) as S. destruct (ready_wired m l t lo idata odata xs ys Rd Hn) as [s0 W].
  assert (Step : forall iss l1 o1 m1, Forall (fun is : list Z => is <> []) iss -> l1 = ns_l (rounds_state lo xs ys l o x iss) ->
    well_trained addr t lo idata odata xs ys m l o m1 l1 o1 (ns_x (rounds_state lo xs ys l o x iss)) ->
    ready m1 l1 /\ clean (to_model l1) /\ optimizer_for addr m1 l1 t idata odata o1 (ns_x (rounds_state lo xs ys l o x iss)) /\ o_kind o1 = o_kind o /\ no_negative_square (to_model l1) (ns_x (rounds_state lo xs ys l o x iss)) /\ plans l1 = plans l).
  { intros iss l1 o1 m1 Hne -> (R1 & O1 & P1 & K1 & _). destruct (rounds_squares lo xs ys (o_kind o) (o_lr o) s0 Kd iss (mk_nst l x (o_t1 o) (o_t2 o)) Hne S W) as [Q1 Q2]. { now apply negative_ok. }
    split; [exact R1|]. split; [apply sound_clean; exact Q2|]. split; [exact O1|]. split; [exact K1|]. split; [|exact P1]. apply negative_ok. rewrite P1. exact Q1. }
  destruct u as [E|E b|r]; cbn [use_ok] in Hu1; cbn [uses].
  - destruct (batch_any addr t lo idata odata xs ys m l o x E Rd Of Hu1) as (o1 & m1 & Q1 & Q2). cbv zeta in Q1, Q2. unfold bind. rewrite Q1. cbn [fst snd].
    destruct (Step (batches idata E) _ o1 m1 (batches_ne m l t lo idata odata xs ys Rd E Hn) eq_refl Q2) as (R1 & C1 & O1 & K1 & S1 & P1).
    destruct (IH Hu m1 _ o1 _ R1 C1 O1 ltac:(now rewrite K1) S1) as (l' & o' & m' & x' & E' & R' & C' & O' & K' & S' & P'). exists l', o', m', x'. rewrite K', P', K1, P1 in *. split; [exact E'|]. auto 10.
  - destruct Hu1 as [HE Hb]. destruct (mini_any addr t lo idata odata xs ys m l o x E b Rd Of HE Hb Hlen) as (o1 & m1 & Q1 & Q2). cbv zeta in Q1, Q2. unfold bind. rewrite Q1. cbn [fst snd].
    destruct (Step (mini_batches idata b E) _ o1 m1 (mini_ne idata b E Hb) eq_refl Q2) as (R1 & C1 & O1 & K1 & S1 & P1).
    destruct (IH Hu m1 _ o1 _ R1 C1 O1 ltac:(now rewrite K1) S1) as (l' & o' & m' & x' & E' & R' & C' & O' & K' & S' & P'). exists l', o', m', x'. rewrite K', P', K1, P1 in *. split; [exact E'|]. auto 10.
  - exact (IH Hu m l (set_learning_rate o r) x Rd Cl (rate_for m l o x r Of) Kd Sq).
Qed.
(** Together, for dense layers: a new AdaGrad or RMSProp optimizer with any rate, any use; from there
    every small enough rate makes the next epoch decrease the mean loss. *)
Theorem C114_after_any_use us (m : mem R) l o lr0 : (n < 2 ^ 64)%Z -> Forall use_ok us -> ready m l -> Forall is_dense (plans l) ->
  OptTrainSpec.new_optimizer lr0 o -> keeps_squares (o_kind o) ->
  (forall i r tt i' r' tt', param_tensor l i r tt -> param_tensor l i' r' tt' -> addr (t_data tt) = addr (t_data tt') -> i = i' /\ r = r') ->
  exists l1 o1 m1, uses addr t idata odata us (layers l) o m = Ok ((layers l1, o1), m1) /\ ready m1 l1 /\ plans l1 = plans l /\
    (smooth_on lo (to_model l1) xs ys (zrange 0 n) -> not_stationary (fun th => L_ th) (to_model l1) ->
     exists eps, 0 < eps /\ forall lr, 0 < lr < eps ->
     exists l2 o2 m2, tr_batch addr (layers l1) t idata odata (set_learning_rate o1 lr) 1 m1 = Ok ((layers l2, o2), m2) /\ ready m2 l2 /\ plans l2 = plans l1 /\ L_ (to_model l2) < L_ (to_model l1)).
Proof.
  intros Hlen Hu Rd Dn No Kd Ad.
  assert (Cn : forall l2 : list (node R), plans l2 = plans l -> clean (to_model l2)).
  { intros l2 Q. unfold clean, to_model. rewrite Forall_map. cbn [fst snd]. rewrite <- Q in Dn. unfold plans in Dn. rewrite Forall_map in Dn. eapply Forall_impl; [|exact Dn]. cbv beta.
    intros d. destruct (n_plan d); cbn; tauto. }
  destruct (C114_any_use us Hlen Hu m l o (fun _ _ _ => (0, 0)) Rd (Cn l eq_refl)) as (l1 & o1 & m1 & x1 & E1 & R1 & C1 & O1 & K1 & S1 & P1).
  { exact (new_for addr m l t lo idata odata xs ys lr0 o No Rd Ad). } { exact Kd. } { intros i p s r j _ _. cbn [fst]. lra. }
  exists l1, o1, m1. split; [exact E1|]. split; [exact R1|]. split; [exact P1|]. intros Sm Ns. apply (C114_small_rate_decreases m1 l1 o1 x1); auto; [now rewrite K1|].
  intros i p s r j E _. apply nth_error_In, (in_map fst) in E. cbn [fst] in E. unfold to_model in E. rewrite map_map in E. cbn [fst] in E. change (In p (plans l1)) in E. rewrite P1 in E.
  rewrite Forall_forall in Dn. specialize (Dn p E). destruct p; cbn in Dn; tauto.
Qed.
End Small.

Module Examples.
Import PropNet.Examples PropDescent.Examples PropOptTrain.Examples.
Lemma distinct_addresses {T} `{Num T} (m : mem T) l t lo idata odata xs ys : ready m l t lo idata odata xs ys ->
  forall i r tt i' r' tt', param_tensor l i r tt -> param_tensor l i' r' tt' -> at_addr (t_data tt) = at_addr (t_data tt') -> i = i' /\ r = r'.
Proof.
  intros Rd i r tt i' r' tt' Q Q' E. pose proof Rd as (_ & _ & A & _). apply param_part in Q as [_ Q]. apply param_part in Q' as [_ Q'].
  rewrite (part_ptr_of m l i r tt A Q), (part_ptr_of m l i' r' tt' A Q') in E. unfold at_addr in E. assert (Eb : block_of tt = block_of tt') by lia.
  destruct (Nat.eq_dec i i') as [->|Ne]; [destruct (role_eq_dec r r') as [->|Ne]; [auto|]|]; exfalso; refine (parts_blocks m l _ _ _ _ _ _ A Q Q' _ Eb); congruence.
Qed.
(** two dense layers just built; Adam with the usual constants; AdaGrad *)
Example C113_C114_apply : exists (l : list (node R)) (m : mem R) t, let xs := fun _ : Z => xv in let ys := fun _ : Z => yv in
  ready m l t MSE [tx] [ty] xs ys /\ clean (to_model l) /\ no_velocity (to_model l) /\ Forall is_dense (plans l) /\
  (forall i r tt i' r' tt', param_tensor l i r tt -> param_tensor l i' r' tt' -> at_addr (t_data tt) = at_addr (t_data tt') -> i = i' /\ r = r') /\
  optimizer_class (fun lr => adam lr (9/10) (999/1000)) /\ optimizer_class (fun lr => nestorov_opt lr (9/10)) /\ optimizer_class (fun lr => rms_prop lr (9/10)) /\ keeps_squares (o_kind (ada_grad (1/10))) /\
  smooth_on MSE (to_model l) xs ys (zrange 0 1) /\ not_stationary (fun th => mean_loss MSE th xs ys (zrange 0 1)) (to_model l) /\
  Forall (fun y => t_size y = t_size (tr_delta t)) [ty] /\ loss_shown MSE (last_plan l) yv /\ no_negative_square (to_model l) (fun _ _ _ => (0, 0)) /\
  exists eps, 0 < eps /\ forall lr, 0 < lr < eps ->
  exists l' o' m', tr_batch at_addr (layers l) t [tx] [ty] (adam lr (9/10) (999/1000)) 1 m = Ok ((layers l', o'), m') /\
    mean_loss MSE (to_model l') xs ys (zrange 0 1) < mean_loss MSE (to_model l) xs ys (zrange 0 1).
Proof.
  destruct C89_C90_C91_apply as (l & m & t & Rd & Cl & Nv & Dn & Sz & Sh & Fr & Sm & Ns & _). exists l, m, t. cbv zeta. pose proof (distinct_addresses m l t MSE [tx] [ty] _ _ Rd) as Ad.
  assert (C1 : optimizer_class (fun lr => adam lr (9/10) (999/1000))) by (constructor; lra).
  split; [exact Rd|]. split; [exact Cl|]. split; [exact Nv|]. split; [exact Dn|]. split; [exact Ad|]. split; [exact C1|]. split; [constructor; lra|]. split; [constructor; lra|]. split; [constructor|].
  split; [exact Sm|]. split; [exact Ns|]. split; [exact Sz|]. split; [exact Sh|]. split; [intros i p s r j _ _; cbn [fst]; lra|].
  destruct (C113_first_epoch_decreases at_addr t MSE [tx] [ty] _ _ ltac:(discriminate) m l Rd Cl Nv Ad Sm _ C1 Ns) as (eps & He & H). exists eps. split; [exact He|].
  intros lr Hl. destruct (H lr Hl) as (l' & o' & m' & E & _ & _ & Lt). exists l', o', m'. auto.
Qed.
(** some weight decay, from the same network *)
Example C113_weight_decay_applies lo xs ys is (l : list (node R)) : not_stationary (fun th => mean_loss lo th xs ys is) (to_model l) ->
  exists decay, 0 < decay /\ not_stationary (penalised lo decay xs ys is) (to_model l).
Proof.
  intros (i & p & s & r & j & g & E & P & Pa & Ng). pose proof E as E0. unfold to_model in E. rewrite nth_error_map in E. destruct (nth_error l i) as [d|] eqn:Ed; [|discriminate]. injection E as <- <-.
  assert (H : forall c, g + c * n_data d r j <> 0 -> not_stationary (penalised lo c xs ys is) (to_model l)).
  { intros c Hc. exists i, (n_plan d), (n_data d), r, j, (g + c * n_data d r j). split; [exact E0|]. split; [exact P|]. split; [|exact Hc].
    pose proof (squares_partial l i d r j Ed P) as Q. unfold partial in *. apply is_derive_Reals in Pa. apply is_derive_Reals in Q. apply is_derive_Reals. unfold penalised. evar_last.
    { apply (is_derive_plus (K := R_AbsRing) (V := R_NormedModule)); [exact Pa|]. apply is_derive_scal. exact Q. }
    unfold plus; cbn. field. }
  destruct (Req_dec (g + 1 * n_data d r j) 0) as [Z|Z]; [exists 2|exists 1]; split; try lra; apply H; lra.
Qed.
End Examples.

Print Assumptions C113_first_epoch_decreases.
Print Assumptions C113_weight_decay.
Print Assumptions C113_loss_call_decreases.
Print Assumptions C114_small_rate_decreases.
Print Assumptions C114_any_use.
Print Assumptions C114_after_any_use.

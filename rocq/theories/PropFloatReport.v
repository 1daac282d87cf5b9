(** * Property C134: the loss reported after training in floating-point arithmetic *)
From Coq Require Import ZArith QArith Reals Lra Lia List FunctionalExtensionality.
From Flocq Require Import Core BinarySingleNaN.
From Verif Require Import Mem Scalar MemSpec MemLemmas Lique LiqueSpec LiqueProofs Linear LinearProofs RSum Functions FunctionSpec FunctionProofs
  Layer LayerSpec FCProofs RealSpec NetSpec ConvSpec Optimizer ActivationProofs LossProofs Vjp PropFC Net NetPlan NetProofs NetBack PropNet NetReal NetGrad PropNetGrad Checker PropChecker
  Float FloatSpec FloatLemmas FloatLib FloatError FloatAcc FloatStat FloatAct PropFloatAct PropFloatSoftmax PropFloatLayers FloatNetSpec FloatNetAct FloatNetSoft PropFloatNet FloatLoss FloatGradSpec FloatDer PropFloatGrad
  Schedule PropTraining Descent DescentSpec DescentReal PropDescent FloatDescentSpec FloatDescent PropFloatDescent FloatCheckSpec PropFloatCheck FloatReportSpec.
Import ListNotations.
Local Open Scope R_scope.

(** the parameters of a dense network decide its function *)
Lemma dense_function {prec emax} (l : list (node (fl prec emax))) : forall l', Forall is_dense (plans l) -> same_model l l' ->
  forall x, real_net (exact l') x = real_net (exact l) x.
Proof.
  induction l as [|d l IH]; intros [|d' l'] D (E & P & H) x; cbn in P; try discriminate; [reflexivity|].
  injection P as Pd P. cbn [plans map] in D. apply Forall_cons_iff in D as [Dd D]. injection E as Ed E.
  assert (S : same_model l l'). { split; [exact E|]. split; [exact P|]. intros i a b r Ha Hb. exact (H (Datatypes.S i) a b r Ha Hb). }
  change (real_net (exact l') (real_layer (n_plan d') (fun r i => B2R (n_data d' r i)) x) = real_net (exact l) (real_layer (n_plan d) (fun r i => B2R (n_data d r i)) x)).
  replace (real_layer (n_plan d') (fun r i => B2R (n_data d' r i)) x) with (real_layer (n_plan d) (fun r i => B2R (n_data d r i)) x); [now apply IH|]. rewrite Pd.
  destruct (n_plan d) as [a n k|g|a q]; cbn in Dd; try tauto.
  assert (Q : forall r, r = RB \/ r = RW 0 -> (fun i => B2R (n_data d' r i)) = (fun i => B2R (n_data d r i))).
  { intros r Hr. rewrite (H O d d' r eq_refl eq_refl) by (destruct Hr as [-> | ->]; discriminate). reflexivity. }
  destruct a as [a|]; cbn [real_layer]; rewrite (Q RB), (Q (RW 0)) by auto; reflexivity.
Qed.

Lemma same_sound {prec emax} (l : list (node (fl prec emax))) : forall l', Forall is_dense (plans l) -> same_model l l' -> Forall sound_layer l -> Forall sound_layer l'.
Proof.
  intros l' D (E & P & H) S. apply Forall_forall. intros d' Hd. apply In_nth_error in Hd as [i Hi].
  assert (exists d, nth_error l i = Some d /\ n_plan d' = n_plan d) as (d & Hd & Pd).
  { pose proof (f_equal (fun q => nth_error q i) P) as Q. unfold plans in Q. cbv beta in Q. rewrite !nth_error_map, Hi in Q. cbn in Q. destruct (nth_error l i) as [d|]; cbn in Q; [|discriminate]. injection Q as Q. eauto. }
  assert (Sd : sound_layer d) by (rewrite Forall_forall in S; apply S; eapply nth_error_In; exact Hd).
  assert (Dd : is_dense (n_plan d)) by (unfold plans in D; rewrite Forall_map, Forall_forall in D; apply D; eapply nth_error_In; exact Hd).
  unfold sound_layer in *. rewrite Pd. destruct (n_plan d); cbn in Dd; try tauto. rewrite (H i d d' (RW 0) Hd Hi), (H i d d' RB Hd Hi) by discriminate. exact Sd.
Qed.
Lemma same_mean {prec emax} (l l' : list (node (fl prec emax))) lo xs ys is : Forall is_dense (plans l) -> same_model l l' -> mean_loss lo (exact l') xs ys is = mean_loss lo (exact l) xs ys is.
Proof.
  intros D S. unfold mean_loss, sample_loss. f_equal. replace (DescentSpec.final_plan (exact l')) with (DescentSpec.final_plan (exact l)) by (unfold DescentSpec.final_plan; rewrite !exact_plans; now destruct S as (_ & -> & _)).
  unfold sum_over. induction is as [|k is IH]; cbn [fold_right]; [reflexivity|]. rewrite IH. now rewrite (dense_function l l' D S).
Qed.

Lemma same_exact {prec emax} (l l' : list (node (fl prec emax))) : Forall is_dense (plans l) -> same_model l l' -> same_parameters (exact l) (exact l').
Proof.
  intros D (E & P & H). split; [now rewrite !exact_plans|]. intros i p r j Hi Hj. rewrite exact_plans in Hi. assert (Dp : is_dense p) by (rewrite Forall_forall in D; apply D; eapply nth_error_In; exact Hi).
  pose proof Hi as Hi'. rewrite <- P in Hi'. unfold plans in Hi, Hi'. rewrite nth_error_map in Hi, Hi'.
  destruct (nth_error l i) as [d|] eqn:Ed; [|discriminate]. destruct (nth_error l' i) as [d'|] eqn:Ed'; [|discriminate].
  rewrite (param_exact l i d r j Ed), (param_exact l' i d' r j Ed'), (H i d d' r Ed Ed'); [reflexivity| | |]; destruct p; cbn in Dp; try tauto; destruct r; cbn in Hj; try tauto; discriminate.
Qed.
Lemma read_both v v' j0 j1 a b r0 r1 : j1 <= j0 - a + b -> Rabs (v - j0) <= r0 -> Rabs (v' - j1) <= r1 -> v' <= v - a + b + r0 + r1.
Proof. intros H H0 H1. apply Rabs_le_inv in H0, H1. lra. Qed.

Section Report.
Context {prec emax : Z} {Hp : Prec_gt_0 prec} {He : Prec_lt_emax prec emax} (P24 : (24 <= prec)%Z) (E64 : (64 <= emax)%Z) (PM : (prec + 3 <= emax)%Z).
Context (lib : libm prec emax) (LO : libm_ok lib) (c : R) (AC : libm_accurate lib c) (CC : cosh_accurate lib c) (AL : log_accurate lib c) (C0 : 0 <= c).
Notation fl := (fl prec emax).
#[local] Instance NF : Num fl := Num_fl prec emax lib.

(** ** rounds *)
Lemma gradient_known (l : list (node fl)) lo xs ys is lr : able l -> data_fin l xs ys is ->
  let X := fun k => reals (xs k) in let Y := fun k => reals (ys k) in
  batch_ok (prec := prec) (emax := emax) c lo (exact l) X Y is lr -> gradient_of (fun th => mean_loss lo th X Y is) (exact l) (mean_gradient lo (exact l) X Y is).
Proof.
  intros (Ne & D & S & s0 & W) Df X Y (_ & Ok & _) i p s r j Hi Hj. apply exact_nth in Hi as (n & Hi & -> & ->). apply mean_partial. intros k Hk. destruct (Df k Hk) as [Fx Fy].
  exact (proj2 (proj2 (sample_gradients P24 E64 PM lib LO c AC CC l lo xs ys k s0 i n r j Ne D W S (Fx s0 W) Fy (Ok k Hk) Hi Hj))).
Qed.
Lemma removelast_cons {A} (a b : A) l : removelast (a :: b :: l) = a :: removelast (b :: l).
Proof. reflexivity. Qed.
Lemma rounds_decrease lo xs ys lr n is L : fin lr -> 0 < B2R lr -> B2R lr * L <= 1 -> (forall k, In k is -> (0 <= k < n)%Z) ->
  let X := fun k => reals (xs k) in let Y := fun k => reals (ys k) in let J th := mean_loss lo th X Y is in
  forall E (l : list (node fl)), able l -> finite_data l xs ys n ->
  exists ths, hd_error ths = Some (exact l) /\ last ths [] = exact (fold_left (l_round lo xs ys lr) (repeat is E) l) /\ follows (prec := prec) (emax := emax) c lo X Y (B2R lr) (repeat is E) ths /\ length ths = Datatypes.S E /\
    (Forall (fun th => batch_ok (prec := prec) (emax := emax) c lo th X Y is (B2R lr)) (removelast ths) ->
     able (fold_left (l_round lo xs ys lr) (repeat is E) l) /\ Forall (fun th => gradient_of J th (mean_gradient lo th X Y is)) (removelast ths) /\
     (consecutive (bends_at_most L J) ths -> J (last ths []) <= J (exact l) - B2R lr / 2 * sum_over (fun th => gradient_square lo th X Y is) (removelast ths)
        + / (2 * B2R lr) * sum_over (fun th => error_square (prec := prec) (emax := emax) c lo th X Y is (B2R lr)) (removelast ths))).
Proof.
  intros Fl L0 HL Hi X Y J. induction E as [|E IH]; intros l A Df.
  - exists [exact l]. split; [reflexivity|]. split; [reflexivity|]. split; [exact I|]. split; [reflexivity|]. intros _. split; [exact A|]. split; [constructor|]. intros _. cbn. lra.
  - set (l1 := l_round lo xs ys lr l is). cbn [repeat fold_left]. fold l1.
    assert (Ep : plans l1 = plans l) by (apply (rounds_plans lo xs ys lr [is] l)).
    assert (Dc : data_fin l xs ys is) by (eapply (data_covered); [exact A|exact Df|exact Hi]).
    pose proof (round_close P24 E64 PM lib LO c AC CC l lo xs ys lr is A Dc Fl) as RC. cbv zeta in RC. change (PropFloatDescent.NF lib) with NF in RC. fold l1 in RC.
    destruct (Classical_Prop.classic (batch_ok (prec := prec) (emax := emax) c lo (exact l) X Y is (B2R lr))) as [Ok|No].
    + destruct (RC Ok) as [A1 St]. destruct (IH l1 A1 (finite_same l l1 xs ys n Ep Df)) as (ths & H1 & H2 & HF & H3 & H4).
      exists (exact l :: ths). split; [reflexivity|]. destruct ths as [|th ths]; [discriminate|]. cbn in H1. injection H1 as ->. split; [exact H2|]. split; [intros _; split; [exact St|exact HF]|]. split; [cbn [length] in *; lia|].
      rewrite removelast_cons. intros F. apply Forall_cons_iff in F as [_ F]. destruct (H4 F) as (A2 & GS & Q). split; [exact A2|]. split; [constructor; [exact (gradient_known l lo xs ys is (B2R lr) A Dc Ok)|exact GS]|]. intros [B1 B2]. specialize (Q B2).
      assert (D : Forall is_dense (map fst (exact l))). { destruct A as (_ & D & _). rewrite exact_plans. unfold plans. rewrite Forall_map. eapply Forall_impl; [|exact D]. intros d Hd. apply Hd. }
      pose proof (C132_loss_decreases J (B2R lr) _ (exact l) (exact l1) L _ L0 HL D St (gradient_known l lo xs ys is (B2R lr) A Dc Ok) B1) as S1. fold X Y in S1.
      rewrite !sum_over_cons. change (last (exact l :: exact l1 :: ths) []) with (last (exact l1 :: ths) []). unfold gradient_square at 1, error_square at 1. lra.
    + assert (Tr : forall E (l0 : list (node fl)), exists ths, hd_error ths = Some (exact l0) /\ last ths [] = exact (fold_left (l_round lo xs ys lr) (repeat is E) l0) /\ length ths = Datatypes.S E).
      { clear. induction E as [|E IH]; intros l0; [exists [exact l0]; repeat split|]. cbn [repeat fold_left]. destruct (IH (l_round lo xs ys lr l0 is)) as (ths & H1 & H2 & H3). exists (exact l0 :: ths).
        split; [reflexivity|]. destruct ths as [|th ths]; [discriminate|]. split; [exact H2|]. cbn [length] in *. now rewrite H3. }
      destruct (Tr E l1) as (ths & H1 & H2 & H3). exists (exact l :: ths). split; [reflexivity|]. destruct ths as [|th ths]; [discriminate|]. split; [exact H2|]. split; [intros Ok; contradiction|]. split; [cbn [length] in *; lia|].
      rewrite removelast_cons. intros F. apply Forall_cons_iff in F as [F _]. contradiction.
Qed.

(** ** reading the loss *)
Lemma ready_outputs (m : mem fl) (l : list (node fl)) t lo idata odata (xs ys : Z -> Z -> fl) : ready m l t lo idata odata xs ys -> length odata = length idata -> idata <> [] ->
  Forall (fun y => t_size y = t_size (tr_delta t)) odata -> let k := out_count (PropFloatGrad.final_plan l) in
  has_outputs l k /\ (0 <= k)%Z /\ PropChecker.data_at m l (Z.of_nat (length idata)) k idata odata xs ys.
Proof.
  intros Rd Len Hn Sz. cbv zeta. pose proof Rd as (Hl & Tr & A & Ta & Da). assert (Ne : l <> []) by (intros ->; cbn in Hl; lia).
  assert (F : Forall (fun d => fits (n_layer d) (n_plan d)) l) by (eapply Forall_impl; [|exact (proj1 A)]; cbn; tauto).
  destruct l as [|d0 l0] eqn:El0; [congruence|]. rewrite <- El0 in *. clear El0 l0.
  pose proof (wired_back_last l d0 (t_shape (tr_delta t)) Ne F (proj1 (proj2 Ta))) as Ek.
  assert (Elp : PropFloatGrad.final_plan l = n_plan (last l d0)).
  { unfold PropFloatGrad.final_plan, plans. clear -Ne. induction l as [|d l IH]; [congruence|]. destruct l as [|e l]; [reflexivity|]. exact (IH ltac:(discriminate)). }
  rewrite Elp. set (k := out_count (n_plan (last l d0))) in *.
  assert (Hl' : nth_error l (length l - 1) = Some (last l d0)).
  { clear -Ne. induction l as [|d l IH]; [congruence|]. destruct l as [|e l]; [reflexivity|]. specialize (IH ltac:(discriminate)).
    replace (length (d :: e :: l) - 1)%nat with (Datatypes.S (length (e :: l) - 1)) by (cbn; lia). exact IH. }
  split; [|split].
  - exists (n_plan (last l d0)). split; [|reflexivity]. unfold plans. now rewrite nth_error_map, Hl'.
  - rewrite Forall_forall in F. pose proof (F _ (nth_error_In _ _ Hl')) as Fl. apply fits_counts in Fl. apply Fl.
  - split; [lia|]. intros i Hi. destruct (Da i Hi) as (x & y & Zx & Zy & Sx & _ & (Hy & Oy & _)). exists x, y. split; [exact Zx|]. split; [exact Zy|]. split; [exact Sx|].
    rewrite Forall_forall in Sz. assert (Ey : t_size y = t_size (tr_delta t)). { apply Sz. unfold znth in Zy. destruct (0 <=? i)%Z; [|discriminate]. eapply nth_error_In; exact Zy. }
    change (t_size (tr_delta t)) with (s_size (t_shape (tr_delta t))) in *. rewrite Ek in *. auto.
Qed.
Lemma same_final (l l' : list (node fl)) : plans l' = plans l -> PropFloatGrad.final_plan l' = PropFloatGrad.final_plan l.
Proof. unfold PropFloatGrad.final_plan. now intros ->. Qed.
Lemma exact_final (l : list (node fl)) : DescentSpec.final_plan (exact l) = PropFloatGrad.final_plan l.
Proof. unfold DescentSpec.final_plan, PropFloatGrad.final_plan. now rewrite exact_plans. Qed.
Lemma plain_loss lo (th : model) (xs ys : Z -> Z -> R) n : (0 <= n)%Z -> plain_end (DescentSpec.final_plan th) -> mean_loss lo th xs ys (zrange 0 n) = RealSpec.rsum n (exact_loss lo th xs ys) / IZR n.
Proof.
  intros Hn Pl. unfold mean_loss. rewrite sum_zrange by exact Hn. f_equal.
  - apply rsum_ext. intros i Hi. unfold sample_loss, exact_loss, net_loss. destruct (DescentSpec.final_plan th) as [[a|] ? ?|?|? ?]; cbn in *; try reflexivity. destruct Pl.
  - unfold zrange. rewrite map_length, seq_length, Z.sub_0_r, INR_IZR_INZ, Z2Nat.id by exact Hn. reflexivity.
Qed.
Section Calls.
Context (addr : ptr -> Z) (t : trainer) (lo : loss) (idata odata : list tensor) (xs ys : Z -> Z -> fl).
Notation n := (Z.of_nat (length idata)).
Notation X := (fun k => reals (xs k)).
Notation Y := (fun k => reals (ys k)).
Context (Lo : lo = MSE \/ lo = MAE \/ lo = CCE) (Len : length odata = length idata) (Hn : (0 < n <= 2 ^ prec)%Z) (Sz : Forall (fun y => t_size y = t_size (tr_delta t)) odata).
(** calling the checker's loss: a number close to the mean loss, and the network and the trainer can go on *)
Lemma reading (m : mem fl) (l : list (node fl)) : ready m l t lo idata odata xs ys -> Forall is_dense (plans l) -> plain_end (PropFloatGrad.final_plan l) ->
  exists v m' l', chk_loss (layers l) lo idata odata m = Ok (v, m') /\ ready m' l' t lo idata odata xs ys /\ same_model l l' /\
    (Forall sound_layer l -> finite_data l xs ys n -> reading_ok (prec := prec) (emax := emax) c lo n (exact l) X Y ->
     fin v /\ Rabs (B2R v - mean_loss lo (exact l) X Y (zrange 0 n)) <= reading_error (prec := prec) (emax := emax) c lo n (exact l) X Y).
Proof.
  intros Rd Dn Pl. assert (Hi : idata <> []) by (intros Q; rewrite Q in Hn; cbn in Hn; lia). destruct (ready_outputs m l t lo idata odata xs ys Rd Len Hi Sz) as (Ho & K0 & Dc). cbv zeta in *.
  pose proof Rd as (Hl & Tr & A & Ta & Da). assert (Ne : l <> []) by (intros ->; cbn in Hl; lia). assert (Hl' : (Z.of_nat (length l) < 2 ^ 64)%Z) by lia. set (k := out_count (PropFloatGrad.final_plan l)) in *.
  destruct (mean_loss_run m l n k idata odata xs ys lo Ne Hl' A Ho Dc K0) as (m' & l' & E & A' & Sm & O).
  eexists _, m', l'. split; [exact E|]. split; [|split; [exact Sm|]].
  - eapply ready_step; [exact Rd|apply Sm| | |exact A'|].
    + destruct Sm as (EL & _). now rewrite EL.
    + intros b. rewrite (net_block_same l' l); [reflexivity|apply Sm].
    + eapply only_weaken; [|exact O]. unfold train_mem. cbn. auto.
  - intros S Fd (R1 & R2). assert (Pl' : plain_end (DescentSpec.final_plan (exact l))) by (rewrite exact_final; exact Pl). rewrite plain_loss by (lia || exact Pl'). unfold reading_error. unfold exact_loss, computed_error in *. rewrite exact_final in *. fold k in R1, R2 |- *.
    assert (W : forall i x, (0 <= i < n)%Z -> znth idata i = Some x -> (t_size x <= match plans l with p :: _ => in_count p | [] => 0 end)%Z).
    { intros i x Hi2 Hx. destruct (Da i Hi2) as (x' & y & Zx & _ & (Wd & _) & _). assert (x' = x) by congruence. subst x'. destruct l as [|d l0]; [congruence|]. cbn [plans map wired] in *. destruct Wd as [Wd _].
      destruct A as [A _]. apply Forall_cons_iff in A as [(Fd0 & _) _]. rewrite <- (feeds_count _ _ _ Fd0 Wd). change (t_size x) with (s_size (t_shape x)). lia. }
    destruct (C133_mean_loss P24 E64 lib LO c AL C0 PM AC m l n k lo idata odata xs ys X (fun _ => no_error) Ne Hl' A Ho K0 Lo Dc Hn S) as (v & m2 & E2 & Fv & Bv).
    + intros i Hi2 x Hx o Ho2. split; [apply (proj1 (Fd i Hi2)); pose proof (W i x Hi2 Hx); lia|]. unfold reals, no_error. rewrite Rminus_eq_0, Rabs_R0. lra.
    + intros i Hi2. apply R1. exact Hi2.
    + intros i Hi2. exact (proj2 (Fd i Hi2)).
    + intros i Hi2. apply R1. exact Hi2.
    + exact R2.
    + change (PropFloatCheck.NF lib) with NF in E2. rewrite E in E2. injection E2 as <- _. split; [exact Fv|exact Bv].
Qed.

(** ** C134: loss, training, loss *)
Theorem C134_reported_loss (m : mem fl) (l : list (node fl)) (o : opt fl) E L : ready m l t lo idata odata xs ys -> o_kind o = GradDescent -> Forall is_dense (plans l) -> plain_end (PropFloatGrad.final_plan l) ->
  Forall sound_layer l -> finite_data l xs ys n -> fin (o_lr o) -> 0 < B2R (o_lr o) -> B2R (o_lr o) * L <= 1 -> (0 <= E)%Z ->
  reading_ok (prec := prec) (emax := emax) c lo n (exact l) X Y ->
  let J th := mean_loss lo th X Y (zrange 0 n) in
  exists v m1 (l' : list (node fl)) m2 v' m3 ths,
    chk_loss (layers l) lo idata odata m = Ok (v, m1) /\ tr_batch addr (layers l) t idata odata o E m1 = Ok ((layers l', o), m2) /\ chk_loss (layers l') lo idata odata m2 = Ok (v', m3) /\
    length ths = Datatypes.S (Z.to_nat E) /\ same_parameters (exact l) (hd [] ths) /\ last ths [] = exact l' /\
    follows (prec := prec) (emax := emax) c lo X Y (B2R (o_lr o)) (repeat (zrange 0 n) (Z.to_nat E)) ths /\
    (Forall (fun th => batch_ok (prec := prec) (emax := emax) c lo th X Y (zrange 0 n) (B2R (o_lr o))) (removelast ths) ->
     Forall (fun th => gradient_of J th (mean_gradient lo th X Y (zrange 0 n))) (removelast ths) /\
     (consecutive (bends_at_most L J) ths -> reading_ok (prec := prec) (emax := emax) c lo n (last ths []) X Y ->
     fin v /\ fin v' /\
     B2R v' <= B2R v - B2R (o_lr o) / 2 * sum_over (fun th => gradient_square lo th X Y (zrange 0 n)) (removelast ths)
       + / (2 * B2R (o_lr o)) * sum_over (fun th => error_square (prec := prec) (emax := emax) c lo th X Y (zrange 0 n) (B2R (o_lr o))) (removelast ths)
       + reading_error (prec := prec) (emax := emax) c lo n (exact l) X Y + reading_error (prec := prec) (emax := emax) c lo n (last ths []) X Y)).
Proof.
  intros Rd Ko Dn Pl S Fd Fl L0 HL HE Rk J. assert (Hi : idata <> []) by (intros Q; rewrite Q in Hn; cbn in Hn; lia).
  destruct (reading m l Rd Dn Pl) as (v & m1 & l1 & E1 & R1 & S1 & Q1). pose proof S1 as (El & P1 & _).
  assert (Dn1 : Forall is_dense (plans l1)) by now rewrite P1. pose proof (same_sound l l1 Dn S1 S) as Sn1. pose proof (finite_same l l1 xs ys n P1 Fd) as Fd1.
  pose proof (ready_able m1 l1 t lo idata odata xs ys R1 Dn1 Sn1 Fd1 Hi) as A1.
  destruct (batch_run addr m1 l1 t lo idata odata xs ys o R1 Ko E HE) as (m2 & E2 & R2 & _).
  destruct (rounds_decrease lo xs ys (o_lr o) n (zrange 0 n) L Fl L0 HL (fun k Hk => proj1 (in_zrange _ _ _) Hk) (Z.to_nat E) l1 A1 Fd1) as (ths & H1 & H2 & HF & H3 & H4).
  change (repeat (zrange 0 n) (Z.to_nat E)) with (batches idata E) in *. set (l' := fold_left (l_round lo xs ys (o_lr o)) (batches idata E) l1) in *.
  assert (P2 : plans l' = plans l) by (rewrite <- P1; apply rounds_plans).
  destruct (reading m2 l' R2) as (v' & m3 & l3 & E3 & _ & _ & Q3); [now rewrite P2|now rewrite (same_final l l' P2)|].
  exists v, m1, l', m2, v', m3, ths. rewrite El in E2. split; [exact E1|]. split; [exact E2|]. split; [exact E3|]. split; [exact H3|].
  assert (J1 : J (exact l1) = J (exact l)) by (apply same_mean; assumption).
  split; [destruct ths as [|th ths]; [discriminate|]; cbn in H1 |- *; injection H1 as ->; exact (same_exact l l1 Dn S1)|]. split; [exact H2|]. split; [exact HF|].
  intros B1. destruct (H4 B1) as ((_ & _ & Sn2 & _) & GS & Q). split; [exact GS|]. intros B2 B3. specialize (Q B2). destruct (Q1 S Fd Rk) as [F1 V1]. assert (B3' : reading_ok (prec := prec) (emax := emax) c lo n (exact l') X Y) by exact (eq_ind _ (fun z => reading_ok c lo n z X Y) B3 _ H2).
  destruct (Q3 Sn2 (finite_same l l' xs ys n P2 Fd) B3') as [F2 V2]. split; [exact F1|]. split; [exact F2|].
  apply (eq_ind_r (fun z => Rabs (B2R v' - mean_loss lo z X Y (zrange 0 n)) <= reading_error (prec := prec) (emax := emax) c lo n z X Y)) with (1 := V2) in H2 as V3. clear V2. rename V3 into V2. cbv beta in V2. unfold J in *. change (mean_loss lo (exact l) X Y (zrange 0 n)) with (J (exact l)) in V1. change (mean_loss lo (last ths []) X Y (zrange 0 n)) with (J (last ths [])) in V2.
  change (mean_loss lo (last ths []) X Y (zrange 0 n)) with (J (last ths [])) in Q. change (mean_loss lo (exact l1) X Y (zrange 0 n)) with (J (exact l1)) in Q, J1. change (mean_loss lo (exact l) X Y (zrange 0 n)) with (J (exact l)) in J1. rewrite J1 in Q. exact (read_both _ _ _ _ _ _ _ _ Q V1 V2).
Qed.
End Calls.
End Report.

(** the network and the data of C132's example, learning rate 1/1024: loss 162; training, one round, brings it below 73; loss *)
Module Examples.
Import PropFloatGrad.Examples.
Import PropFloatDescent.Examples.
#[local] Existing Instance PropFloatLayers.Examples.Hp53.
#[local] Existing Instance PropFloatLayers.Examples.He53.
#[local] Existing Instance PropFloatLayers.Examples.ND.
Notation lib := PropFloatLayers.Examples.lib.
Notation pw := PropFloatLayers.Examples.pw.
Notation pw_ok := PropFloatLayers.Examples.pw_ok.
Notation c := (2 * uro 53).
Notation X := (fun k => reals (xs k)).
Notation Y := (fun k => reals (ys k)).
Definition slow : fl 53 1024 := pw (-10).
Lemma slow_val : fin slow /\ B2R slow = / 1024.
Proof. exact (pw_ok (-10) ltac:(lia)). Qed.
(** a layer of one input [X] and one output, with weight [w] and bias [b] *)
Section Box.
Context (w b XX E : R) (s : contents R) (x e : Z -> R) (Hb : s RB 0%Z = b) (Hw : s (RW 0) 0%Z = w) (Hx : x 0%Z = XX) (Hee : e 0%Z = E)
  (W : 0 <= w <= 21 / 10) (B : 0 <= b <= 21 / 10) (X0 : 0 <= XX <= 20) (EE : 0 <= E <= / 10).
Lemma box_mag : magnitude one_plan s x e 0 = (XX + E) * w + b.
Proof. cbn [magnitude one_plan]. rewrite one_pre, Hb, Hw, Hx, Hee, !Rabs_pos_eq by lra. reflexivity. Qed.
Lemma box_mag_le : 0 <= (XX + E) * w + b <= 50.
Proof. assert (0 <= (XX + E) * w <= (201 / 10) * (21 / 10)) by (split; [apply Rmult_le_pos; lra|apply Rmult_le_compat; lra]). lra. Qed.
Lemma box_rounds : 0 <= rounds (prec := 53) (emax := 1024) one_plan (magnitude one_plan s x e 0) <= / 100.
Proof. cbn [rounds one_plan]. fold one_plan. rewrite box_mag. pose proof box_mag_le. apply tiny; [lia|lia|lra]. Qed.
Lemma box_spread : spread one_plan s e 0 = E * w.
Proof. cbn [spread one_plan]. rewrite one_pre, Hw, Hee, Rabs_pos_eq by lra. ring. Qed.
Lemma box_real : real_layer one_plan s x 0 = XX * w + b.
Proof. clear Hee EE e E. change (std_act ReLU (dense_pre 1 1 (s RB) (s (RW 0)) x 0) = XX * w + b). rewrite one_pre, Hb, Hw, Hx. cbn [std_act]. unfold Rmax. assert (0 <= XX * w) by (apply Rmult_le_pos; lra). destruct Rle_dec; lra. Qed.
Lemma box_drift : 0 <= layer_drift (prec := 53) (emax := 1024) c one_plan s x e 0 <= 3 * E + / 100.
Proof.
  pose proof box_rounds as Q. pose proof box_spread as Sp. unfold layer_drift. cbv zeta. cbn [one_plan act_drift gain noise]. fold one_plan. rewrite Sp.
  assert (0 <= E * w <= E * (21 / 10)) by (split; [apply Rmult_le_pos; lra|apply Rmult_le_compat_l; lra]). lra.
Qed.
Lemma box_safe l : safe (prec := 53) (emax := 1024) c l (real_layer one_plan s x) (layer_drift (prec := 53) (emax := 1024) c one_plan s x e) ->
  safe (prec := 53) (emax := 1024) c ((one_plan, s) :: l) x e.
Proof.
  intros H. cbn [safe one_plan]. fold one_plan. split; [repeat split; discriminate|]. split; [|exact H]. intros o Ho. cbn [out_count one_plan] in Ho. replace o with 0%Z by lia. cbv zeta.
  pose proof box_rounds. rewrite box_mag in *. pose proof box_mag_le. pose proof far. lra.
Qed.
End Box.
Lemma model_two (s1 s2 : contents R) : forall x, real_net [(one_plan, s1); (one_plan, s2)] x = real_layer one_plan s2 (real_layer one_plan s1 x).
Proof. reflexivity. Qed.
(** reading the loss of such a network *)
Lemma box_reading s1 s2 : (forall r, r = RB \/ r = RW 0 -> 0 <= s1 r 0%Z <= 21 / 10) -> (forall r, r = RB \/ r = RW 0 -> 0 <= s2 r 0%Z <= 21 / 10) ->
  8 * s1 (RW 0) 0%Z + s1 RB 0%Z <= 19 -> (8 * s1 (RW 0) 0%Z + s1 RB 0%Z) * s2 (RW 0) 0%Z + s2 RB 0%Z <= 19 + / 10 ->
  reading_ok (prec := 53) (emax := 1024) c MSE 1 [(one_plan, s1); (one_plan, s2)] X Y /\
  mean_loss MSE [(one_plan, s1); (one_plan, s2)] X Y (zrange 0 1) = / 2 * (1 - ((8 * s1 (RW 0) 0%Z + s1 RB 0%Z) * s2 (RW 0) 0%Z + s2 RB 0%Z)) ^ 2 /\
  reading_error (prec := 53) (emax := 1024) c MSE 1 [(one_plan, s1); (one_plan, s2)] X Y <= 12.
Proof.
  intros H1 H2 L1 L2. pose proof (H1 RB (or_introl eq_refl)) as B1. pose proof (H1 (RW 0) (or_intror eq_refl)) as W1. pose proof (H2 RB (or_introl eq_refl)) as B2. pose proof (H2 (RW 0) (or_intror eq_refl)) as W2.
  set (w1 := s1 (RW 0) 0%Z) in *. set (b1 := s1 RB 0%Z) in *. set (w2 := s2 (RW 0) 0%Z) in *. set (b2 := s2 RB 0%Z) in *.
  set (y1 := real_layer one_plan s1 xr). set (y2 := real_layer one_plan s2 y1).
  set (e1 := layer_drift (prec := 53) (emax := 1024) c one_plan s1 xr no_error). set (e2 := layer_drift (prec := 53) (emax := 1024) c one_plan s2 y1 e1).
  assert (V1 : y1 0%Z = 8 * w1 + b1) by (apply (box_real w1 b1 8); try reflexivity; lra).
  assert (V2 : y2 0%Z = (8 * w1 + b1) * w2 + b2) by (apply (box_real w2 b2 (8 * w1 + b1)); try reflexivity; try exact V1; lra).
  assert (D1 : 0 <= e1 0%Z <= / 100) by (pose proof (box_drift w1 b1 8 0 s1 xr no_error eq_refl eq_refl eq_refl eq_refl ltac:(lra) ltac:(lra) ltac:(lra) ltac:(lra)) as Q; fold e1 in Q; lra).
  assert (D2 : 0 <= e2 0%Z <= / 20) by (pose proof (box_drift w2 b2 (8 * w1 + b1) (e1 0%Z) s2 y1 e1 eq_refl eq_refl V1 eq_refl ltac:(lra) ltac:(lra) ltac:(lra) ltac:(lra)) as Q; fold e2 in Q; lra).
  set (p := (8 * w1 + b1) * w2 + b2) in *. assert (P0 : 0 <= p) by (unfold p; assert (0 <= (8 * w1 + b1) * w2) by (apply Rmult_le_pos; lra); lra).
  pose proof t_val as T. pose proof far as Fb. pose proof u_tiny as Ut.
  assert (A1 : 0 <= Rabs (1 - p) <= 19) by (split; [apply Rabs_pos|apply Rabs_le; lra]).
  set (g := gap (prec := 53) 1 p (e2 0%Z)). assert (G : 0 <= g <= / 10).
  { unfold g, gap. assert (0 <= uro 53 * (Rabs (1 - p) + e2 0%Z) <= / 1048576 * 20) by (split; [apply Rmult_le_pos; lra|apply Rmult_le_compat; lra]). lra. }
  set (A := prod_size (1 - p) g (1 - p) g). assert (HA : 0 <= A <= 400).
  { unfold A, prod_size. split; [apply Rmult_le_pos; lra|]. apply Rle_trans with (20 * 20); [apply Rmult_le_compat; lra|lra]. }
  pose proof (tiny 1 1 A ltac:(lia) ltac:(lia) ltac:(lra)) as TA.
  set (te := term_err (prec := 53) (emax := 1024) c MSE 1 p (e2 0%Z)). assert (HT : 0 <= te <= 5).
  { unfold te, term_err, prod_err. fold g. fold A. assert (0 <= g * (Rabs (1 - p) + g) <= / 10 * 20) by (split; [apply Rmult_le_pos; lra|apply Rmult_le_compat; lra]).
    assert (0 <= Rabs (1 - p) * g <= 19 * / 10) by (split; [apply Rmult_le_pos; lra|apply Rmult_le_compat; lra]). lra. }
  set (q := (1 - p) ^ 2). assert (Q : 0 <= q <= 361). { unfold q. rewrite <- (pow2_abs (1 - p)). replace (Rabs (1 - p) ^ 2) with (Rabs (1 - p) * Rabs (1 - p)) by ring. split; [apply Rmult_le_pos; lra|]. apply Rle_trans with (19 * 19); [apply Rmult_le_compat; lra|lra]. }
  assert (TS : total_size 1 (fun i => loss_term MSE (reals yv i) (y2 i)) (fun i => term_err (prec := 53) (emax := 1024) c MSE (reals yv i) (y2 i) (e2 i)) = q + te).
  { unfold total_size. rewrite rsum1, T, V2. cbn [loss_term]. fold q. fold te. rewrite Rabs_pos_eq by lra. reflexivity. }
  assert (TE : 0 <= total_err (prec := 53) (emax := 1024) 1 (fun i => loss_term MSE (reals yv i) (y2 i)) (fun i => term_err (prec := 53) (emax := 1024) c MSE (reals yv i) (y2 i) (e2 i)) <= 6).
  { unfold total_err. rewrite TS, rsum1, T, V2. fold te. pose proof (tiny 1 0 (q + te) ltac:(lia) ltac:(lia) ltac:(lra)). lra. }
  assert (LE : 0 <= loss_error (prec := 53) (emax := 1024) c MSE 1 (reals yv) y2 e2 <= 10).
  { unfold loss_error. set (tt := total_err _ _ _) in *. clearbody tt. unfold prod_err, prod_size. rewrite rsum1, T, V2. cbn [loss_term]. fold q. rewrite (Rabs_pos_eq q), (Rabs_pos_eq (/ 2)) by lra.
    assert (0 <= (q + tt) * (/ 2 + 0) <= 400) by lra. pose proof (tiny 1 1 ((q + tt) * (/ 2 + 0)) ltac:(lia) ltac:(lia) ltac:(lra)). lra. }
  assert (SL : std_loss MSE 1 (reals yv) y2 = / 2 * q) by (cbn [std_loss]; rewrite rsum1, T, V2; reflexivity).
  assert (Eta : 0 <= eta 53 1024 <= / 1048576) by (split; [left; apply eta_pos|unfold eta; change (/ 1048576) with (bpow radix2 (-20)); apply bpow_le; lia]).
  assert (EL : exact_loss MSE [(one_plan, s1); (one_plan, s2)] X Y 0 = / 2 * q).
  { unfold exact_loss. cbv beta. change (xs 0%Z) with xv. change (ys 0%Z) with yv. rewrite x_val. exact SL. }
  assert (CE : computed_error (prec := 53) (emax := 1024) c MSE [(one_plan, s1); (one_plan, s2)] X Y 0 = loss_error (prec := 53) (emax := 1024) c MSE 1 (reals yv) y2 e2).
  { unfold computed_error. cbv beta. change (xs 0%Z) with xv. rewrite x_val. reflexivity. }
  split; [|split].
  - unfold reading_ok. change (out_count (DescentSpec.final_plan [(one_plan, s1); (one_plan, s2)])) with 1%Z. split.
    + intros i Hi. change (ys i) with yv. change (xs i) with xv. rewrite x_val. rewrite model_two. change (drift (prec := 53) (emax := 1024) c [(one_plan, s1); (one_plan, s2)] xr no_error) with e2. fold y1. fold y2. split.
      * apply (box_safe w1 b1 8 0); try reflexivity; try lra. apply (box_safe w2 b2 (8 * w1 + b1) (e1 0%Z)); try reflexivity; try exact V1; try exact I; lra.
      * split; [|split].
        -- intros j Hj. replace j with 0%Z by lia. rewrite T, V2. cbn [term_room]. fold g. split; [|unfold product_room; fold A; lra].
           apply Rle_lt_trans with (20 * 2); [apply Rmult_le_compat; lra|lra].
        -- unfold total_room. rewrite TS. pose proof (tiny 1 0 (q + te) ltac:(lia) ltac:(lia) ltac:(lra)). lra.
        -- unfold product_room, prod_size. set (tt := total_err _ _ _) in *. clearbody tt. rewrite rsum1, T, V2. cbn [loss_term]. fold q. rewrite (Rabs_pos_eq q), (Rabs_pos_eq (/ 2)) by lra.
           pose proof (tiny 1 1 ((q + tt) * (/ 2 + 0)) ltac:(lia) ltac:(lia) ltac:(lra)). lra.
    + unfold total_room, total_size. rewrite rsum1. unfold exact_loss, computed_error. change (out_count (DescentSpec.final_plan [(one_plan, s1); (one_plan, s2)])) with 1%Z. cbv beta. change (ys 0%Z) with yv. change (xs 0%Z) with xv. rewrite x_val, model_two.
      change (drift (prec := 53) (emax := 1024) c [(one_plan, s1); (one_plan, s2)] xr no_error) with e2. fold y1. fold y2. rewrite SL, (Rabs_pos_eq (/ 2 * q)) by lra. set (le := loss_error _ _ _ _ _ _) in *. clearbody le.
      pose proof (tiny 1 0 (/ 2 * q + le) ltac:(lia) ltac:(lia) ltac:(lra)). lra.
  - rewrite plain_loss by (lia || exact I). rewrite rsum1. unfold exact_loss. change (out_count (DescentSpec.final_plan [(one_plan, s1); (one_plan, s2)])) with 1%Z. cbv beta. change (ys 0%Z) with yv. change (xs 0%Z) with xv. rewrite x_val, model_two. fold y1. fold y2. rewrite SL. unfold q. lra.
  - unfold reading_error, mean_err, total_err, total_size. rewrite !rsum1, EL, CE, (Rabs_pos_eq (/ 2 * q)) by lra. set (le := loss_error _ _ _ _ _ _) in *. clearbody le.
    pose proof (tiny 1 0 (/ 2 * q + le) ltac:(lia) ltac:(lia) ltac:(lra)) as T1. change (roundings 53 1024 1 0 (/ 2 * q + le)) with (roundings 53 1024 1 (0) (/ 2 * q + le)) in *. generalize dependent (roundings 53 1024 1 0 (/ 2 * q + le)). intros w T1.
    assert (0 <= uro 53 * (/ 2 * q + (le + w)) <= / 1048576 * 400) by (split; [apply Rmult_le_pos; lra|apply Rmult_le_compat; lra]). unfold Rdiv. rewrite Rinv_1, Rmult_1_r. lra.
Qed.
(** the first network of the round: parameters 2, 2, 1, 1, whatever its working tensors hold *)
Section Start.
Context (s1 s2 : contents R) (P1 : forall r, r = RB \/ r = RW 0 -> s1 r 0%Z = 2) (P2 : forall r, r = RB \/ r = RW 0 -> s2 r 0%Z = 1).
Notation t0 := [(one_plan, s1); (one_plan, s2)].
Notation y1 := (real_layer one_plan s1 xr).
Notation e1 := (layer_drift (prec := 53) (emax := 1024) c one_plan s1 xr e0).
Notation y2 := (real_layer one_plan s2 y1).
Notation e2 := (layer_drift (prec := 53) (emax := 1024) c one_plan s2 y1 e1).
Notation d := (loss_slope MSE (reals yv) y2).
Notation ed := (loss_err (prec := 53) c MSE (reals yv) y2 e2).
Lemma st_y1 : y1 0%Z = 18.
Proof. rewrite (one_real 2 8) by (try (apply P1; auto); try reflexivity; lra). lra. Qed.
Lemma st_e1 : 0 <= e1 0%Z <= / 100.
Proof. pose proof (one_drift c 2 8 0 s1 xr e0 (P1 _ (or_introl eq_refl)) (P1 _ (or_intror eq_refl)) eq_refl eq_refl ltac:(lra) ltac:(lra) ltac:(lra)). lra. Qed.
Lemma st_y2 : y2 0%Z = 19.
Proof. rewrite (one_real 1 18) by (try (apply P2; auto); try exact st_y1; lra). lra. Qed.
Lemma st_e2 : 0 <= e2 0%Z <= 3 / 100.
Proof. pose proof st_e1. pose proof (one_drift c 1 18 _ s2 y1 e1 (P2 _ (or_introl eq_refl)) (P2 _ (or_intror eq_refl)) st_y1 eq_refl ltac:(lra) ltac:(lra) ltac:(lra)). lra. Qed.
Lemma st_safe : safe (prec := 53) (emax := 1024) c t0 xr e0.
Proof.
  pose proof st_e1. apply (one_safe c 2 8 0); try (apply P1; auto); try reflexivity; try lra.
  apply (one_safe c 1 18 (e1 0%Z)); try (apply P2; auto); try exact st_y1; try reflexivity; try exact I; lra.
Qed.
Lemma st_smooth : smooth t0 xr.
Proof.
  cbn [smooth one_plan]. split; [split; [discriminate|]|split; [split; [discriminate|]|exact I]]; intros j Hj; replace j with 0%Z by lia.
  - apply (one_corner 2 8 s1 xr); try (apply P1; auto); try reflexivity; lra.
  - fold one_plan. apply (one_corner 1 18 s2 y1); try (apply P2; auto); try exact st_y1; lra.
Qed.
Lemma st_d : d 0%Z = 18.
Proof. cbn [loss_slope]. rewrite st_y2, t_val. lra. Qed.
Lemma st_size : 0 <= loss_size (reals yv) y2 e2 0 <= 19.
Proof. unfold loss_size. rewrite st_y2, t_val. pose proof st_e2. rewrite Rabs_pos_eq by lra. lra. Qed.
Lemma st_ed : 0 <= ed 0%Z <= 4 / 100.
Proof. unfold loss_err. pose proof st_size. pose proof st_e2. pose proof u_tiny. assert (0 <= uro 53 * loss_size (reals yv) y2 e2 0 <= / 1048576 * 19) by (split; [apply Rmult_le_pos; lra|apply Rmult_le_compat; lra]). lra. Qed.
Lemma st_back_safe : back_safe (prec := 53) (emax := 1024) c false t0 xr e0 d ed.
Proof.
  pose proof st_e1. pose proof st_ed as Q.
  cbn [back_safe one_plan back]. fold one_plan. cbv zeta. cbn [fst snd].
  pose proof (one_delta_err c 1 18 s2 y1 e1 (P2 _ (or_introl eq_refl)) (P2 _ (or_intror eq_refl)) st_y1 ltac:(lra) ltac:(lra) 18 (ed 0%Z) d ed st_d eq_refl ltac:(lra) ltac:(lra)) as DE.
  pose proof (one_delta 1 18 s2 y1 (P2 _ (or_introl eq_refl)) (P2 _ (or_intror eq_refl)) st_y1 ltac:(lra) ltac:(lra) 18 d st_d) as DV.
  split; [|split; [|exact I]].
  - eapply (one_back_safe c 2 8 0); try (apply P1; auto); try reflexivity; try exact DV; try lra.
  - eapply (one_back_safe c 1 18 (e1 0%Z)); try (apply P2; auto); try exact st_y1; try exact st_d; try reflexivity; lra.
Qed.
Lemma st_ok : sample_ok (prec := 53) (emax := 1024) c MSE t0 xr (reals yv).
Proof.
  split; [discriminate|]. split; [exact st_smooth|]. split; [left; reflexivity|]. split; [exact st_safe|]. split; [|exact st_back_safe].
  intros j Hj. change (out_count (DescentSpec.final_plan t0)) with 1%Z in Hj. replace j with 0%Z by lia.
  pose proof st_size as S1. pose proof u_tiny. pose proof far. change no_error with e0. rewrite model_two. change (drift (prec := 53) (emax := 1024) c t0 xr e0) with e2. set (v := loss_size _ _ _ _) in *. assert (v * (1 + uro 53) <= 19 * 2) by (apply Rmult_le_compat; lra). lra.
Qed.
(** the gradient *)
Definition slopes (i : nat) (r : role) : R := match i, r with O, RB => 18 | O, _ => 144 | _, RB => 18 | _, _ => 324 end.
Lemma st_sizes i p s r j : nth_error t0 i = Some (p, s) -> is_param p r j ->
  j = 0%Z /\ 0 <= s r j <= 2 /\ sample_gradient MSE t0 xr (reals yv) i r j = slopes i r /\ 0 <= sample_error (prec := 53) (emax := 1024) c MSE t0 xr (reals yv) i r j <= 10.
Proof.
  intros Hi Hj. unfold sample_gradient, sample_error. change no_error with e0. rewrite model_two. change (drift (prec := 53) (emax := 1024) c t0 xr e0) with e2.
  pose proof st_e1 as E1. pose proof st_ed as Q. pose proof st_d as Dv. pose proof st_y1 as Y1.
  pose proof (one_delta_err c 1 18 s2 y1 e1 (P2 _ (or_introl eq_refl)) (P2 _ (or_intror eq_refl)) Y1 ltac:(lra) ltac:(lra) 18 (ed 0%Z) d ed Dv eq_refl ltac:(lra) ltac:(lra)) as DE.
  pose proof (one_delta 1 18 s2 y1 (P2 _ (or_introl eq_refl)) (P2 _ (or_intror eq_refl)) Y1 ltac:(lra) ltac:(lra) 18 d Dv) as DV.
  destruct (one_sizes 1 18 (e1 0%Z) s2 y1 e1 (P2 _ (or_introl eq_refl)) (P2 _ (or_intror eq_refl)) Y1 eq_refl ltac:(lra) ltac:(lra) ltac:(lra) 18 (ed 0%Z) d ed Dv eq_refl ltac:(lra) ltac:(lra)) as [Z1 Z2].
  set (d1 := delta_val (Functions.Scalar ReLU) 1 1 s2 y1 d) in *. set (ed1 := delta_err (prec := 53) (emax := 1024) c (Functions.Scalar ReLU) 1 1 s2 y1 e1 d ed) in *.
  destruct (one_sizes 2 8 0 s1 xr e0 (P1 _ (or_introl eq_refl)) (P1 _ (or_intror eq_refl)) eq_refl eq_refl ltac:(lra) ltac:(lra) ltac:(lra) 18 _ d1 ed1 ltac:(rewrite DV; lra) eq_refl ltac:(lra) ltac:(lra)) as [Z3 Z4].
  assert (Q1 : forall r, r = RB \/ r = RW 0 -> 0 <= s1 r 0%Z <= 2) by (intros q Hq; rewrite (P1 q Hq); lra).
  assert (Q2 : forall r, r = RB \/ r = RW 0 -> 0 <= s2 r 0%Z <= 2) by (intros q Hq; rewrite (P2 q Hq); lra).
  assert (G1 : bias_grad (Functions.Scalar ReLU) 1 1 s2 y1 d 0 = 18) by (apply (one_bias 1 18); try (apply P2; auto); try exact Y1; try exact Dv; lra).
  assert (G2 : weight_grad (Functions.Scalar ReLU) 1 1 s2 y1 d 0 = 324) by (rewrite (one_weight 1 18 s2 y1 (P2 _ (or_introl eq_refl)) (P2 _ (or_intror eq_refl)) Y1 ltac:(lra) ltac:(lra) 18 d Dv); lra).
  assert (G3 : bias_grad (Functions.Scalar ReLU) 1 1 s1 xr d1 0 = 18) by (apply (one_bias 2 8); try (apply P1; auto); try reflexivity; lra).
  assert (G4 : weight_grad (Functions.Scalar ReLU) 1 1 s1 xr d1 0 = 144) by (rewrite (one_weight 2 8 s1 xr (P1 _ (or_introl eq_refl)) (P1 _ (or_intror eq_refl)) eq_refl ltac:(lra) ltac:(lra) 18 d1 ltac:(rewrite DV; lra)); lra).
  destruct i as [|[|i]]; cbn [nth_error] in Hi; [| |destruct i; discriminate]; injection Hi as <- <-; destruct r as [|f| | | |f| | | |]; cbn [is_param one_plan] in Hj; try contradiction.
  - replace j with 0%Z by lia. split; [reflexivity|]. split; [apply Q1; now left|]. split; [exact G3|]. exact (proj2 Z3).
  - destruct Hj as [-> Hj]. replace j with 0%Z by lia. split; [reflexivity|]. split; [apply Q1; now right|]. split; [exact G4|]. exact (proj2 Z4).
  - replace j with 0%Z by lia. split; [reflexivity|]. split; [apply Q2; now left|]. split; [exact G1|]. exact (proj2 Z1).
  - destruct Hj as [-> Hj]. replace j with 0%Z by lia. split; [reflexivity|]. split; [apply Q2; now right|]. split; [exact G2|]. exact (proj2 Z2).
Qed.
Lemma slow_room p g e : 0 <= p <= 2 -> 0 <= g <= 360 -> 0 <= e <= 12 ->
  update_room (prec := 53) (emax := 1024) (/ 1024) p g e /\ 0 <= update_error (prec := 53) (emax := 1024) (/ 1024) p g e <= 222 / 10000.
Proof.
  intros Hp Hg He. pose proof far as Fa. pose proof u_tiny as Ut. unfold update_room, update_error, prod_size, prod_err, prod_size. rewrite !(Rabs_pos_eq g), !(Rabs_pos_eq (/ 1024)) by lra.
  assert (0 <= (g + e) * (/ 1024 + 0) <= 372 * (/ 1024)) by (split; [apply Rmult_le_pos; lra|apply Rmult_le_compat; lra]). pose proof (tiny 1 1 ((g + e) * (/ 1024 + 0)) ltac:(lia) ltac:(lia) ltac:(lra)) as T. cbv zeta.
  assert (Rabs (p - g * / 1024) <= 10) by (apply Rabs_le; lra). set (v := roundings _ _ _ _ _) in *. set (q := Rabs (p - g * / 1024)) in *. assert (0 <= q) by apply Rabs_pos.
  assert ((q + (e * (/ 1024 + 0) + g * 0 + v)) * (1 + uro 53) <= 20 * 2) by (apply Rmult_le_compat; lra).
  assert (0 <= uro 53 * (q + (e * (/ 1024 + 0) + g * 0 + v)) <= / 1048576 * 20) by (split; [apply Rmult_le_pos; lra|apply Rmult_le_compat; lra]). split; [split; lra|lra].
Qed.
Lemma st_mean i p s r j : nth_error t0 i = Some (p, s) -> is_param p r j -> mean_gradient MSE t0 X Y [0%Z] i r j = slopes i r.
Proof.
  intros Hi Hj. destruct (st_sizes i p s r j Hi Hj) as (_ & _ & G & _). unfold mean_gradient, gradient_sum, sum_over. cbn [fold_right length INR]. cbv beta. change (xs 0%Z) with xv. change (ys 0%Z) with yv. rewrite x_val, G, Rinv_1. ring.
Qed.
Lemma slopes_le i r : 0 <= slopes i r <= 360.
Proof. destruct i; destruct r; cbn; lra. Qed.
Lemma st_round i p s r j : nth_error t0 i = Some (p, s) -> is_param p r j ->
  (sum_size (prec := 53) (emax := 1024) c MSE t0 X Y [0%Z] i r j * (1 + uro 53) ^ length [0%Z] < big 1024 /\
   (let A := prod_size (gradient_sum MSE t0 X Y [0%Z] i r j) (sum_error (prec := 53) (emax := 1024) c MSE t0 X Y [0%Z] i r j) (/ INR (length [0%Z])) (uro 53 * / INR (length [0%Z]) + eta 53 1024) in
    A + roundings 53 1024 1 1 A < big 1024) /\
   update_room (prec := 53) (emax := 1024) (/ 1024) (s r j) (mean_gradient MSE t0 X Y [0%Z] i r j) (mean_error (prec := 53) (emax := 1024) c MSE t0 X Y [0%Z] i r j)) /\
  0 <= batch_error (prec := 53) (emax := 1024) c MSE t0 X Y [0%Z] (/ 1024) i r j <= 222 / 10000.
Proof.
  intros Hi Hj. destruct (st_sizes i p s r j Hi Hj) as (_ & P & G0 & E). pose proof far as Fa. pose proof u_tiny as Ut. pose proof (slopes_le i r) as G. rewrite <- G0 in G.
  assert (Pa : param t0 i r j = s r j) by (unfold param; now rewrite Hi). unfold batch_error. rewrite Pa.
  unfold mean_error, mean_gradient, sum_error, gradient_sum, sum_size, sum_over. cbn [fold_right length INR pow]. cbv beta. change (xs 0%Z) with xv. change (ys 0%Z) with yv. rewrite x_val. rewrite !Rplus_0_r, Rmult_1_r, Rinv_1, !Rmult_1_r.
  set (g := sample_gradient _ _ _ _ _ _ _) in *. set (e := sample_error _ _ _ _ _ _ _ _) in *. rewrite !(Rabs_pos_eq g) by lra. clearbody g e.
  assert (E1 : 0 <= eta 53 1024 <= / 1048576) by (split; [left; apply eta_pos|unfold eta; change (/ 1048576) with (bpow radix2 (-20)); apply bpow_le; lia]).
  replace (1 + uro 53 - 1) with (uro 53) by ring. assert (M1 : 0 <= uro 53 * (g + e) <= / 1048576 * 400) by (split; [apply Rmult_le_pos; lra|apply Rmult_le_compat; lra]).
  assert (M2 : (g + e) * (1 + uro 53) <= 400 * 2) by (apply Rmult_le_compat; lra). set (se := e + uro 53 * (g + e)) in *. assert (S1 : 0 <= se <= 11) by (unfold se; lra). clearbody se.
  set (ee := uro 53 + eta 53 1024). assert (S2 : 0 <= ee <= / 100000) by (unfold ee; lra). clearbody ee. unfold prod_err, prod_size. rewrite (Rabs_pos_eq g), Rabs_R1 by lra.
  assert (M3 : 0 <= (g + se) * (1 + ee) <= 371 * 2) by (split; [apply Rmult_le_pos; lra|apply Rmult_le_compat; lra]). pose proof (tiny 1 1 ((g + se) * (1 + ee)) ltac:(lia) ltac:(lia) ltac:(lra)) as T. cbv zeta.
  set (v := roundings _ _ _ _ _) in *.
  assert (0 <= se * (1 + ee) <= 11 * (1 + / 100000)) by (split; [apply Rmult_le_pos; lra|apply Rmult_le_compat; lra]). assert (0 <= g * ee <= 360 * / 100000) by (split; [apply Rmult_le_pos; lra|apply Rmult_le_compat; lra]).
  destruct (slow_room (s r j) g (se * (1 + ee) + g * ee + v)) as [R1 R2]; [exact P|lra|lra|]. split; [split; [lra|split; [lra|exact R1]]|exact R2].
Qed.
Lemma st_batch : batch_ok (prec := 53) (emax := 1024) c MSE t0 X Y [0%Z] (/ 1024).
Proof.
  split; [cbn [length]; lia|]. split; [intros k _; change (xs k) with xv; change (ys k) with yv; rewrite x_val; exact st_ok|]. intros i p s r j Hi Hj. exact (proj1 (st_round i p s r j Hi Hj)).
Qed.
Lemma two_total (s s' : contents R) i f : total i [(one_plan, s); (one_plan, s')] f = f i RB 0%Z + f i (RW 0) 0%Z + (f (Datatypes.S i) RB 0%Z + f (Datatypes.S i) (RW 0) 0%Z).
Proof. cbn [total one_plan]. change (1 * 1)%Z with 1%Z. rewrite !rsum1. ring. Qed.
Lemma st_squares : gradient_square MSE t0 X Y [0%Z] = 18 * 18 + 144 * 144 + (18 * 18 + 324 * 324) /\
  0 <= error_square (prec := 53) (emax := 1024) c MSE t0 X Y [0%Z] (/ 1024) <= 4 * ((222 / 10000) * (222 / 10000)).
Proof.
  assert (R0 : forall s q, nth_error t0 q = Some (one_plan, s) -> forall r, r = RB \/ r = RW 0 -> mean_gradient MSE t0 X Y [0%Z] q r 0%Z = slopes q r /\
    0 <= batch_error (prec := 53) (emax := 1024) c MSE t0 X Y [0%Z] (/ 1024) q r 0 * batch_error (prec := 53) (emax := 1024) c MSE t0 X Y [0%Z] (/ 1024) q r 0 <= (222 / 10000) * (222 / 10000)).
  { intros s q Hq r Hr. assert (Hj : is_param one_plan r 0) by (destruct Hr as [-> | ->]; cbn; lia). split; [exact (st_mean q _ _ r 0 Hq Hj)|]. destruct (proj2 (st_round q _ _ r 0 Hq Hj)). split; [apply Rmult_le_pos; lra|apply Rmult_le_compat; lra]. }
  unfold gradient_square, error_square. rewrite !two_total. destruct (R0 s1 0%nat eq_refl RB) as [A1 A2]; [auto|]. destruct (R0 s1 0%nat eq_refl (RW 0)) as [A3 A4]; [auto|]. destruct (R0 s2 1%nat eq_refl RB) as [A5 A6]; [auto|]. destruct (R0 s2 1%nat eq_refl (RW 0)) as [A7 A8]; [auto|].
  rewrite A1, A3, A5, A7. cbn [slopes]. split; lra.
Qed.
(** after the round *)
Section Round.
Context (th' : model).
Notation J := (fun th => mean_loss MSE th X Y (zrange 0 1)).
Context (St : inexact_step J (/ 1024) (batch_error (prec := 53) (emax := 1024) c MSE t0 X Y [0%Z] (/ 1024)) t0 th') (Gr : gradient_of J t0 (mean_gradient MSE t0 X Y [0%Z])).
Lemma st_next : exists s1' s2', th' = [(one_plan, s1'); (one_plan, s2')] /\
  (forall r, r = RB \/ r = RW 0 -> Rabs (s1' r 0%Z - (2 - / 1024 * slopes 0 r)) <= 222 / 10000) /\ (forall r, r = RB \/ r = RW 0 -> Rabs (s2' r 0%Z - (1 - / 1024 * slopes 1 r)) <= 222 / 10000).
Proof.
  destruct St as [Ep Ss]. destruct th' as [|[p1 s1'] [|[p2 s2'] [|]]]; try discriminate Ep. cbn in Ep. injection Ep as -> ->. exists s1', s2'. split; [reflexivity|].
  assert (K : forall q s s' v, nth_error t0 q = Some (one_plan, s) -> nth_error [(one_plan, s1'); (one_plan, s2')] q = Some (one_plan, s') -> (forall r, r = RB \/ r = RW 0 -> s r 0%Z = v) ->
    forall r, r = RB \/ r = RW 0 -> Rabs (s' r 0%Z - (v - / 1024 * slopes q r)) <= 222 / 10000).
  { intros q s s' v Hq Hq' Hv r Hr. assert (Hj : is_param one_plan r 0) by (destruct Hr as [-> | ->]; cbn; lia). destruct (Ss q _ s Hq) as (s3 & H3 & H4). assert (s3 = s') by congruence. subst s3.
    destruct (H4 r 0%Z Hj) as (g & G1 & G2). pose proof (partial_unique _ _ _ _ _ (Gr q _ s r 0%Z Hq Hj) G1) as Eg. rewrite <- Eg, (st_mean q _ s r 0 Hq Hj), (Hv r Hr) in G2. eapply Rle_trans; [exact G2|]. exact (proj2 (proj2 (st_round q _ s r 0 Hq Hj))). }
  split; intros r Hr; [apply (K 0%nat s1 s1' 2 eq_refl eq_refl P1 r Hr)|apply (K 1%nat s2 s2' 1 eq_refl eq_refl P2 r Hr)].
Qed.
Lemma st_after : bends_at_most 1024 J t0 th' /\ reading_ok (prec := 53) (emax := 1024) c MSE 1 th' X Y /\ reading_error (prec := 53) (emax := 1024) c MSE 1 th' X Y <= 12.
Proof.
  destruct st_next as (s1' & s2' & Et & N1 & N2). subst th'.
  pose proof (N1 RB (or_introl eq_refl)) as B1. pose proof (N1 (RW 0) (or_intror eq_refl)) as W1. pose proof (N2 RB (or_introl eq_refl)) as B2. pose proof (N2 (RW 0) (or_intror eq_refl)) as W2. cbn [slopes] in B1, W1, B2, W2. apply Rabs_le_inv in B1, W1, B2, W2.
  assert (L1 : 0 <= 8 * s1' (RW 0) 0%Z + s1' RB 0%Z <= 17.06) by lra.
  assert (L2 : 0 <= (8 * s1' (RW 0) 0%Z + s1' RB 0%Z) * s2' (RW 0) 0%Z <= 17.06 * 0.706) by (split; [apply Rmult_le_pos; lra|apply Rmult_le_compat; lra]).
  destruct (box_reading s1' s2') as (R1 & R2 & R4).
  { intros r [-> | ->]; lra. } { intros r [-> | ->]; lra. } { lra. } { lra. }
  split; [|split; [exact R1|exact R4]]. intros G HG. rewrite !two_total. change (param t0 0) with s1. change (param t0 1) with s2. change (param [(one_plan, s1'); (one_plan, s2')] 0) with s1'. change (param [(one_plan, s1'); (one_plan, s2')] 1) with s2'.
  assert (EG : forall q s r, nth_error t0 q = Some (one_plan, s) -> r = RB \/ r = RW 0 -> G q r 0%Z = slopes q r).
  { intros q s r Hq Hr. assert (Hj : is_param one_plan r 0) by (destruct Hr as [-> | ->]; cbn; lia). rewrite <- (st_mean q _ s r 0 Hq Hj). eapply partial_unique; [exact (HG q _ s r 0%Z Hq Hj)|exact (Gr q _ s r 0%Z Hq Hj)]. }
  rewrite (EG 0%nat s1 RB), (EG 0%nat s1 (RW 0)), (EG 1%nat s2 RB), (EG 1%nat s2 (RW 0)) by auto. cbn [slopes].
  destruct (box_reading s1 s2) as (_ & R3 & _); try (intros r Hr; rewrite ?(P1 r Hr), ?(P2 r Hr); lra); try (rewrite !P1, ?P2 by auto; lra).
  match goal with |- ?a <= ?b + _ + _ => let e2 := type of R2 in let e3 := type of R3 in match e2 with _ = ?x => match e3 with _ = ?y => replace a with x by (symmetry; exact R2); replace b with y by (symmetry; exact R3) end end end.
  rewrite !P1, !P2 by auto. set (w1 := s1' (RW 0) 0%Z) in *. set (b1 := s1' RB 0%Z) in *. set (w2 := s2' (RW 0) 0%Z) in *. set (b2 := s2' RB 0%Z) in *. clearbody w1 b1 w2 b2.
  set (p := (8 * w1 + b1) * w2) in *. clearbody p.
  assert (Q1 : (1 - (p + b2)) ^ 2 <= 146). { assert (D : -1 <= p + b2 - 1 <= 12.0806) by lra. set (z := p + b2 - 1) in *. replace ((1 - (p + b2)) ^ 2) with (z * z) by (unfold z; ring). assert (0 <= (12.0806 - z) * (z + 12.0806)) by (apply Rmult_le_pos; lra). lra. }
  assert (Q2 : 0.0865 <= (w2 - 1) * (w2 - 1)). { assert (0 <= (1 - w2 - 0.2942) * (1 - w2 + 0.2942)) by (apply Rmult_le_pos; lra). lra. }
  assert (Q3 : 0.0138 <= (w1 - 2) * (w1 - 2)). { assert (0 <= (2 - w1 - 0.118) * (2 - w1 + 0.118)) by (apply Rmult_le_pos; lra). lra. }
  pose proof (Rle_0_sqr (b1 - 2)) as Q4. pose proof (Rle_0_sqr (b2 - 1)) as Q5. unfold Rsqr in Q4, Q5. lra.
Qed.
End Round.
End Start.
Lemma begin_ok : reading_ok (prec := 53) (emax := 1024) c MSE 1 th X Y /\ reading_error (prec := 53) (emax := 1024) c MSE 1 th X Y <= 12.
Proof.
  change th with [(one_plan, (fun r i => B2R (one_data 1 r i)) : contents R); (one_plan, fun r i => B2R (one_data 0 r i))].
  destruct (box_reading (fun r i => B2R (one_data 1 r i)) (fun r i => B2R (one_data 0 r i))) as (R1 & _ & R2); [intros r Hr; rewrite (sd1 r Hr); lra|intros r Hr; rewrite (sd0 r Hr); lra| | |now split];
    rewrite !sd1, ?sd0 by auto; lra.
Qed.
Lemma two_params (hd : model) : same_parameters th hd -> exists s1 s2, hd = [(one_plan, s1); (one_plan, s2)] /\ (forall r, r = RB \/ r = RW 0 -> s1 r 0%Z = 2) /\ (forall r, r = RB \/ r = RW 0 -> s2 r 0%Z = 1).
Proof.
  intros [Ep H]. destruct hd as [|[p1 s1] [|[p2 s2] [|]]]; try discriminate Ep. cbn in Ep. injection Ep as -> ->. exists s1, s2. split; [reflexivity|].
  split; intros r Hr; (assert (Hj : is_param one_plan r 0) by (destruct Hr as [-> | ->]; cbn; lia)).
  - etransitivity; [exact (H 0%nat one_plan r 0%Z eq_refl Hj)|exact (sd1 r Hr)].
  - etransitivity; [exact (H 1%nat one_plan r 0%Z eq_refl Hj)|exact (sd0 r Hr)].
Qed.
Example C134_applies addr : exists v m1 (l' : list (node (fl 53 1024))) m2 v' m3,
  chk_loss (layers [n1; n2]) MSE [tv 18 1] [tv 19 1] m0 = Ok (v, m1) /\ tr_batch addr (layers [n1; n2]) tr [tv 18 1] [tv 19 1] (grad_descent slow) 1 m1 = Ok ((layers l', grad_descent slow), m2) /\
  chk_loss (layers l') MSE [tv 18 1] [tv 19 1] m2 = Ok (v', m3) /\ fin v /\ fin v' /\ B2R v' <= B2R v - 30.
Proof.
  destruct slow_val as [Fr Vr]. destruct begin_ok as [Bo Be].
  destruct (C134_reported_loss (prec := 53) (emax := 1024) ltac:(lia) ltac:(lia) ltac:(lia) lib PropFloatLayers.Examples.lib_ok c PropFloatNet.Examples.lib_acc (cr_lib_cosh (prec := 53) (emax := 1024) ltac:(lia) ltac:(lia)) PropFloatCheck.Examples.lib_log PropFloatCheck.Examples.c_pos
    addr tr MSE [tv 18 1] [tv 19 1] xs ys (or_introl eq_refl) eq_refl ltac:(cbn; lia) ltac:(repeat constructor) m0 [n1; n2] (grad_descent slow) 1 1024 rd eq_refl ltac:(repeat constructor) I two_sound fd Fr ltac:(change (o_lr (grad_descent slow)) with slow; rewrite Vr; lra)
    ltac:(change (o_lr (grad_descent slow)) with slow; rewrite Vr; lra) ltac:(lia) Bo) as (v & m1 & l' & m2 & v' & m3 & ths & E1 & E2 & E3 & Ln & Hd & Hl & Fo & Q).
  exists v, m1, l', m2, v', m3. split; [exact E1|]. split; [exact E2|]. split; [exact E3|].
  change (o_lr (grad_descent slow)) with slow in *. rewrite Vr in *. change (Z.of_nat (length [tv 18 1])) with 1%Z in *. change (zrange 0 1) with [0%Z] in *. change (Z.to_nat 1) with 1%nat in *.
  destruct ths as [|a [|b [|]]]; try discriminate Ln. cbn [hd] in Hd. destruct (two_params a Hd) as (s1 & s2 & -> & P1 & P2).
  cbn [repeat follows] in Fo. destruct (Fo (st_batch s1 s2 P1 P2)) as [St _].
  destruct Q as [GS Q].
  { constructor; [exact (st_batch s1 s2 P1 P2)|constructor]. }
  cbn [removelast] in GS. pose proof (Forall_inv GS) as Gr.
  destruct (st_after s1 s2 P1 P2 b St Gr) as (Bd & Rk & Re). destruct (st_squares s1 s2 P1 P2) as [G2 E4].
  destruct Q as (Fv & Fv' & Q).
  - split; [exact Bd|exact I].
  - exact Rk.
  - split; [exact Fv|]. split; [exact Fv'|]. cbn [removelast last sum_over fold_right] in Q. rewrite G2 in Q. set (es := error_square _ _ _ _ _ _ _) in *. replace (/ (2 * / 1024)) with 512 in Q by field.
    match type of Be with ?a <= _ => match type of Q with context [reading_error ?k1 ?k2 ?k3 (exact [n1; n2]) ?k4 ?k5] => change (reading_error k1 k2 k3 (exact [n1; n2]) k4 k5) with a in Q end end.
    match type of Be with ?a <= _ => set (r1 := a) in * end. match type of Re with ?a <= _ => set (r2 := a) in * end. clearbody es r1 r2. clear -Q Be Re E4. lra.
Qed.
 End Examples.
Print Assumptions C134_reported_loss.

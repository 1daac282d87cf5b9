(** * Property C125: training in floating-point arithmetic without NaN or infinity *)
From Coq Require Import ZArith QArith Reals Lra Lia Psatz Bool List.
From Flocq Require Import Core BinarySingleNaN.
From Verif Require Import Mem Scalar MemSpec MemLemmas Lique LiqueSpec LiqueProofs LiqueProofs2 Linear LinearProofs Functions FunctionSpec FunctionProofs
  Skel Bufs Optimizer OptimizerSpec OptimizerProofs OptimizerHist Layer LayerSpec FCProofs Cells ConvSpec ConvProofs ConvProofs2 PoolSpec PoolProofs PropFC PropConv PropPool
  Net NetPlan NetProofs NetBack PropNet Checker PropChecker Schedule PropTraining Descent PropDescent OptTrain OptTrainSpec PropOptTrain SessionSpec Session PropSession
  Float FloatSpec FloatLemmas RSum FloatError FloatLib FloatAct FloatAcc FloatLoss FloatOpt PropFloatOpt FloatTrainSpec FloatTrain FloatSteps Init InitSpec PropProgram.
From Verif Require PropFloatLayers.
Import ListNotations.
Local Open Scope R_scope.

Section Train.
Context {prec emax : Z} {Hp : Prec_gt_0 prec} {He : Prec_lt_emax prec emax} (P24 : (24 <= prec)%Z) (EM : (5 * prec + 8 <= emax)%Z).
Context (lib : libm prec emax) (LO : libm_ok lib).
Notation fl := (fl prec emax).
Notation small := (small (prec := prec) (emax := emax)).
Notation grow := (grow prec).
#[local] Instance NF : Num fl := Num_fl prec emax lib.
#[local] Existing Instance names_pname.

(** ** from memory to contents *)
Lemma holds_same (m : mem fl) q n v v' j : holds m q n v -> holds m q n v' -> (0 <= j < n)%Z -> v j = v' j.
Proof. intros A B Hj. specialize (A j Hj). specialize (B j Hj). congruence. Qed.
Lemma dense_chain Js lo t B : forall (l : list (node fl)) e s, Forall (fun d => fits (n_layer d) (n_plan d)) l -> Forall train_class (layers l) -> wired s (plans l) -> headroom prec emax Js lo t B e (plans l) ->
  chain (s_size s) (plans l) /\ Forall isfc l.
Proof.
  induction Js as [|J Js IH]; intros [|d l] e s F Tc W H; cbn [plans map headroom] in H.
  - split; [exact I|constructor].
  - destruct (n_plan d); tauto.
  - tauto.
  - apply Forall_cons_iff in F. destruct F as [F F']. apply Forall_cons_iff in Tc. destruct Tc as [Tc Tc']. cbn [plans map wired chain] in *. destruct (n_plan d) as [a n k|g|a q] eqn:EP; try tauto.
    destruct W as [W W']. cbn [feeds] in W. destruct (n_layer d) as [L|L|L|L|L|L] eqn:EL; cbn [fits train_class] in F, Tc; try tauto. destruct F as (D & _ & _ & Sh & _).
    destruct (fcd L n k D) as (Hn & Hk & _ & SV & _). assert (SS : s_size (p_out (PDense a n k)) = k) by (cbn [p_out]; rewrite <- Sh; exact SV).
    destruct H as (_ & _ & _ & _ & _ & _ & H). destruct (IH l _ _ F' Tc' W' H) as [C1 C2]. unfold plans in C1. rewrite SS in C1. split; [|constructor; [exists L; exact EL|exact C2]]. auto.
Qed.
Lemma outs_last ps : forall c p, nth_error ps (length ps - 1) = Some p -> outs c ps = out_count p.
Proof.
  induction ps as [|q ps IH]; intros c p E; [discriminate|]. cbn [outs]. destruct ps as [|q' ps]; [injection E as ->; reflexivity|]. apply IH. replace (length (q' :: ps) - 1)%nat with (length ps) by (cbn; lia).
  replace (length (q :: q' :: ps) - 1)%nat with (S (length ps)) in E by (cbn; lia). exact E.
Qed.
Lemma wired_first s ps c : ps <> [] -> chain c ps -> wired s ps -> s_size s = c.
Proof. destruct ps as [|[a n k|g|a q] ps]; cbn [chain wired feeds]; try tauto; try congruence. intros _ (-> & _) [E _]. exact E. Qed.
Lemma out_upto lo t B l : forall Js c e (x : Z -> fl), Forall isfc l -> chain c (plans l) -> Forall2 (fun J d => both d RB (RW 0) (small J)) Js l -> headroom prec emax Js lo t B e (plans l) -> (0 <= e)%Z ->
  (forall j, (0 <= j < c)%Z -> small e (x j)) -> forall j, (0 <= j < outs c (plans l))%Z -> fin (net_out l x j).
Proof.
  induction l as [|d l IH]; intros Js c e x HF HC HP HH H0 Hx j Hj; [eapply small_fin; apply Hx; exact Hj|].
  inversion HP as [|J d' Js' l0 Pd Pl]; subst. apply Forall_cons_iff in HF. destruct HF as [(L & EL) HF]. cbn [plans map] in HC, HH, Hj. fold (plans l) in HC, HH, Hj. unfold both in Pd.
  cbn [chain headroom outs] in HC, HH, Hj. destruct (n_plan d) as [a n k|g|a q] eqn:EP; try tauto. destruct HC as (-> & Hc & Hk & HC). cbn [out_count] in Hj.
  destruct HH as (J0 & Tm & Z1 & Z2 & _ & _ & HH). destruct Pd as [PB PW]. pose proof (pre_nonneg P24 J e c J0 H0) as Hz. pose proof (act_exp_nonneg a _ Hz) as Ha. pose proof (grow_nonneg P24 c) as Gc.
  change (net_out (d :: l) x) with (net_out l (node_out d x)). apply (IH Js' k (act_exp a (pre_exp prec J e c)) (node_out d x)); auto.
  intros i Hi. unfold node_out. rewrite EP. unfold dense_out. apply (act_upto P24 EM lib LO a k); auto. intros i' Hi'. cbn [add mul NF Num_fl]. unfold pre_exp in *. apply (plus_small P24 EM); try lia.
  - apply (sum_grow P24 EM lib); try lia. intros i2 Hi2. rewrite (Z.add_comm J). apply (mul_s P24 EM); [lia|apply Hx; exact Hi2|]. apply PW. nia.
  - eapply small_up; [|apply PB; exact Hi']. lia.
Qed.

(** ** sessions *)
Section Run.
Context (addr : ptr -> Z) (T : trainer) (lo : loss) (idata odata : list tensor) (xs ys : Z -> Z -> fl).
Context (m0 : mem fl) (l0 : list (node fl)) (o0 : opt fl).
Notation x0 := (fun (_ : nat) (_ : role) (_ : Z) => (zero, zero) : fl * fl).
Notation n := (Z.of_nat (length idata)).
Notation kd := (o_kind o0).
Notation lr := (o_lr o0).
Context (R0 : ready m0 l0 T lo idata odata xs ys) (H0 : optimizer_for addr m0 l0 T idata odata o0 x0) (Hn0 : idata <> []) (Hn64 : (n < 2 ^ 64)%Z).
Context (okE : Z -> Z -> @est fl -> Prop) (okT : fl -> fl -> Prop).
Context (Hlr : scalesb kd = true -> small 0 lr) (HT : forall t1 t2, okT t1 t2 -> okT (next_t1 kd t1) (next_t2 kd t2)).
Context (t B e : Z) (Ht : (0 <= t)%Z) (H0e : (0 <= e)%Z) (HB : (0 < B)%Z) (Js : list Z).
Notation ps := (plans l0).
Notation bs := (grad_exps prec Js lo t B e ps).
Context (HH : headroom prec emax Js lo t B e ps) (HF : Forall2 (fine lib kd lr okE okT) Js bs).
Context (HD : data_upto idata (t_size (tr_delta T)) xs ys e t).
Definition width : Z := match ps with p :: _ => in_count p | [] => 0%Z end.
Lemma net_ne : l0 <> [].
Proof. destruct R0 as (Q & _). intros E. rewrite E in Q. cbn in Q. lia. Qed.
Lemma first_sample : exists x, wired (t_shape x) ps.
Proof. destruct R0 as (_ & _ & _ & _ & Da). destruct (Da 0%Z) as (x & y & _ & _ & (W & _) & _); [destruct idata; [congruence|cbn; lia]|]. eauto. Qed.
Lemma chain0 : chain width ps /\ Forall isfc l0.
Proof.
  destruct first_sample as (x & W). pose proof R0 as (_ & Tc & (F & _) & _). assert (F' : Forall (fun d => fits (n_layer d) (n_plan d)) l0) by (eapply Forall_impl; [|exact F]; intros d Q; apply Q).
  destruct (dense_chain Js lo t B l0 e (t_shape x) F' Tc W HH) as [C I0]. split; [|exact I0].
  assert (E : s_size (t_shape x) = width). { unfold width. pose proof net_ne as Ne. destruct l0 as [|d l]; [congruence|]. cbn [plans map chain] in *. destruct (n_plan d); try tauto. destruct C as (<- & _). reflexivity. }
  now rewrite <- E.
Qed.
Lemma out_width c : outs c ps = t_size (tr_delta T).
Proof.
  pose proof R0 as (_ & _ & (F & _) & (_ & Wb & _) & _). pose proof net_ne as Ne. destruct l0 as [|d0 l] eqn:Q; [congruence|]. rewrite <- Q in *. assert (F' : Forall (fun d => fits (n_layer d) (n_plan d)) l0) by (eapply Forall_impl; [|exact F]; intros d Q'; apply Q').
  unfold t_size. rewrite (wired_back_last l0 d0 _ Ne F' Wb). apply outs_last. unfold plans. rewrite nth_error_map, map_length.
  clear - Ne. assert (G : forall (l : list (node fl)), l <> [] -> nth_error l (length l - 1) = Some (last l d0)).
  { clear. induction l as [|d l IH]; intros Ne; [congruence|]. destruct l as [|e l]; [reflexivity|]. replace (length (d :: e :: l) - 1)%nat with (S (length (e :: l) - 1)) by (cbn; lia). apply IH. discriminate. }
  now rewrite (G l0 Ne).
Qed.
Lemma clean_valid i : valid idata i -> clean t e width ps xs ys i.
Proof.
  intros V. pose proof R0 as (_ & _ & _ & _ & Da). destruct (Da i V) as (x & y & Zx & _ & (W & _) & _). destruct (HD i x V Zx) as [D1 D2].
  assert (E : t_size x = width). { apply (wired_first (t_shape x) ps); [pose proof net_ne as Ne; destruct l0; [congruence|discriminate]|apply chain0|exact W]. }
  rewrite E in D1. split; [exact D1|]. rewrite out_width. exact D2.
Qed.
Notation good_state := (state_ok okE okT lo t B e Js ps).
Lemma rounds_good iss : Forall (Forall (valid idata)) iss -> Forall (fun is : list Z => is <> []) iss -> Forall (fun is => (Z.of_nat (length is) <= B)%Z) iss ->
  forall st, good_state st -> good_state (fold_left (o_round lo xs ys kd lr) iss st).
Proof.
  induction iss as [|is iss IH]; intros V Ne Le st G; [exact G|]. apply Forall_cons_iff in V, Ne, Le. cbn [fold_left]. apply IH; try tauto. destruct chain0 as [C _].
  apply (round_ok P24 EM lib LO kd lr okE okT Hlr HT lo t B e width Ht H0e Js ps C HH HF xs ys); try tauto. eapply Forall_impl; [|apply V]. intros i. apply clean_valid.
Qed.
Lemma steps_good is : Forall (valid idata) is -> forall st, good_state st -> good_state (fold_left (o_step lo xs ys kd lr) is st).
Proof.
  induction is as [|i is IH]; intros V st G; [exact G|]. apply Forall_cons_iff in V. cbn [fold_left]. apply IH; [tauto|]. destruct chain0 as [C _].
  apply (step_round P24 EM lib LO kd lr okE okT Hlr HT lo t B e width Ht H0e Js ps C HH HF xs ys); [exact G|]. apply clean_valid. tauto.
Qed.
Lemma train_good c st : call_ok addr m0 l0 T o0 c -> (round_size n c <= B)%Z -> good_state st -> good_state (train_state lo idata xs ys o0 c st).
Proof.
  intros Ok Le G. destruct c as [E|E b|k g| | | | | | ]; cbn [train_state call_ok round_size] in *; try exact G.
  - apply rounds_good; [apply batches_valid|now apply batches_some| |exact G]. apply Forall_forall. intros is Hi. apply repeat_spec in Hi as ->. rewrite zrange_length by lia. lia.
  - destruct Ok as [_ Hb]. apply rounds_good; [now apply mini_valid|now apply mini_some| |exact G]. apply Forall_forall. intros is Hi. apply in_concat in Hi as (l' & Hl & Hi). apply repeat_spec in Hl as ->. apply in_map_iff in Hi as (k & <- & _). rewrite zrange_length by lia. lia.
  - apply steps_good; [|exact G]. apply Forall_forall. intros i Hi. apply in_map_iff in Hi as (j & <- & _). apply Z.mod_pos_bound. destruct idata; [congruence|cbn; lia].
Qed.
Notation here := (here addr T lo idata odata xs ys m0 l0 o0).
Lemma session_good cs : Forall (call_ok addr m0 l0 T o0) cs -> Forall (fun c => (round_size n c <= B)%Z) cs -> forall m o st, here m o st -> good_state st ->
  exists o' m' st', do_calls addr T idata odata cs (layers (ns_l st), o) m = Ok ((layers (ns_l st'), o'), m') /\ here m' o' st' /\ good_state st'.
Proof.
  induction 1 as [|c cs Ok _ IH]; intros Le m o st A G; [exists o, m, st; auto|]. apply Forall_cons_iff in Le. destruct Le as [Le Le']. cbn [do_calls]. destruct (is_training c) eqn:Tr.
  - destruct (train_call addr T lo idata odata xs ys m0 l0 o0 x0 R0 H0 Hn0 Hn64 m o st c A Ok Tr) as (o1 & m1 & E1 & A1). erewrite bind_eq by exact E1. apply IH; auto. now apply train_good.
  - destruct (eval_call addr T lo idata odata xs ys m0 l0 o0 x0 R0 H0 m o st c A Ok Tr) as (m1 & l' & E1 & A1 & C). erewrite bind_eq by exact E1.
    assert (EL : layers (ns_l st) = layers (ns_l (with_l st l'))) by (symmetry; apply (calm_layers _ _ C)). rewrite EL. apply IH; auto. apply (calm_ok lib okE okT lo t B e Js ps xs ys); auto.
Qed.
(** the state at the beginning and at the end *)
Lemma tail_upto m d l J Js' : params_upto m (d :: l) (J :: Js') -> params_upto m l Js'.
Proof. intros P i r p J' (Hr & d' & E & Q) EJ. apply (P (S i) r p J'); [|exact EJ]. split; [exact Hr|]. exists d'. auto. Qed.
Lemma start_small m : forall Js' l e', params_upto m l Js' -> headroom prec emax Js' lo t B e' (plans l) -> Forall isfc l ->
  Forall (fun d => fits (n_layer d) (n_plan d) /\ layer_at m (n_layer d) (n_data d)) l -> Forall2 (fun J d => both d RB (RW 0) (small J)) Js' l.
Proof.
  induction Js' as [|J Js' IH]; intros [|d l] e' P H F A; cbn [plans map headroom] in H; [constructor|destruct (n_plan d); tauto|tauto|].
  apply Forall_cons_iff in F. destruct F as [(L & EL) F]. apply Forall_cons_iff in A. destruct A as [[Ft La] A]. destruct (n_plan d) as [a n k|g|a q] eqn:EP; try tauto. destruct H as (_ & _ & _ & _ & _ & _ & H).
  constructor; [|eapply IH; eauto; eapply tail_upto; eauto]. rewrite EL in Ft, La. cbn [fits] in Ft. destruct Ft as (D & _). destruct (fcd L n k D) as (_ & _ & SB & _ & _ & _ & _ & _ & _ & _ & _ & SW & _).
  destruct (P 0%nat RB (f_B L) J) as (v & Hv & Uv); [split; [exact I|]; exists d; rewrite EL; auto|reflexivity|].
  destruct (P 0%nat (RW 0) (f_W L) J) as (v' & Hv' & Uv'); [split; [exact I|]; exists d; rewrite EL; auto|reflexivity|].
  destruct La as [La _]. destruct (La RB (f_B L) eq_refl) as [_ HB']. destruct (La (RW 0) (f_W L) eq_refl) as [_ HW']. unfold both. rewrite EP. split; intros j Hj.
  - rewrite (holds_same m _ _ _ _ j HB' Hv) by lia. apply Uv. lia.
  - rewrite (holds_same m _ _ _ _ j HW' Hv') by lia. apply Uv'. lia.
Qed.
Lemma start_goods (st : Forall2 (fun J b => forall w, small J w -> okE J b (mk_est w zero zero)) Js bs) (Ns : no_sums l0) (P0 : params_upto m0 l0 Js) : goods okE 0 Js bs l0 x0.
Proof.
  destruct chain0 as [C F]. pose proof R0 as (_ & _ & (A & _) & _). pose proof (start_small m0 Js l0 e P0 HH F A) as S0. clear - st Ns F S0. set (bb := bs) in *. clearbody bb.
  set (i := 0%nat). clearbody i. revert bb i st l0 Ns F S0. induction Js as [|J Js' IH]; intros bb i st l Ns F S0; inversion st as [|? b ? bs' H1 H2]; subst; inversion S0 as [|? d ? l' Sd S1]; subst; cbn [goods]; [exact I|].
  unfold no_sums in Ns. cbn [layers map] in Ns. apply Forall_cons_iff in Ns. destruct Ns as [Nd Ns]. apply Forall_cons_iff in F. destruct F as [(L & EL) F]. split; [|apply IH; auto]. split.
  - exists L. split; [exact EL|]. rewrite EL in Nd. congruence.
  - unfold both in Sd. revert Sd. apply dims_impl; intros j Q; unfold est_at; cbn [fst snd]; now apply H1.
Qed.
Lemma end_upto m l : Forall2 (fun J d => both d RB (RW 0) (small J)) Js l -> Forall isfc l -> Forall (fun d => fits (n_layer d) (n_plan d) /\ layer_at m (n_layer d) (n_data d)) l -> params_upto m l Js.
Proof.
  intros S0 F A i r p J (Hr & d & E & Q) EJ. assert (Sd : both d RB (RW 0) (small J)). { clear - S0 E EJ. revert i E EJ. induction S0 as [|J' d' Js' l' H _ IH]; intros [|i] E EJ; cbn in E, EJ; try discriminate; [congruence|eauto]. }
  apply nth_error_In in E. rewrite Forall_forall in F, A. destruct (F d E) as (L & EL). destruct (A d E) as [Ft [La _]]. destruct (La r p Q) as [_ Hh]. exists (n_data d r). split; [exact Hh|].
  rewrite EL in Ft, Q. cbn [fits] in Ft. unfold both, dims in Sd. destruct (n_plan d) as [a n k|g|a q]; try tauto. destruct Ft as (D & _). destruct (fcd L n k D) as (_ & _ & SB & _ & _ & _ & _ & _ & _ & _ & _ & SW & _).
  destruct r as [|z| | | |?| | | | ]; try tauto; cbn [part] in Q; intros j Hj.
  - injection Q as <-. rewrite SB in Hj. apply Sd. exact Hj.
  - destruct z; try discriminate. injection Q as <-. rewrite SW in Hj. apply Sd. exact Hj.
Qed.
Lemma end_predictions m l : (2 <= Z.of_nat (length l) < 2 ^ 64)%Z -> plans l = ps -> net_at m l -> Forall2 (fun J d => both d RB (RW 0) (small J)) Js l -> Forall isfc l -> finite_predictions lib m l e.
Proof.
  intros Len EP A S0 F x v Sx Hx. assert (Ne : l <> []) by (intros ->; cbn in Len; lia). pose proof Sx as (W & _). destruct chain0 as [C _]. rewrite <- EP in C.
  assert (Ex : t_size x = width) by (apply (wired_first (t_shape x) (plans l)); auto; destruct l; [congruence|discriminate]).
  destruct (C63_feedforward_is_composition m l x v Ne ltac:(lia) A Sx) as (y & m' & l' & E & _ & _ & _ & (p & Ep & Sy & Hy) & _). exists y, m', (net_out l v). split; [exact E|].
  assert (Sz : t_size y = out_count p). { unfold t_size. rewrite Sy. unfold plans in Ep. rewrite nth_error_map in Ep. destruct (nth_error l (length l - 1)) as [d|] eqn:Ed; [|discriminate]. injection Ep as <-. apply nth_error_In in Ed. destruct A as [A _]. rewrite Forall_forall in A, F. destruct (A d Ed) as [Ft _]. destruct (F d Ed) as (L & EL). rewrite EL in Ft. cbn [fits] in Ft. destruct (n_plan d) as [a n k|g|a q]; try tauto. destruct Ft as (D & _ & _ & Sh & _). destruct (fcd L n k D) as (_ & _ & _ & SV & _). cbn [p_out out_count]. rewrite <- Sh. exact SV. }
  rewrite Sz. split; [exact Hy|]. intros j Hj. apply (out_upto lo t B l Js width e v); auto.
  - now rewrite EP.
  - rewrite <- Ex. exact Hx.
  - rewrite (outs_last (plans l) width p); [exact Hj|]. unfold plans at 2. rewrite map_length. exact Ep.
Qed.
Lemma run_good cs : Forall2 (fun J b => forall w, small J w -> okE J b (mk_est w zero zero)) Js bs -> okT (o_t1 o0) (o_t2 o0) -> no_sums l0 -> params_upto m0 l0 Js ->
  Forall (call_ok addr m0 l0 T o0) cs -> Forall (fun c => (round_size n c <= B)%Z) cs ->
  exists l o m, do_calls addr T idata odata cs (layers l0, o0) m0 = Ok ((layers l, o), m) /\ plans l = plans l0 /\ ready m l T lo idata odata xs ys /\ params_upto m l Js /\ finite_predictions lib m l e.
Proof.
  intros St Tk Ns P0 Ok Le. set (s0 := mk_nst l0 x0 (o_t1 o0) (o_t2 o0)). pose proof (here_start addr T lo idata odata xs ys m0 l0 o0 x0 R0 H0) as A0. fold s0 in A0.
  assert (G0 : good_state s0). { split; [reflexivity|]. split; [|exact Tk]. cbn [ns_l ns_x s0]. now apply start_goods. }
  destruct (session_good cs Ok Le m0 o0 s0 A0 G0) as (o & m & st & E & A & (EP & G & _)). exists (ns_l st), o, m. split; [exact E|]. split; [exact EP|]. pose proof (here_ready _ _ _ _ _ _ _ _ _ _ _ _ _ A) as R. split; [exact R|].
  destruct (goods_small lib kd lr okE okT xs ys Js 0 bs _ _ HF G) as [S1 F1]. destruct R as (Len & _ & N & _). split; [apply end_upto; auto; apply N|]. now apply end_predictions.
Qed.
End Run.

(** ** C125 *)
Lemma bs_range lo t B Js : (0 <= t)%Z -> forall ps e, (0 <= e)%Z -> headroom prec emax Js lo t B e ps -> Forall2 (fun J b => (0 <= b < emax)%Z) Js (grad_exps prec Js lo t B e ps).
Proof.
  intros Ht. induction Js as [|J Js IH]; intros [|[a n k|g|a q] ps] e H0 H; cbn [headroom grad_exps] in *; try tauto; try constructor; destruct H as (J0 & H2 & H3 & H4 & H5 & H6 & H7);
    pose proof (act_exp_nonneg a _ (pre_nonneg P24 J e n J0 H0)) as Q.
  - pose proof (delta_nonneg P24 Js lo t B Ht ps _ Q H7). pose proof (slope_nonneg a). pose proof (grow_nonneg P24 B). lia.
  - now apply IH.
Qed.
Lemma f2_and {A C} (P Q : A -> C -> Prop) l : forall l', Forall2 P l l' -> Forall2 Q l l' -> Forall2 (fun x y => P x y /\ Q x y) l l'.
Proof. induction l as [|x l IH]; intros l' H K; inversion H; subst; inversion K; subst; constructor; auto. Qed.
Lemma f2_left {A C} (P : A -> C -> Prop) (Q : A -> Prop) l : forall l', Forall2 P l l' -> Forall Q l -> Forall2 (fun x y => P x y /\ Q x) l l'.
Proof. induction l as [|x l IH]; intros l' H K; inversion H; subst; inversion K; subst; constructor; auto. Qed.
Lemma f2_impl {A C} (P Q : A -> C -> Prop) l l' : (forall x y, P x y -> Q x y) -> Forall2 P l l' -> Forall2 Q l l'.
Proof. intros H. induction 1; constructor; auto. Qed.

Section Claims.
Context (addr : ptr -> Z) (T : trainer) (lo : loss) (idata odata : list tensor) (xs ys : Z -> Z -> fl).
Notation none := (fun (_ : nat) (_ : role) (_ : Z) => (zero, zero) : fl * fl).

(** AdaGrad and RMSProp: the step is bounded whatever the gradient, so the parameters only need room
    for the learning rate, at any depth. *)
Theorem C125_adaptive_training_stays_finite m l o lr rho cs (a r t B e : Z) Js :
  ready m l T lo idata odata xs ys -> idata <> [] -> (Z.of_nat (length idata) < 2 ^ 64)%Z ->
  scaled_optimizer lib lr o rho -> upto a lr -> / rho <= bpow radix2 r -> (0 <= a)%Z -> (0 <= r)%Z ->
  optimizer_for addr m l T idata odata o none -> no_sums l ->
  (0 <= t)%Z -> (0 <= e)%Z -> (0 < B)%Z -> data_upto idata (t_size (tr_delta T)) xs ys e t ->
  params_upto m l Js -> Forall (fun J => (a + r + prec + 2 <= J < emax)%Z) Js -> headroom prec emax Js lo t B e (plans l) ->
  Forall (call_ok addr m l T o) cs -> Forall (fun c => (round_size (Z.of_nat (length idata)) c <= B)%Z) cs ->
  exists l' o' m', do_calls addr T idata odata cs (layers l, o) m = Ok ((layers l', o'), m') /\ plans l' = plans l /\
    ready m' l' T lo idata odata xs ys /\ params_upto m' l' Js /\ finite_predictions lib m' l' e.
Proof.
  intros R Ne N64 Ho Hlr Hr Ha Hr0 Hf Ns Ht Hee HB HD HP HJ HH Ok Le. destruct (scaled_rho P24 EM lib lr o rho Ho) as [R1 R2].
  assert (El : o_lr o = lr) by (destruct Ho as [[-> _]|(b & _ & _ & -> & _)]; reflexivity).
  assert (NZ : nn (B754_zero false : fl)) by (split; [reflexivity|cbn; lra]).
  pose proof (f2_left _ _ _ _ (bs_range lo t B Js Ht (plans l) e Hee HH) HJ) as HF.
  set (okE := fun (J b : Z) (x : @est fl) => small J (e_w x) /\ nn (e_v x)).
  apply (run_good addr T lo idata odata xs ys m l o R Hf Ne N64 okE (fun _ _ => True)) with (t := t) (B := B); auto.
  - intros Sc. destruct Ho as [[-> _]|(b & _ & _ & -> & _)]; discriminate.
  - revert HF. apply f2_impl. intros J b [Hb HJ']. split; [exact Hb|]. split; [intros x Hx; apply Hx|]. intros x t1 t2 g [Hx Hv] _ Hg. rewrite El.
    destruct (scaled_step P24 EM lib lr o rho (next_t1 (o_kind o) t1) (next_t2 (o_kind o) t2) x lr g Ho Hv (proj1 Hlr) (proj1 Hg)) as (NV & i & Fi & Li & Ri & _ & E). split; [|exact NV]. refine (eq_ind_r (fun z => small J z) _ E).
    apply (acc_s' P24 EM J (a + r + 1)); try lia; [exact Hx|].
    exact (proj2 (proj2 (step_of P24 EM i g lr rho Fi Li (proj1 Hg) (proj1 Hlr) R1 R2 Ri)) a r Ha Hr0 ltac:(lia) Hr Hlr).
  - revert HF. apply f2_impl. intros J b _ w Hw. split; [exact Hw|]. exact NZ.
Qed.

(** All seven classes, learning rate at most 1: layer by layer, the parameters need room for the
    largest step a gradient of the computed size can cause, accumulated until rounding absorbs it. *)
Theorem C125_training_stays_finite m l o lr cs (t B e : Z) Js :
  ready m l T lo idata odata xs ys -> idata <> [] -> (Z.of_nat (length idata) < 2 ^ 64)%Z ->
  usual_optimizer lib lr o -> upto 0 lr ->
  optimizer_for addr m l T idata odata o none -> no_sums l ->
  (0 <= t)%Z -> (0 <= e)%Z -> (0 < B)%Z -> data_upto idata (t_size (tr_delta T)) xs ys e t ->
  params_upto m l Js -> headroom prec emax Js lo t B e (plans l) ->
  Forall2 (fun J b => (3 * prec + 17 + b <= J < emax /\ prec + 1 + 2 * b < emax)%Z) Js (grad_exps prec Js lo t B e (plans l)) ->
  Forall (call_ok addr m l T o) cs -> Forall (fun c => (round_size (Z.of_nat (length idata)) c <= B)%Z) cs ->
  exists l' o' m', do_calls addr T idata odata cs (layers l, o) m = Ok ((layers l', o'), m') /\ plans l' = plans l /\
    ready m' l' T lo idata odata xs ys /\ params_upto m' l' Js /\ finite_predictions lib m' l' e.
Proof.
  intros R Ne N64 Ho Hlr Hf Ns Ht Hee HB HD HP HH HJ Ok Le. pose proof (usual_kind P24 EM lib lr o (proj1 Hlr) Ho) as HK.
  assert (El : o_lr o = lr) by (destruct Ho as [ -> | [ (decay & Fd & Hd & ->) | [ (mu & Fm & Hm & [ -> | -> ]) | [ -> | [ (beta & Fb & Hb & ->) | (b1 & b2 & Fb1 & Fb2 & Hb1 & Hb2 & ->) ] ] ] ] ]; reflexivity).
  assert (Ft : o_t1 o = one /\ o_t2 o = one) by (destruct Ho as [ -> | [ (decay & Fd & Hd & ->) | [ (mu & Fm & Hm & [ -> | -> ]) | [ -> | [ (beta & Fb & Hb & ->) | (b1 & b2 & Fb1 & Fb2 & Hb1 & Hb2 & ->) ] ] ] ] ]; split; reflexivity).
  pose proof (fin_one (prec := prec) (emax := emax)) as F1. pose proof (val_one (prec := prec) (emax := emax)) as V1.
  assert (NZ : nn (B754_zero false : fl)) by (split; [reflexivity|cbn; lra]).
  pose proof (f2_and _ _ _ _ (bs_range lo t B Js Ht (plans l) e Hee HH) HJ) as HF.
  apply (run_good addr T lo idata odata xs ys m l o R Hf Ne N64 (fun J b => est_ok 0 b J (o_kind o)) (pow_ok (o_kind o))) with (t := t) (B := B); auto.
  - intros _. rewrite El. exact Hlr.
  - intros t1 t2 Hp'. destruct (o_kind o) as [|al|mu|mu| |be rb|b1 b2 rb1 rb2]; cbn [pow_ok next_t1 next_t2] in *; auto. cbn [kind_ok] in HK. cbn [mul NF Num_fl].
    destruct Hp' as [[A1 A2] [A3 A4]]. destruct (shrink t1 b1 A1 A2 ltac:(tauto) ltac:(tauto)) as [S1 S2]. destruct (shrink t2 b2 A3 A4 ltac:(tauto) ltac:(tauto)) as [S3 S4]. repeat split; auto; try lra; destruct HK as (_ & _ & Q1 & Q2 & _); lra.
  - revert HF. apply f2_impl. intros J b (Hb & HJ' & Hq). split; [exact Hb|]. split; [intros x Hx; apply Hx|]. intros x t1 t2 g Hx Hp' Hg. rewrite El. apply (step_ok P24 EM lib 0 b J); auto; lia.
  - revert HF. apply f2_impl. intros J b _ w Hw. split; [exact Hw|]. cbn [e_v e_s]. change zero with (B754_zero false : fl). destruct (o_kind o); auto using small_zero.
  - destruct Ft as [-> ->]. unfold pow_ok. cbn [one NF Num_fl]. destruct (o_kind o); auto. repeat split; auto; lra.
Qed.

(** Gradient descent, learning rate at most 1. *)
Theorem C125_gradient_descent_stays_finite m l lr cs (t B e : Z) Js :
  ready m l T lo idata odata xs ys -> idata <> [] -> (Z.of_nat (length idata) < 2 ^ 64)%Z -> upto 0 lr ->
  optimizer_for addr m l T idata odata (grad_descent lr) none -> no_sums l ->
  (0 <= t)%Z -> (0 <= e)%Z -> (0 < B)%Z -> data_upto idata (t_size (tr_delta T)) xs ys e t ->
  params_upto m l Js -> headroom prec emax Js lo t B e (plans l) ->
  Forall2 (fun J b => (prec + 1 + b <= J < emax)%Z) Js (grad_exps prec Js lo t B e (plans l)) ->
  Forall (call_ok addr m l T (grad_descent lr)) cs -> Forall (fun c => (round_size (Z.of_nat (length idata)) c <= B)%Z) cs ->
  exists l' o' m', do_calls addr T idata odata cs (layers l, grad_descent lr) m = Ok ((layers l', o'), m') /\ plans l' = plans l /\
    ready m' l' T lo idata odata xs ys /\ params_upto m' l' Js /\ finite_predictions lib m' l' e.
Proof.
  intros R Ne N64 Hlr Hf Ns Ht Hee HB HD HP HH HJ Ok Le.
  pose proof (f2_and _ _ _ _ (bs_range lo t B Js Ht (plans l) e Hee HH) HJ) as HF.
  apply (run_good addr T lo idata odata xs ys m l (grad_descent lr) R Hf Ne N64 (fun J b x => small J (e_w x)) (fun _ _ => True)) with (t := t) (B := B); auto.
  - revert HF. apply f2_impl. intros J b (Hb & HJ'). split; [exact Hb|]. split; [intros x Hx; apply Hx|]. intros x t1 t2 g Hx _ Hg. destruct x as [w v s]. cbn [o_kind o_lr grad_descent opt_new elem_step e_w]. cbn [sub mul NF Num_fl].
    apply (acc_s' P24 EM J b); try lia; [exact Hx|]. apply (mul_l P24 EM); [lia|exact Hg|exact Hlr].
  - revert HF. apply f2_impl. intros J b _ w Hw. exact Hw.
Qed.
End Claims.

(** ** whole programs *)
Section Programs.
Context {S G : Type} (gen : S -> G -> fl * (S * G)).
(** arrays that exist at the same time have different addresses *)
Definition addresses_differ (addr : ptr -> Z) (ps : list plan) (m : mem fl) : Prop :=
  forall N m1, build [] ps m = Ok (N, m1) -> forall b b' c c', live m1 b c -> live m1 b' c' -> addr (Ptr b 0) = addr (Ptr b' 0) -> b = b'.
Lemma fresh_params m3 l s Js : (forall s g J, In J Js -> upto J (fst (gen s g))) ->
  (forall i r tt, param_tensor l i r tt -> exists g', holds m3 (t_data tt) (t_size tt) (draw gen s g')) -> params_upto m3 l Js.
Proof.
  intros Hg H i r p J Pt EJ. destruct (H i r p Pt) as (g' & Hh). exists (draw gen s g'). split; [exact Hh|]. intros j _. unfold draw. cbv zeta. apply Hg. eapply nth_error_In; exact EJ.
Qed.
Lemma fresh_sums (l : list (node fl)) : (forall L, In (LFC L) (layers l) -> f_acc L = false) -> no_sums l.
Proof. intros H. apply Forall_forall. intros [L|L|L|L|L|L] HL; auto. Qed.
Theorem C125_adaptive_program_stays_finite (addr : ptr -> Z) m ps s g lo o lr rho idata odata xs ys cs (a r t B e : Z) Js :
  (2 <= Z.of_nat (length ps) < 2 ^ 64)%Z -> Forall plan_ok ps -> wired_back ps (p_out (last ps (PDense (Functions.Scalar Identity) 0 0))) -> (0 < outputs ps)%Z ->
  dataset m ps idata odata xs ys -> (0 < Z.of_nat (length idata) < 2 ^ 64)%Z -> addresses_differ addr ps m -> Forall (call_args m ps) cs ->
  scaled_optimizer lib lr o rho -> upto a lr -> / rho <= bpow radix2 r -> (0 <= a)%Z -> (0 <= r)%Z ->
  (0 <= t)%Z -> (0 <= e)%Z -> (0 < B)%Z -> data_upto idata (outputs ps) xs ys e t ->
  (forall s g J, In J Js -> upto J (fst (gen s g))) -> Forall (fun J => (a + r + prec + 2 <= J < emax)%Z) Js -> headroom prec emax Js lo t B e ps ->
  Forall (fun c => (round_size (Z.of_nat (length idata)) c <= B)%Z) cs ->
  exists l tr o' m', program gen addr ps s g lo o idata odata cs m = Ok ((layers l, tr, o'), m') /\
    plans l = ps /\ ready m' l tr lo idata odata xs ys /\ params_upto m' l Js /\ finite_predictions lib m' l e.
Proof.
  intros Hn Ok_ Wb Out Da Nd Ad Cs Ho Hlr Hr Ha Hr0 Ht Hee HB HD Hg HJ HH Le.
  assert (New : new_opt o) by (destruct Ho as [[-> _]|(b & _ & _ & -> & _)]; [exists lr, lr, lr|exists lr, b, b]; cbn; auto 10).
  destruct (program_start gen addr m ps s g lo o idata odata xs ys cs Hn Ok_ Wb Out Da Nd New Ad Cs) as (l & tr & m3 & Lp & Rd & Nei & Of & Co & Fr & Ts & Pm & Pr).
  destruct (C125_adaptive_training_stays_finite addr tr lo idata odata xs ys m3 l o lr rho cs a r t B e Js) as (l' & o' & m' & D & Lp' & R & P & F); auto; try lia.
  - now apply fresh_sums.
  - now rewrite Ts.
  - eapply fresh_params; eauto.
  - now rewrite Lp.
  - exists l', tr, o', m'. split; [exact (Pr _ _ _ D)|]. split; [congruence|auto].
Qed.
Theorem C125_program_stays_finite (addr : ptr -> Z) m ps s g lo o lr idata odata xs ys cs (t B e : Z) Js :
  (2 <= Z.of_nat (length ps) < 2 ^ 64)%Z -> Forall plan_ok ps -> wired_back ps (p_out (last ps (PDense (Functions.Scalar Identity) 0 0))) -> (0 < outputs ps)%Z ->
  dataset m ps idata odata xs ys -> (0 < Z.of_nat (length idata) < 2 ^ 64)%Z -> addresses_differ addr ps m -> Forall (call_args m ps) cs ->
  usual_optimizer lib lr o -> upto 0 lr -> (0 <= t)%Z -> (0 <= e)%Z -> (0 < B)%Z -> data_upto idata (outputs ps) xs ys e t ->
  (forall s g J, In J Js -> upto J (fst (gen s g))) -> headroom prec emax Js lo t B e ps ->
  Forall2 (fun J b => (3 * prec + 17 + b <= J < emax /\ prec + 1 + 2 * b < emax)%Z) Js (grad_exps prec Js lo t B e ps) ->
  Forall (fun c => (round_size (Z.of_nat (length idata)) c <= B)%Z) cs ->
  exists l tr o' m', program gen addr ps s g lo o idata odata cs m = Ok ((layers l, tr, o'), m') /\
    plans l = ps /\ ready m' l tr lo idata odata xs ys /\ params_upto m' l Js /\ finite_predictions lib m' l e.
Proof.
  intros Hn Ok_ Wb Out Da Nd Ad Cs Ho Hlr Ht Hee HB HD Hg HH HJ Le.
  assert (New : new_opt o).
  { destruct Ho as [ -> | [ (decay & Fd & Hd & ->) | [ (mu & Fm & Hm & [ -> | -> ]) | [ -> | [ (beta & Fb & Hb & ->) | (b1 & b2 & Fb1 & Fb2 & Hb1 & Hb2 & ->) ] ] ] ] ];
      [exists lr, lr, lr|exists lr, decay, lr|exists lr, mu, lr|exists lr, mu, lr|exists lr, lr, lr|exists lr, beta, lr|exists lr, b1, b2]; cbn; auto 10. }
  destruct (program_start gen addr m ps s g lo o idata odata xs ys cs Hn Ok_ Wb Out Da Nd New Ad Cs) as (l & tr & m3 & Lp & Rd & Nei & Of & Co & Fr & Ts & Pm & Pr).
  destruct (C125_training_stays_finite addr tr lo idata odata xs ys m3 l o lr cs t B e Js) as (l' & o' & m' & D & Lp' & R & P & F); auto; try lia.
  - now apply fresh_sums.
  - now rewrite Ts.
  - eapply fresh_params; eauto.
  - now rewrite Lp.
  - now rewrite Lp.
  - exists l', tr, o', m'. split; [exact (Pr _ _ _ D)|]. split; [congruence|auto].
Qed.

(** ** The library's example networks with AdaGrad or RMSProp, in every format
    (single and double precision included): inputs and targets between -1 and 1, a learning rate of at
    most 1, RMSProp's beta at most 15/16, initial parameters of at most 2^(prec+4); any calls, any
    number of epochs, batches of any size. *)
Lemma some_B n0 (cs : list (SessionSpec.call fl)) : exists B, (0 < B)%Z /\ Forall (fun c => (round_size n0 c <= B)%Z) cs.
Proof.
  induction cs as [|c cs (B & H0 & H)]; [exists 1%Z; split; [lia|constructor]|]. exists (Z.max B (round_size n0 c)). split; [lia|]. constructor; [lia|]. eapply Forall_impl; [|exact H]. cbv beta. lia.
Qed.
Lemma grow_le k n0 : (n0 <= 2 ^ k)%Z -> (0 <= k)%Z -> (grow n0 <= k)%Z.
Proof. intros H Hk. unfold FloatTrainSpec.grow. pose proof (Z.log2_up_le_mono n0 (2 ^ k) H) as Q. rewrite Z.log2_up_pow2 in Q by lia. lia. Qed.
Lemma grow_top n0 : (grow n0 <= prec + 1)%Z. Proof. unfold FloatTrainSpec.grow. lia. Qed.
Definition example_net (ps : list plan) : Prop := ps = simple_net \/ ps = mnist_net.
Theorem C125_examples_stay_finite (addr : ptr -> Z) m ps s g o lr rho idata odata xs ys cs : example_net ps ->
  dataset m ps idata odata xs ys -> (0 < Z.of_nat (length idata) < 2 ^ 64)%Z -> addresses_differ addr ps m -> Forall (call_args m ps) cs ->
  scaled_optimizer lib lr o rho -> / rho <= 4 -> upto 0 lr -> data_upto idata (outputs ps) xs ys 0 0 ->
  (forall s g, upto (prec + 4) (fst (gen s g))) ->
  exists l tr o' m', program gen addr ps s g CCE o idata odata cs m = Ok ((layers l, tr, o'), m') /\
    plans l = ps /\ ready m' l tr CCE idata odata xs ys /\ params_upto m' l (map (fun _ => prec + 4)%Z ps) /\ finite_predictions lib m' l 0.
Proof.
  intros Ex Da Nd Ad Cs Ho Hr Hlr HD Hg. destruct (some_B (Z.of_nat (length idata)) cs) as (B & HB & Le).
  apply (C125_adaptive_program_stays_finite addr m ps s g CCE o lr rho idata odata xs ys cs 0 2 0 B 0 (map (fun _ => prec + 4)%Z ps)); auto; try lia.
  - destruct Ex as [-> | ->]; cbn; lia.
  - destruct Ex as [-> | ->]; unfold simple_net, mnist_net; repeat apply Forall_cons; try apply Forall_nil; cbn [plan_ok]; repeat split; try lia; discriminate.
  - destruct Ex as [-> | ->]; cbn; auto.
  - destruct Ex as [-> | ->]; unfold outputs; cbn; lia.
  - intros s' g' J HJ. apply in_map_iff in HJ as (p & <- & _). apply Hg.
  - apply Forall_forall. intros J HJ. apply in_map_iff in HJ as (p & <- & _). lia.
  - pose proof (grow_top B). pose proof (grow_nonneg P24 B).
    pose proof (grow_le 2 4 ltac:(lia) ltac:(lia)). pose proof (grow_le 3 5 ltac:(lia) ltac:(lia)). pose proof (grow_le 2 3 ltac:(lia) ltac:(lia)). pose proof (grow_le 10 784 ltac:(lia) ltac:(lia)). pose proof (grow_le 8 256 ltac:(lia) ltac:(lia)). pose proof (grow_le 4 10 ltac:(lia) ltac:(lia)).
    pose proof (grow_nonneg P24 4). pose proof (grow_nonneg P24 5). pose proof (grow_nonneg P24 3). pose proof (grow_nonneg P24 784). pose proof (grow_nonneg P24 256). pose proof (grow_nonneg P24 10).
    destruct Ex as [-> | ->]; unfold simple_net, mnist_net; cbn [map headroom delta_exp act_exp slope_exp loss_exp tame]; unfold pre_exp.
    + repeat match goal with |- _ /\ _ => split end; try exact I; try lia. exists 1%Z. split; [reflexivity|lia].
    + repeat match goal with |- _ /\ _ => split end; try exact I; try lia. exists 1%Z. split; [reflexivity|lia].
Qed.
End Programs.
End Train.

(** ** The hypotheses can be met *)
Module Examples.
Import PropProgram.Examples PropOptTrain.Examples.
(** the data of simple_test.cpp, in any format *)
Section Data.
Context {prec emax : Z} {Hp : Prec_gt_0 prec} {He : Prec_lt_emax prec emax} (lib : libm prec emax).
#[local] Instance NX : Num (fl prec emax) := Num_fl prec emax lib.
Definition bin (b : bool) : fl prec emax := if b then one else zero.
Definition fin_rows : list (list bool) := map (map (Z.eqb 1)) [[1; 0; 1; 1]; [1; 1; 1; 0]; [1; 1; 0; 1]; [0; 1; 1; 0]; [1; 0; 1; 0]; [0; 0; 1; 1]]%Z.
Definition fout_rows : list (list bool) := map (map (Z.eqb 1)) [[1; 0; 0]; [0; 1; 0]; [1; 0; 0]; [0; 0; 1]; [0; 1; 0]; [1; 0; 0]]%Z.
Definition fmem : mem (fl prec emax) := map (fun r => Some (map Some (map bin r))) (fin_rows ++ fout_rows).
Definition fxs (i j : Z) : fl prec emax := nth (Z.to_nat j) (map bin (nth (Z.to_nat i) fin_rows [])) zero.
Definition fys (i j : Z) : fl prec emax := nth (Z.to_nat j) (map bin (nth (Z.to_nat i) fout_rows [])) zero.
Lemma bin_upto b : upto 0 (bin b).
Proof. destruct b; cbn [bin one zero NX Num_fl]; split; [apply fin_one|rewrite val_one; cbn; rewrite Rabs_R1; lra|reflexivity|cbn; rewrite Rabs_R0; lra]. Qed.
Lemma nth_upto l j : upto 0 (nth j (map bin l) (zero : fl prec emax)).
Proof. change zero with (bin false). rewrite map_nth. apply bin_upto. Qed.
Lemma frows : rows fmem 4 3 idata odata fxs fys.
Proof.
  split; [reflexivity|]. intros i Hi. change (Z.of_nat (length idata)) with 6%Z in Hi.
  assert (Hk : (Z.to_nat i < 6)%nat) by lia. rewrite <- (Z2Nat.id i) by lia. revert Hk. generalize (Z.to_nat i). clear. intros k Hk.
  exists (mk_tensor (Ptr k 0) (shape3 1 1 4)), (mk_tensor (Ptr (6 + k) 0) (shape3 1 1 3)).
  split; [do 6 (destruct k as [|k]; [reflexivity|]); lia|]. split; [do 6 (destruct k as [|k]; [reflexivity|]); lia|].
  split; [reflexivity|]. split; [|split; [reflexivity|]].
  - assert (E : nth_error fmem k = Some (Some (map Some (map bin (nth k fin_rows [])))) /\ length (map bin (nth k fin_rows [])) = 4%nat) by (do 6 (destruct k as [|k]; [split; reflexivity|]); lia).
    destruct E as [E L]. pose proof (holds_list fmem k (map bin (nth k fin_rows [])) zero E) as H. rewrite L in H. intros i Hi. unfold fxs. rewrite Nat2Z.id. exact (H i Hi).
  - assert (E : nth_error fmem (6 + k) = Some (Some (map Some (map bin (nth k fout_rows [])))) /\ length (map bin (nth k fout_rows [])) = 3%nat) by (do 6 (destruct k as [|k]; [split; reflexivity|]); lia).
    destruct E as [E L]. pose proof (holds_list fmem (6 + k) (map bin (nth k fout_rows [])) zero E) as H. rewrite L in H. intros i Hi. unfold fys. rewrite Nat2Z.id. exact (H i Hi).
Qed.
Lemma fdata k : data_upto idata k fxs fys 0 0.
Proof. intros i x _ _. split; intros j _; unfold fxs, fys; apply nth_upto. Qed.
End Data.
(** simple_test.cpp in single precision with AdaGrad, rate 2^-7, initial parameters 1/2 *)
Definition half_gen24 (s g : Datatypes.unit) : fl 24 128 * (Datatypes.unit * Datatypes.unit) := (PropFloatOpt.Examples.pw (-1), (s, g)).
Section Float.
Import PropFloatOpt.Examples.
#[local] Instance P24' : Prec_gt_0 24 := Hp24.
#[local] Instance E24' : Prec_lt_emax 24 128 := He24.
#[local] Instance N24' : Num (fl 24 128) := Num_fl 24 128 lib24.
Example C125_simple_test_adagrad : exists l tr o' m',
  program half_gen24 at_addr simple_net tt tt CCE (ada_grad (pw (-7))) idata odata (simple_calls idata odata) (fmem lib24) = Ok ((layers l, tr, o'), m') /\
  plans l = simple_net /\ params_upto m' l [28; 28; 28; 28]%Z /\ finite_predictions lib24 m' l 0.
Proof.
  assert (LO24 : libm_ok lib24) by now apply cr_lib_ok.
  assert (D : dataset (fmem lib24) simple_net idata odata (fxs lib24) (fys lib24)) by (apply (rows_dataset _ 4 3); [lia|cbn; auto|lia|reflexivity|apply frows]).
  destruct (C125_examples_stay_finite (prec := 24) (emax := 128) ltac:(lia) ltac:(lia) lib24 LO24 half_gen24 at_addr (fmem lib24) simple_net tt tt (ada_grad (pw (-7))) (pw (-7)) 1 idata odata
    (fxs lib24) (fys lib24) (simple_calls idata odata)) as (l & tr & o' & m' & E & P & _ & U & F).
  - now left.
  - exact D.
  - cbn. lia.
  - intros N m1 _ b b' c c' _ _. apply at_addr_distinct.
  - assert (Sd : some_dataset (fmem lib24) simple_net idata odata) by (exists (fxs lib24), (fys lib24); exact D).
    unfold simple_calls. apply Forall_cons; [cbn; lia|]. apply Forall_app. split; [eapply rows_predict; exact D|]. repeat apply Forall_cons; try apply Forall_nil; exact Sd.
  - left. auto.
  - lra.
  - apply pw_most; lia.
  - apply fdata.
  - intros s g. apply pw_most; lia.
  - exists l, tr, o', m'. auto.
Qed.
End Float.
(** two dense layers with logistic activation in double precision with Adam, squared error, ten epochs of
    batches of two samples; parameters of the first layer at most 2^360, of the second 2^180 *)
Definition half_gen53 (s g : Datatypes.unit) : fl 53 1024 * (Datatypes.unit * Datatypes.unit) := (PropFloatLayers.Examples.pw (-1), (s, g)).
Definition logistic_net : list plan := [PDense (Functions.Scalar Sigmoid) 4 5; PDense (Functions.Scalar Sigmoid) 5 3].
Section Double.
Import PropFloatLayers.Examples.
#[local] Instance P53' : Prec_gt_0 53 := Hp53.
#[local] Instance E53' : Prec_lt_emax 53 1024 := He53.
#[local] Instance N53' : Num (fl 53 1024) := Num_fl 53 1024 PropFloatLayers.Examples.lib.
Example C125_logistic_adam : exists l tr o' m',
  program half_gen53 at_addr logistic_net tt tt MSE (adam (pw (-7)) (pw (-1)) (pw (-1))) idata odata [MiniBatch 10 2; MeanLoss idata odata] (fmem PropFloatLayers.Examples.lib) = Ok ((layers l, tr, o'), m') /\
  plans l = logistic_net /\ params_upto m' l [361; 178]%Z /\ finite_predictions PropFloatLayers.Examples.lib m' l 0.
Proof.
  set (lb := PropFloatLayers.Examples.lib). assert (D : dataset (fmem lb) logistic_net idata odata (fxs lb) (fys lb)) by (apply (rows_dataset _ 4 3); [lia|cbn; auto|lia|reflexivity|apply frows]).
  destruct (pw_ok (-7) ltac:(lia)) as [F7 V7]. destruct (pw_ok (-1) ltac:(lia)) as [F1 V1].
  destruct (C125_program_stays_finite (prec := 53) (emax := 1024) ltac:(lia) ltac:(lia) lb lib_ok half_gen53 at_addr (fmem lb) logistic_net tt tt MSE (adam (pw (-7)) (pw (-1)) (pw (-1))) (pw (-7)) idata odata
    (fxs lb) (fys lb) [MiniBatch 10 2; MeanLoss idata odata] 0 2 0 [361; 178]%Z) as (l & tr & o' & m' & E & P & _ & U & F); try lia.
  - cbn. lia.
  - unfold logistic_net; repeat apply Forall_cons; try apply Forall_nil; cbn [plan_ok]; repeat split; try lia; discriminate.
  - cbn; auto.
  - unfold outputs. cbn. lia.
  - exact D.
  - cbn. lia.
  - intros N m1 _ b b' c c' _ _. apply at_addr_distinct.
  - assert (Sd : some_dataset (fmem lb) logistic_net idata odata) by (exists (fxs lb), (fys lb); exact D). repeat apply Forall_cons; try apply Forall_nil; [cbn; lia|exact Sd].
  - right. right. right. right. right. exists (pw (-1)), (pw (-1)). rewrite V1. change (bpow radix2 (-1)) with (/ 2). repeat split; auto; lra.
  - split; [exact F7|]. rewrite V7, Rabs_pos_eq by apply bpow_ge_0. apply bpow_le. lia.
  - apply fdata.
  - intros s g J HJ. split; [exact F1|]. cbn [fst half_gen53]. rewrite V1, Rabs_pos_eq by apply bpow_ge_0. apply bpow_le. cbn in HJ. lia.
  - cbn. repeat split; try lia. exists 1%Z. split; [reflexivity|lia].
  - cbn. repeat constructor; lia.
  - repeat constructor; cbn; lia.
  - exists l, tr, o', m'. auto.
Qed.
End Double.
End Examples.

Print Assumptions C125_adaptive_training_stays_finite.
Print Assumptions C125_training_stays_finite.
Print Assumptions C125_gradient_descent_stays_finite.
Print Assumptions C125_adaptive_program_stays_finite.
Print Assumptions C125_program_stays_finite.
Print Assumptions C125_examples_stay_finite.

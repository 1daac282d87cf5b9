(** * Training in floating-point arithmetic: updates and rounds (proofs for C125) *)
From Coq Require Import ZArith QArith Reals Lra Lia Psatz Bool List.
From Flocq Require Import Core BinarySingleNaN.
From Verif Require Import Mem Scalar MemSpec MemLemmas Lique LiqueSpec LiqueProofs LinearProofs Functions FunctionSpec FunctionProofs
  Skel Bufs Optimizer OptimizerProofs Layer LayerSpec FCProofs NetPlan NetProofs NetBack Schedule Descent OptTrain Session
  Float FloatSpec FloatLemmas RSum FloatError FloatLib FloatAct FloatAcc FloatLoss FloatOpt FloatTrainSpec FloatTrain.
Import ListNotations.
Local Open Scope R_scope.

Section Train.
Context {prec emax : Z} {Hp : Prec_gt_0 prec} {He : Prec_lt_emax prec emax} (P24 : (24 <= prec)%Z) (EM : (5 * prec + 8 <= emax)%Z).
Context (lib : libm prec emax) (LO : libm_ok lib).
Notation fl := (fl prec emax).
Notation small := (small (prec := prec) (emax := emax)).
Notation grow := (grow prec).
#[local] Instance NF : Num fl := Num_fl prec emax lib.

(** ** updates *)
Definition unit_num (x : fl) : Prop := fin x /\ 0 <= B2R x <= 1.
Lemma unit_small x : unit_num x -> small 0 x.
Proof. intros [F H]. split; [exact F|]. cbn [bpow]. apply Rabs_le. lra. Qed.
Lemma scaled_small b alpha g : (0 <= b < emax)%Z -> unit_num alpha -> small b g -> small b (FCProofs.scaled alpha g).
Proof. intros Hb U H. unfold FCProofs.scaled. destruct (eqb alpha one); [exact H|]. cbn [mul NF Num_fl]. apply (mul_l P24 EM); [lia|exact H|now apply unit_small]. Qed.
Lemma dims_impl p (Q1 Q2 Q1' Q2' : Z -> Prop) : (forall j, Q1 j -> Q1' j) -> (forall j, Q2 j -> Q2' j) -> dims p Q1 Q2 -> dims p Q1' Q2'.
Proof. intros A B. unfold dims. destruct p; try tauto. intros [C D]. split; auto. Qed.
Lemma dims_and p (Q1 Q2 Q1' Q2' : Z -> Prop) : dims p Q1 Q2 -> dims p Q1' Q2' -> dims p (fun j => Q1 j /\ Q1' j) (fun j => Q2 j /\ Q2' j).
Proof. unfold dims. destruct p; try tauto. intros [C D] [C' D']. split; auto. Qed.
Section Update.
Context (kd : opt_kind fl) (lr : fl) (okE : Z -> Z -> @est fl -> Prop) (okT : fl -> fl -> Prop).
Context (Hlr : scalesb kd = true -> small 0 lr) (HT : forall t1 t2, okT t1 t2 -> okT (next_t1 kd t1) (next_t2 kd t2)).
Definition fine (J b : Z) : Prop :=
  (0 <= b < emax)%Z /\ (forall x, okE J b x -> small J (e_w x)) /\
  (forall x t1 t2 g, okE J b x -> okT t1 t2 -> small b g -> okE J b (elem_step kd lr (next_t1 kd t1) (next_t2 kd t2) x g)).
Definition est_at (s : contents fl) (x : role -> Z -> fl * fl) (r : role) (j : Z) : @est fl := mk_est (s r j) (fst (x r j)) (snd (x r j)).
Lemma layer_step J b (d : node fl) (x : role -> Z -> fl * fl) t1 t2 alpha L : n_layer d = LFC L -> fine J b -> okT t1 t2 -> unit_num alpha ->
  dims (n_plan d) (fun j => okE J b (est_at (n_data d) x RB j)) (fun j => okE J b (est_at (n_data d) x (RW 0) j)) ->
  both d (rGB L) (rGW L) (small b) ->
  let st := o_layer kd lr alpha d x t1 t2 in
  dims (n_plan d) (fun j => okE J b (est_at (os_s st) (os_x st) RB j)) (fun j => okE J b (est_at (os_s st) (os_x st) (RW 0) j)) /\
  (f_acc L = true -> dims (n_plan d) (fun j => small b (os_s st RGradBs j)) (fun j => small b (os_s st RGradWs j))) /\
  okT (os_t1 st) (os_t2 st).
Proof.
  intros EL (Hb & _ & Hs) Ok U HE HG. unfold o_layer, n_pairs, n_scaled. rewrite EL. cbn [fold_left]. set (s0 := fc_scaled L alpha (n_data d)).
  assert (N : rGB L <> rGW L /\ rGB L <> RB /\ rGB L <> RW 0 /\ rGW L <> RB /\ rGW L <> RW 0) by apply roles_ne. destruct N as (N1 & N2 & N3 & N4 & N5).
  assert (SB : s0 RB = n_data d RB) by (unfold s0, fc_scaled; rewrite !set_role_other by auto; reflexivity).
  assert (SW : s0 (RW 0) = n_data d (RW 0)) by (unfold s0, fc_scaled; rewrite !set_role_other by auto; reflexivity).
  assert (SG : s0 (rGB L) = fun j => FCProofs.scaled alpha (n_data d (rGB L) j)) by (unfold s0, fc_scaled; rewrite set_role_other by auto; apply set_role_same).
  assert (SH : s0 (rGW L) = fun j => FCProofs.scaled alpha (n_data d (rGW L) j)) by (unfold s0, fc_scaled; apply set_role_same).
  clearbody s0.
  assert (HG' : dims (n_plan d) (fun j => small b (s0 (rGB L) j)) (fun j => small b (s0 (rGW L) j))).
  { rewrite SG, SH. unfold both in HG. revert HG. apply dims_impl; intros j; now apply scaled_small. }
  set (st0 := mk_ost s0 x t1 t2). set (st1 := t_step kd lr st0 (RB, rGB L)). set (st := t_step kd lr st1 (RW 0, rGW L)).
  (* contents after the update of B *)
  assert (A1 : os_s st1 RB = fun j => e_w (t_elem kd lr st0 RB (rGB L) j)) by (unfold st1, t_step; cbn [os_s]; apply set_role_same).
  assert (A2 : os_s st1 (RW 0) = n_data d (RW 0)). { unfold st1, t_step. cbn [os_s]. rewrite set_role_other by discriminate. destruct (scalesb kd); [rewrite set_role_other by auto|]; exact SW. }
  assert (A3 : os_s st1 (rGW L) = s0 (rGW L)). { unfold st1, t_step. cbn [os_s]. rewrite set_role_other by auto. destruct (scalesb kd); [rewrite set_role_other by auto|]; reflexivity. }
  assert (A4 : os_s st1 (rGB L) = if scalesb kd then fun j => mul (s0 (rGB L) j) lr else s0 (rGB L)). { unfold st1, t_step. cbn [os_s]. rewrite set_role_other by auto. destruct (scalesb kd); [apply set_role_same|reflexivity]. }
  assert (X1 : os_x st1 RB = fun j => (e_v (t_elem kd lr st0 RB (rGB L) j), e_s (t_elem kd lr st0 RB (rGB L) j))). { unfold st1, t_step. cbn [os_x]. destruct (role_eq_dec RB RB); [reflexivity|congruence]. }
  assert (X2 : os_x st1 (RW 0) = x (RW 0)). { unfold st1, t_step. cbn [os_x]. destruct (role_eq_dec (RW 0) RB); [congruence|reflexivity]. }
  (* and of W *)
  assert (B1 : os_s st RB = os_s st1 RB). { unfold st, t_step. cbn [os_s]. rewrite set_role_other by discriminate. destruct (scalesb kd); [rewrite set_role_other by auto|]; reflexivity. }
  assert (B2 : os_s st (RW 0) = fun j => e_w (t_elem kd lr st1 (RW 0) (rGW L) j)) by (unfold st, t_step; cbn [os_s]; apply set_role_same).
  assert (B3 : os_s st (rGB L) = os_s st1 (rGB L)). { unfold st, t_step. cbn [os_s]. rewrite set_role_other by auto. destruct (scalesb kd); [rewrite set_role_other by auto|]; reflexivity. }
  assert (B4 : os_s st (rGW L) = if scalesb kd then fun j => mul (s0 (rGW L) j) lr else s0 (rGW L)). { unfold st, t_step. cbn [os_s]. rewrite set_role_other by auto. rewrite A3. destruct (scalesb kd); [apply set_role_same|exact A3]. }
  assert (Y1 : os_x st RB = os_x st1 RB). { unfold st, t_step. cbn [os_x]. destruct (role_eq_dec RB (RW 0)); [congruence|reflexivity]. }
  assert (Y2 : os_x st (RW 0) = fun j => (e_v (t_elem kd lr st1 (RW 0) (rGW L) j), e_s (t_elem kd lr st1 (RW 0) (rGW L) j))). { unfold st, t_step. cbn [os_x]. destruct (role_eq_dec (RW 0) (RW 0)); [reflexivity|congruence]. }
  assert (Eta : forall y : @est fl, mk_est (e_w y) (e_v y) (e_s y) = y) by (intros []; reflexivity).
  assert (T1 : okT (next_t1 kd t1) (next_t2 kd t2)) by now apply HT.
  split; [|split].
  - pose proof (dims_and _ _ _ _ _ HE HG') as Q. revert Q. apply dims_impl; intros j [Q1 Q2]; unfold est_at.
    + rewrite B1, Y1, A1, X1. cbn [fst snd]. rewrite Eta. unfold t_elem, st0. cbn [os_s os_x os_t1 os_t2]. rewrite SB. apply Hs; [exact Q1|exact Ok|exact Q2].
    + rewrite B2, Y2. cbn [fst snd]. rewrite Eta. unfold t_elem. rewrite A2, X2, A3. change (os_t1 st1) with (next_t1 kd t1). change (os_t2 st1) with (next_t2 kd t2). apply Hs; [exact Q1|exact T1|exact Q2].
  - intros Fl. assert (RG : rGB L = RGradBs /\ rGW L = RGradWs) by (unfold rGB, rGW; rewrite Fl; auto). destruct RG as [E1 E2]. rewrite <- E1, <- E2, B3, A4, B4. revert HG'. apply dims_impl; intros j Q; (destruct (scalesb kd); [|exact Q]);
    cbn [mul NF Num_fl]; (apply (mul_l P24 EM); [lia|exact Q|auto]).
  - change (okT (next_t1 kd (next_t1 kd t1)) (next_t2 kd (next_t2 kd t2))). now apply HT.
Qed.

(** the whole network: tolerances of each layer, flags, accumulators *)
Definition good (J b : Z) (d : node fl) (x : role -> Z -> fl * fl) : Prop :=
  (exists L, n_layer d = LFC L /\ (f_acc L = true -> both d RGradBs RGradWs (small b))) /\
  dims (n_plan d) (fun j => okE J b (est_at (n_data d) x RB j)) (fun j => okE J b (est_at (n_data d) x (RW 0) j)).
Fixpoint goods (i : nat) (Js bs : list Z) (l : list (node fl)) (x : nat -> role -> Z -> fl * fl) : Prop :=
  match Js, bs, l with
  | [], [], [] => True
  | J :: Js, b :: bs, d :: l => good J b d (x i) /\ goods (S i) Js bs l x
  | _, _, _ => False
  end.
Lemma goods_ext Js : forall i bs l x x', (forall i', (i <= i')%nat -> x' i' = x i') -> goods i Js bs l x -> goods i Js bs l x'.
Proof.
  induction Js as [|J Js IH]; intros i [|b bs] [|d l] x x' E H; cbn [goods] in *; try tauto. destruct H as [H1 H2]. split; [rewrite E by lia; exact H1|]. apply IH with x; [intros i' Hi; apply E; lia|exact H2].
Qed.
Lemma o_layers_below alpha l : forall i x t1 t2 i', (i' < i)%nat -> ns_x (o_layers kd lr alpha i l x t1 t2) i' = x i'.
Proof.
  induction l as [|d l IH]; intros i x t1 t2 i' Hi; [reflexivity|]. cbn [o_layers ns_x]. rewrite IH by lia. destruct (Nat.eqb_spec i' i); [lia|reflexivity].
Qed.
Definition used (b : Z) (d : node fl) : Prop := exists L, n_layer d = LFC L /\ both d (rGB L) (rGW L) (small b).
Lemma net_step alpha l : forall i Js bs x t1 t2, unit_num alpha -> Forall2 fine Js bs -> goods i Js bs l x -> Forall2 used bs l -> okT t1 t2 ->
  let st := o_layers kd lr alpha i l x t1 t2 in goods i Js bs (ns_l st) (ns_x st) /\ okT (ns_t1 st) (ns_t2 st) /\ plans (ns_l st) = plans l.
Proof.
  induction l as [|d l IH]; intros i Js bs x t1 t2 U Hf Hg Hu Ok; inversion Hf as [|J b Js' bs' F1 F2]; subst; cbn [goods] in Hg; try tauto; cbn [o_layers ns_l ns_x ns_t1 ns_t2].
  - inversion Hu; subst. auto.
  - destruct Hg as [((L & EL & Fl) & HE) Hg]. inversion Hu as [|b' d' bs0 l0 (L' & EL' & HG) Hu']; subst. assert (L' = L) by congruence. subst L'.
    destruct (layer_step J b d (x i) t1 t2 alpha L EL F1 Ok U HE HG) as (P1 & P2 & P3). set (so := o_layer kd lr alpha d (x i) t1 t2) in *.
    set (x' := fun i' => if Nat.eqb i' i then os_x so else x i').
    destruct (IH (S i) Js' bs' x' (os_t1 so) (os_t2 so) U F2) as (Q1 & Q2 & Q3); auto.
    { apply goods_ext with x; [|exact Hg]. intros i' Hi. unfold x'. destruct (Nat.eqb_spec i' i); [lia|reflexivity]. }
    split; [|split; [exact Q2|]].
    + cbn [goods]. split; [|exact Q1]. rewrite o_layers_below by lia. unfold x'. rewrite Nat.eqb_refl. split; [|exact P1]. exists L. split; [exact EL|]. exact P2.
    + cbn [plans map]. fold (plans (ns_l (o_layers kd lr alpha (S i) l x' (os_t1 so) (os_t2 so)))). rewrite Q3. reflexivity.
Qed.

(** ** rounds *)
Section Rounds.
Context (lo : loss) (t B e c : Z) (Ht : (0 <= t)%Z) (H0e : (0 <= e)%Z) (HB : (0 < B)%Z) (Js : list Z) (ps : list plan).
Context (HC : chain c ps) (HH : headroom prec emax Js lo t B e ps) (HF : Forall2 fine Js (grad_exps prec Js lo t B e ps)).
Context (xs ys : Z -> Z -> fl).
Notation Gs := (gexps (prec := prec) Js lo t e ps).
Notation bs := (grad_exps prec Js lo t B e ps).
(** sample [i] is within the limits *)
Definition clean (i : Z) : Prop := (forall j, (0 <= j < c)%Z -> small e (xs i j)) /\ (forall j, (0 <= j < outs c ps)%Z -> small t (ys i j)).
Lemma gexps_room Js' : forall ps' e', (0 <= e')%Z -> headroom prec emax Js' lo t B e' ps' -> Forall (fun G => (0 <= G)%Z /\ (G + grow B < emax)%Z) (gexps (prec := prec) Js' lo t e' ps').
Proof.
  induction Js' as [|J Js' IH]; intros [|[a n k|g|a q] ps'] e' H0 H; cbn [headroom gexps] in *; try tauto; try constructor; destruct H as (J0 & H2 & H3 & H4 & H5 & H6 & H7).
  - pose proof (act_exp_nonneg a _ (pre_nonneg P24 J e' n J0 H0)) as Q. pose proof (delta_nonneg P24 Js' lo t B Ht ps' _ Q H7). pose proof (slope_nonneg a). lia.
  - apply IH; [|exact H7]. apply act_exp_nonneg. now apply (pre_nonneg P24).
Qed.
Lemma bs_Gs : bs = map (fun G => (G + grow B)%Z) Gs. Proof. apply grad_exps_map. Qed.
(** same parameters and plans *)
Definition like (d d' : node fl) : Prop := isfc d' /\ n_plan d' = n_plan d /\ n_data d' RB = n_data d RB /\ n_data d' (RW 0) = n_data d (RW 0).
Lemma like_trans l1 : forall l2 l3, Forall2 like l1 l2 -> Forall2 like l2 l3 -> Forall2 like l1 l3.
Proof.
  induction l1 as [|d l IH]; intros l2 l3 H1 H2; inversion H1 as [|? d2 ? l2' (_ & A & A1 & A2) H1']; subst; inversion H2 as [|? d3 ? l3' (F & C & C1 & C2) H2']; subst; constructor; [|eapply IH; eauto].
  split; [exact F|]. repeat split; congruence.
Qed.
Lemma kept_like l : forall l', Forall isfc l -> Forall2 kept l l' -> Forall2 like l l'.
Proof.
  induction l as [|d l IH]; intros l' F H; inversion H as [|? d' ? l0 K H']; subst; constructor.
  - destruct K as (A & A1 & A2 & A3 & _). apply Forall_cons_iff in F. destruct F as [(L & F) _]. split; [exists L; congruence|auto].
  - apply IH; [now apply Forall_cons_iff in F|exact H'].
Qed.
Lemma like_plans l : forall l', Forall2 like l l' -> plans l' = plans l.
Proof. induction l as [|d l IH]; intros l' H; inversion H as [|? d' ? l0 (_ & A & _) H']; subst; [reflexivity|]. cbn [plans map]. f_equal; [exact A|now apply IH]. Qed.
Lemma like_fc l : forall l', Forall2 like l l' -> Forall isfc l'.
Proof. induction l as [|d l IH]; intros l' H; inversion H as [|? d' ? l0 (A & _) H']; subst; constructor; auto. Qed.
Lemma like_small l : forall Js' l', Forall2 (fun J d => both d RB (RW 0) (small J)) Js' l -> Forall2 like l l' -> Forall2 (fun J d => both d RB (RW 0) (small J)) Js' l'.
Proof.
  induction l as [|d l IH]; intros Js' l' H K; inversion H as [|? ? ? ? Hd Hl]; subst; inversion K as [|? d' ? l1 (_ & A & A1 & A2) K']; subst; constructor; auto. unfold both in *. now rewrite A, A1, A2.
Qed.
Lemma goods_small Js' : forall i bs' l x, Forall2 fine Js' bs' -> goods i Js' bs' l x -> Forall2 (fun J d => both d RB (RW 0) (small J)) Js' l /\ Forall isfc l.
Proof.
  induction Js' as [|J Js' IH]; intros i [|b bs'] [|d l] x F G; cbn [goods] in G; try tauto; [split; constructor|]. inversion F as [|? ? ? ? F1 F2]; subst. destruct G as [((L & EL & _) & G) G'].
  destruct (IH (S i) bs' l x F2 G') as [A A']. split; constructor; auto; [|exists L; exact EL]. destruct F1 as (_ & F1 & _). unfold both. revert G. apply dims_impl; intros j Q; exact (F1 _ Q).
Qed.
(** what one sample does *)
Lemma sample_ok l i : plans l = ps -> Forall isfc l -> Forall2 (fun J d => both d RB (RW 0) (small J)) Js l -> clean i ->
  Forall2 kept l (l_sample lo (xs i) (ys i) l) /\ Forall2 (fun G d => both d RGradB (RGradW 0) (small G)) Gs (l_sample lo (xs i) (ys i) l).
Proof.
  intros EP F P [C1 C2]. pose proof HC as HC'. pose proof HH as HH'. rewrite <- EP in C2, HC', HH' |- *. destruct (sample_upto P24 EM lib LO lo t B Ht l Js c e (xs i) (ys i) false F HC' P HH' H0e C1 C2) as (K & G & _). exact (conj K G).
Qed.
Definition flagged (d : node fl) : Prop := exists L, n_layer d = LFC L /\ f_acc L = true.
Definition sums (cnt : Z) (l : list (node fl)) : Prop := Forall2 (fun G d => both d RGradBs RGradWs (acc B G cnt)) Gs l.
Lemma reset_like l : Forall isfc l -> Forall2 like l (map n_reset l).
Proof.
  induction 1 as [|d l (L & E) _ IH]; cbn [map]; constructor; [|exact IH]. unfold n_reset. rewrite E. split; [eexists; reflexivity|]. cbn [n_plan n_data]. unfold fc_after_reset. rewrite !set_role_other by discriminate. auto.
Qed.
Lemma reset_sums l : plans l = ps -> Forall isfc l -> sums 0 (map n_reset l).
Proof.
  intros EP F. unfold sums. pose proof HH as HH'. pose proof HC as HC'. rewrite <- EP in HH', HC' |- *. clear EP. revert HH' HC' F. generalize Js, e, c, H0e. clear - P24. intros Js e c H0. revert Js e c H0. induction l as [|d l IH]; intros [|J Js] e c H0 HH HC F; cbn [plans map headroom gexps chain] in *; try tauto; try (destruct (n_plan d); tauto).
  - constructor.
  - apply Forall_cons_iff in F. destruct F as [(L & EL) F]. destruct (n_plan d) as [a n k|g|a q] eqn:EP; try tauto. destruct HH as (J0 & _ & _ & _ & _ & _ & HH'). destruct HC as (-> & _ & _ & HC'). constructor.
    + unfold n_reset. rewrite EL. unfold both. cbn [n_plan n_data]. rewrite EP. unfold fc_after_reset. rewrite set_role_other by discriminate. rewrite !set_role_same. split; intros; apply acc_zero.
    + apply (IH Js _ k); auto. apply act_exp_nonneg. now apply (pre_nonneg P24).
Qed.
Lemma present_ok l l' i cnt : plans l = ps -> Forall isfc l -> Forall2 (fun J d => both d RB (RW 0) (small J)) Js l -> clean i -> (0 <= cnt < B)%Z ->
  Forall2 like l l' -> sums cnt l' ->
  Forall2 like l (l_present lo xs ys l' i) /\ sums (cnt + 1) (l_present lo xs ys l' i) /\ Forall flagged (l_present lo xs ys l' i).
Proof.
  intros EP F P Cl Hc Lk Sm. pose proof (like_plans _ _ Lk) as EP'. rewrite EP in EP'. pose proof (like_fc _ _ Lk) as F'. pose proof (like_small _ _ _ P Lk) as P'.
  destruct (sample_ok l' i EP' F' P' Cl) as [K G]. unfold l_present. set (l1 := l_sample lo (xs i) (ys i) l') in *. pose proof (kept_like l' l1 F' K) as Lk1. pose proof (like_fc _ _ Lk1) as F1.
  split; [|split].
  - apply like_trans with l1; [now apply like_trans with l'|]. clear -F1. induction F1 as [|d l (L & E) _ IH]; cbn [map]; constructor; [|exact IH]. unfold n_accum. rewrite E. split; [eexists; reflexivity|]. cbn [n_plan n_data]. unfold fc_after_accumulate. rewrite !set_role_other by discriminate. auto.
  - unfold sums in *. pose proof (gexps_room Js ps e H0e HH) as Rm. clearbody l1. set (gg := Gs) in *. clearbody gg. clear - P24 EM Hc K G Sm F1 Rm. revert l1 l' K G Sm F1 Rm. induction gg as [|g gs IH]; intros l1 l' K G Sm F1 Rm; inversion G as [|? d1 ? l1' Gd G']; subst; inversion K as [|d' ? l0 ? Kd K']; subst; cbn [map]; constructor.
    + inversion Sm as [|? ? ? ? Sd Sm']; subst. apply Forall_cons_iff in F1. destruct F1 as [(L & E) _]. apply Forall_cons_iff in Rm. destruct Rm as [[R1 R2] _]. destruct Kd as (_ & Ep & _ & _ & E1 & E2).
      unfold n_accum. rewrite E. unfold both in *. cbn [n_plan n_data]. rewrite <- Ep in Sd. rewrite <- E1, <- E2 in Sd. unfold fc_after_accumulate. rewrite set_role_other by discriminate. rewrite !set_role_same.
      pose proof (dims_and _ _ _ _ _ Sd Gd) as Q. revert Q. apply dims_impl; intros j [Q1 Q2]; cbn [add NF Num_fl]; apply (acc_step P24 EM); auto.
    + inversion Sm; subst. apply Forall_cons_iff in F1. destruct F1 as [_ F1]. apply Forall_cons_iff in Rm. destruct Rm as [_ Rm]. eapply IH; eauto.
  - apply Forall_map. eapply Forall_impl; [|exact F1]. intros d (L & E). unfold n_accum. rewrite E. eexists. split; reflexivity.
Qed.
Lemma presents_ok l is : plans l = ps -> Forall isfc l -> Forall2 (fun J d => both d RB (RW 0) (small J)) Js l -> Forall clean is ->
  forall cnt l', (0 <= cnt)%Z -> (cnt + Z.of_nat (length is) <= B)%Z -> Forall2 like l l' -> sums cnt l' -> (is <> [] \/ Forall flagged l') ->
  let l2 := fold_left (l_present lo xs ys) is l' in Forall2 like l l2 /\ sums (cnt + Z.of_nat (length is)) l2 /\ Forall flagged l2.
Proof.
  intros EP F P Cl. induction Cl as [|i is Ci _ IH]; intros cnt l' H0 HL Lk Sm Fl.
  - cbn [fold_left length]. rewrite Z.add_0_r. destruct Fl as [Fl|Fl]; [congruence|auto].
  - cbn [fold_left]. cbn [length] in HL |- *. destruct (present_ok l l' i cnt EP F P Ci ltac:(lia) Lk Sm) as (A1 & A2 & A3).
    replace (cnt + Z.of_nat (S (length is)))%Z with (cnt + 1 + Z.of_nat (length is))%Z by lia. apply IH; auto; lia.
Qed.
Lemma goods_like Js' : forall i bs' l l' x, goods i Js' bs' l x -> Forall2 like l l' -> Forall2 (fun b d => both d RGradBs RGradWs (small b)) bs' l' -> goods i Js' bs' l' x.
Proof.
  induction Js' as [|J Js' IH]; intros i [|b bs'] [|d l] l' x G K Sm; cbn [goods] in G; try tauto; inversion K as [|? d' ? l0 (A & A1 & A2 & A3) K']; subst; [exact I|]. inversion Sm as [|? ? ? ? Sd Sm']; subst.
  cbn [goods]. destruct G as [G G']. split; [|eapply IH; eauto]. destruct G as [_ G]. split.
  - destruct A as (L & A). exists L. auto.
  - rewrite A1. unfold est_at in *. now rewrite A2, A3.
Qed.
Lemma goods_kept Js' : forall i bs' l l' x, goods i Js' bs' l x -> Forall2 kept l l' -> goods i Js' bs' l' x.
Proof.
  induction Js' as [|J Js' IH]; intros i [|b bs'] [|d l] l' x G K; cbn [goods] in G; try tauto; inversion K as [|? d' ? l0 (A & A1 & A2 & A3 & A4 & A5) K']; subst; [exact I|].
  cbn [goods]. destruct G as [[(L & EL & Fl) G] G']. split; [|eapply IH; eauto]. split.
  - exists L. split; [congruence|]. intros Q. specialize (Fl Q). unfold both in *. now rewrite A1, A4, A5.
  - rewrite A1. unfold est_at in *. now rewrite A2, A3.
Qed.
Lemma one_unit : unit_num (one (T := fl)).
Proof. split; [apply fin_one|]. cbn [one NF Num_fl]. rewrite val_one. lra. Qed.
Lemma inverse_unit k : (0 < k)%Z -> unit_num (div one (ofZ (Num := NF) k)).
Proof.
  intros Hk. cbn [div one ofZ NF Num_fl]. destruct (val_ofZ (prec := prec) (emax := emax) k) as [N V].
  assert (W : within (Bdiv mode_NE Bone (fl_ofZ prec emax k)) 0 1).
  { apply inv_ge1; [exact N|]. rewrite V. apply le_clamp; [apply fmt_1| |apply IZR_le; lia]. pose proof (big_gt_1 (prec := prec) (emax := emax)). lra. }
  pose proof (unit_fin _ W) as F. split; [exact F|]. now apply within_B2R.
Qed.
Definition state_ok (st : nst) : Prop := plans (ns_l st) = ps /\ goods 0 Js bs (ns_l st) (ns_x st) /\ okT (ns_t1 st) (ns_t2 st).
Lemma round_ok st is : state_ok st -> Forall clean is -> is <> [] -> (Z.of_nat (length is) <= B)%Z -> state_ok (o_round lo xs ys kd lr st is).
Proof.
  intros (EP & G & Ok) Cl Ne Le. destruct (goods_small Js 0 bs _ _ HF G) as [P F]. unfold o_round, o_net. cbn [with_l ns_l ns_x ns_t1 ns_t2]. set (l := ns_l st) in *.
  pose proof (reset_like l F) as Lk0. pose proof (reset_sums l EP F) as S0.
  destruct (presents_ok l is EP F P Cl 0 (map n_reset l) ltac:(lia) ltac:(lia) Lk0 S0 (or_introl Ne)) as (Lk & Sm & Fl). set (l2 := fold_left _ is _) in *. clearbody l2.
  assert (Sm' : Forall2 (fun b d => both d RGradBs RGradWs (small b)) bs l2).
  { rewrite bs_Gs. unfold sums in Sm. pose proof (gexps_room Js ps e H0e HH) as Rm. set (gg := Gs) in *. clearbody gg. clear - Le P24 EM Sm Rm. revert l2 Sm Rm. induction gg as [|g gs IH]; intros l2 Sm Rm; inversion Sm as [|? d ? l0 Sd Sm']; subst; cbn [map]; constructor.
    - apply Forall_cons_iff in Rm. destruct Rm as [[R1 R2] _]. unfold both in *. revert Sd. apply dims_impl; intros j Q; (eapply acc_end; [exact R1| |exact Q]; lia).
    - apply IH; [exact Sm'|now apply Forall_cons_iff in Rm]. }
  assert (Us : Forall2 used bs l2).
  { set (bb := bs) in *. clearbody bb. clear - Sm' Fl. revert l2 Sm' Fl. induction bb as [|b bs' IH]; intros l2 Sm Fl; inversion Sm as [|? d ? l0 Sd Sm']; subst; constructor.
    - apply Forall_cons_iff in Fl. destruct Fl as [(L & EL & E) _]. exists L. split; [exact EL|]. unfold rGB, rGW. rewrite E. exact Sd.
    - apply IH; [exact Sm'|now apply Forall_cons_iff in Fl]. }
  pose proof (goods_like Js 0 bs l l2 (ns_x st) G Lk Sm') as G2.
  destruct (net_step (div one (ofZ (Z.of_nat (length is)))) l2 0 Js bs (ns_x st) (ns_t1 st) (ns_t2 st)) as (Q1 & Q2 & Q3); auto.
  { apply inverse_unit. destruct is; [congruence|cbn [length]; lia]. }
  split; [|split; [exact Q1|exact Q2]]. rewrite Q3. now rewrite (like_plans _ _ Lk).
Qed.
Lemma step_round st i : state_ok st -> clean i -> state_ok (o_step lo xs ys kd lr st i).
Proof.
  intros (EP & G & Ok) Cl. destruct (goods_small Js 0 bs _ _ HF G) as [P F]. unfold o_step, o_net. cbn [with_l ns_l ns_x ns_t1 ns_t2]. set (l := ns_l st) in *.
  destruct (sample_ok l i EP F P Cl) as [K Gr]. set (l2 := l_sample lo (xs i) (ys i) l) in *. clearbody l2. pose proof (goods_kept Js 0 bs l l2 (ns_x st) G K) as G2.
  assert (Us : Forall2 used bs l2).
  { rewrite bs_Gs in G2 |- *. set (gg := Gs) in *. clearbody gg. set (n0 := 0%nat) in *. set (Js' := Js) in *. clearbody n0 Js'. clear - P24 Gr G2. revert n0 Js' l2 Gr G2. induction gg as [|g gs IH]; intros n0 Js' l2 Gr G2; inversion Gr as [|? d ? l0 Gd Gr']; subst; cbn [map] in *; constructor.
    - destruct Js' as [|J Js']; cbn [goods] in G2; [tauto|]. destruct G2 as [((L & EL & Fl) & _) _]. exists L. split; [exact EL|]. unfold rGB, rGW. destruct (f_acc L) eqn:E; [exact (Fl eq_refl)|].
      unfold both in *. revert Gd. apply dims_impl; intros j Q; (eapply small_up; [|exact Q]; pose proof (grow_nonneg P24 B); lia).
    - destruct Js' as [|J Js']; cbn [goods] in G2; [tauto|]. apply (IH (S n0) Js'); [exact Gr'|tauto]. }
  destruct (net_step one l2 0 Js bs (ns_x st) (ns_t1 st) (ns_t2 st)) as (Q1 & Q2 & Q3); auto using one_unit.
  split; [|split; [exact Q1|exact Q2]]. rewrite Q3. pose proof (kept_like l l2 F K) as Lk. now rewrite (like_plans _ _ Lk).
Qed.
(** evaluation in between *)
Lemma calm_kept (l : list (node fl)) : forall l' x x', run_fwd l' x' = run_fwd l x -> Forall2 kept l l'.
Proof.
  induction l as [|d l IH]; intros [|d' l'] x x' E; cbn [run_fwd] in E; try discriminate; constructor.
  - injection E as E1 E2 E3 _. unfold kept. split; [exact E1|]. split; [exact E2|].
    assert (Q : forall r, r <> RValue -> r <> RBuff -> r <> RMask -> n_data d' r = n_data d r).
    { intros r N1 N2 N3. rewrite <- (after_forward_other d' x' r), <- (after_forward_other d x r) by assumption. now rewrite E3. }
    repeat split; apply Q; discriminate.
  - injection E as _ _ _ E. eapply IH; exact E.
Qed.
Lemma calm_ok st l' : state_ok st -> calm (ns_l st) l' -> state_ok (with_l st l').
Proof.
  intros (EP & G & Ok) C. pose proof (calm_kept _ _ _ _ (C (fun _ => zero))) as K. split; [|split; [|exact Ok]].
  - cbn [with_l ns_l]. rewrite (proj2 (calm_layers _ _ C)). exact EP.
  - cbn [with_l ns_l ns_x]. eapply goods_kept; eauto.
Qed.
End Rounds.
End Update.
End Train.

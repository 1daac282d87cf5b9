(** * Property C124: a whole program, from constructing the network to the end of training *)
From Coq Require Import Lia Reals.
From Verif Require Import Mem Scalar MemSpec MemLemmas Lique LiqueSpec LiqueProofs LiqueProofs2 Linear LinearProofs Functions FunctionSpec
  Optimizer OptimizerSpec Layer LayerSpec FCProofs Cells ConvSpec ConvProofs PoolSpec PropFC Net NetPlan NetProofs NetBack PropNet PropTool Schedule PropTraining
  Init InitSpec PropInit Checker PropChecker Descent OptTrainSpec PropOptTrain OptTrain SessionSpec Session PropSession.
Local Open Scope Z_scope.

Section Program.
Context {T : Type} `{NT : Num T} {S G : Type} (gen : S -> G -> T * (S * G)).
Implicit Types (m : mem T) (ps : list plan) (idata odata : list tensor).

(** The program: build the network from its layers, initialise it with a generator, create a trainer
    with a loss for it, then make any calls on trainer, network and checker. *)
Definition program (addr : ptr -> Z) ps (s : S) (g : G) (lo : loss) (o : opt T) idata odata (cs : list (SessionSpec.call T))
  : M T (net * trainer * opt T) :=
  let* N := build [] ps in
  let* _ := net_init gen N s g in
  let* t0 := tr_new N in
  let t := tr_set_loss t0 lo in
  let* r := do_calls addr t idata odata cs (N, o) in
  ret (fst r, t, snd r).

(** Number of outputs of a network with these layers. *)
Definition outputs ps : Z := out_count (last ps (PDense (Functions.Scalar Identity) 0 0)).
(** A sample in memory that the first layer accepts and the others can go on with. *)
Definition sample_in m ps (x : tensor) (v : Z -> T) : Prop :=
  0 < t_size x /\ wired (t_shape x) ps /\ holds m (t_data x) (t_size x) v.
(** A data set in memory: for each sample a target with as many values as the network has outputs. *)
Definition dataset m ps idata odata (xs ys : Z -> Z -> T) : Prop :=
  length odata = length idata /\
  forall i, 0 <= i < Z.of_nat (length idata) -> exists x y, znth idata i = Some x /\ znth odata i = Some y /\
    sample_in m ps x (xs i) /\ t_size y = outputs ps /\ holds m (t_data y) (outputs ps) (ys i).
Definition some_dataset m ps idata odata : Prop := exists xs ys, dataset m ps idata odata xs ys.
(** The arguments of a call make sense. *)
Definition call_args m ps (c : SessionSpec.call T) : Prop :=
  match c with
  | Batch E => 0 <= E
  | MiniBatch E b => 0 <= E /\ 0 < b
  | Stochastic k g => 0 <= k /\ forall i, 0 <= g i < 2 ^ 64
  | Predict x => exists v, sample_in m ps x v
  | MeanLoss vi vo | CheckLoss _ vi vo | Accuracy vi vo | AccuracyFull vi vo _ => some_dataset m ps vi vo
  | AccuracyGlobal vi vo _ => some_dataset m ps vi vo /\ vo <> []
  end.

(** An optimizer as one of the constructors makes it. *)
Definition new_opt (o : opt T) : Prop := exists a b c,
  In o [grad_descent a; sto_grad_descent a b; momentum_opt a b; nestorov_opt a b; ada_grad a; rms_prop a b; adam a b c].

(** ** proofs *)
Lemma new_opt_kept o : new_opt o -> forall a, kept o a = [(Null, 0); (Null, 0); (Null, 0)].
Proof. intros (x & y & z & H) a. cbn in H. repeat destruct H as [<-|H]; try reflexivity. destruct H. Qed.
Lemma in_block m q c v : 0 < c -> holds m q c v -> exists b o, q = Ptr b o /\ (b < length m)%nat.
Proof. intros Hc H. destruct q as [|b o]. - specialize (H 0 ltac:(lia)). discriminate. - exists b, o. split; [reflexivity|]. eapply holds_lt; eauto. Qed.
Lemma holds_keeps m m' q c v : preserves m m' -> holds m q c v -> holds m' q c v.
Proof.
  intros K H i Hi. specialize (H i Hi). destruct q as [|b o]; [discriminate|]. cbn in *. eapply keeps_cell; [exact K| |exact H]. intros [].
Qed.
Lemma holds_only (W : nat -> Z -> Prop) m m' q c v : only W m m' -> (forall b i, inside q c b i -> ~ W b i) -> holds m q c v -> holds m' q c v.
Proof.
  intros [_ O] D H i Hi. specialize (H i Hi). destruct q as [|b o]; [discriminate|]. cbn in *. rewrite O; [exact H|]. apply D. cbn. lia.
Qed.
Lemma only_length (W : nat -> Z -> Prop) m m' : only W m m' -> length m' = length m.
Proof. intros [Sk _]. apply (f_equal (@length _)) in Sk. unfold skel in Sk. now rewrite !map_length in Sk. Qed.
Lemma osize_fits L p : fits L p -> l_osize L = p_out p.
Proof.
  destruct L, p; cbn [fits l_osize p_out]; try tauto.
  - intros ((_ & _ & _ & _ & E & _) & _). exact E.
  - intros (_ & _ & E & _). exact E.
  - intros ((_ & _ & E & _) & _). exact E.
  - intros ((_ & _ & _ & _ & E & _) & _). exact E.
  - intros (_ & _ & E & _). exact E.
  - intros ((_ & _ & E & _) & _). exact E.
Qed.
Lemma last_nth A (l : list A) d : l <> [] -> nth_error l (length l - 1) = Some (last l d).
Proof.
  induction l as [|x l IH]; intros Ne; [congruence|]. destruct l as [|y l]; [reflexivity|].
  replace (length (x :: y :: l) - 1)%nat with (Datatypes.S (length (y :: l) - 1)) by (cbn; lia). apply IH. discriminate.
Qed.
Lemma new_layers N ps : length N = length ps -> layers (T := T) (new_nodes N ps) = N /\ plans (new_nodes (T := T) N ps) = ps.
Proof.
  unfold new_nodes, layers, plans. revert ps. induction N as [|L N IH]; intros [|p ps] E; try discriminate; [split; reflexivity|].
  cbn in E |- *. destruct (IH ps ltac:(lia)) as [A B]. rewrite A, B. auto.
Qed.
Lemma out_count_nonneg (p : plan) : plan_ok p -> s_size (p_out p) = out_count p /\ 0 <= out_count p.
Proof.
  intros Ok_. assert (X : exists L, fits L p).
  { destruct (build_layer_run (T := T) p [] Ok_) as (L & m' & _ & F & _). eauto. }
  destruct X as [L F]. pose proof (feeds_back_count L p (p_out p) F) as C.
  assert (P : feeds_back p (p_out p)). { destruct p; cbn [feeds_back]; try reflexivity.
    - destruct Ok_ as (_ & Hk & _). cbn [p_out shape3 s_size out_count]. rewrite u64_small; lia.
    - destruct L; cbn [fits] in F; try tauto; destruct F as ((Q & _) & _); unfold tiling_ok in Q; cbn [p_out shape3 s_size out_count].
      + rewrite u64_small; [reflexivity|]. unfold q_h, q_w in *. nia.
      + rewrite u64_small; [reflexivity|]. unfold q_h, q_w in *. nia. }
  rewrite (C P). split; [reflexivity|]. rewrite <- (C P). unfold p_out. destruct p; cbn [shape3 s_size]; unfold u64, two64; apply Z.mod_pos_bound; lia.
Qed.

Lemma in_init_list m l i r tt : net_at m l -> Forall train_class (layers l) -> param_tensor l i r tt -> In (i, r) (init_list 0 l).
Proof.
  intros [F _] Tc (Hr & d & E & P). assert (Q : forall (l : list (node T)) k i d, nth_error l i = Some d -> In r (init_roles d) -> In ((k + i)%nat, r) (init_list k l)).
  { clear. induction l as [|e l IH]; intros k [|i] d E H; try discriminate; cbn in E |- *; apply in_or_app.
    - injection E as ->. left. rewrite Nat.add_0_r. now apply in_map.
    - right. rewrite <- Nat.add_succ_comm. eapply IH; eauto. }
  apply (Q l 0%nat i d E). apply nth_error_In in E. rewrite Forall_forall in F. destruct (F d E) as [Fd _]. unfold layers in Tc. rewrite Forall_map, Forall_forall in Tc. specialize (Tc d E).
  unfold init_roles. destruct (n_layer d) as [L|L|L|L|L|L]; cbn [train_class] in Tc; try tauto; destruct r as [|z| | | |?| | | | ]; try tauto; cbn [part] in P; try discriminate.
  - cbn. auto.
  - destruct z; try discriminate. cbn. auto.
  - destruct (n_plan d) as [a n k|q|a q]; cbn [fits] in Fd; try tauto. apply in_or_app. right. cbn. auto.
  - destruct (n_plan d) as [a n k|q|a q]; cbn [fits] in Fd; try tauto. apply in_or_app. left. apply in_map. destruct Fd as (_ & _ & _ & _ & _ & _ & _ & _ & Lw & _). apply PropTraining.in_zrange. rewrite <- Lw. unfold znth in P. destruct (Z.leb_spec 0 z); [|discriminate]. assert (Q2 : (Z.to_nat z < length (c_Ws L))%nat) by (apply nth_error_Some; congruence). lia.
Qed.
(** what a program has when the calls begin; all parameters come from the generator *)
Lemma program_start (addr : ptr -> Z) m ps s g lo o idata odata xs ys cs :
  (* at least two layers, with sizes that fit; each accepts what its neighbours produce *)
  2 <= Z.of_nat (length ps) < 2 ^ 64 -> Forall plan_ok ps -> wired_back ps (p_out (last ps (PDense (Functions.Scalar Identity) 0 0))) -> 0 < outputs ps ->
  (* data in memory *)
  dataset m ps idata odata xs ys -> 0 < Z.of_nat (length idata) < 2 ^ 64 ->
  (* a new optimizer; arrays that exist at the same time have different addresses *)
  new_opt o ->
  (forall N m1, build [] ps m = Ok (N, m1) -> forall b b' c c', live m1 b c -> live m1 b' c' -> addr (Ptr b 0) = addr (Ptr b' 0) -> b = b') ->
  Forall (call_args m ps) cs ->
  exists l t m3, plans l = ps /\ ready m3 l t lo idata odata xs ys /\ idata <> [] /\
    optimizer_for addr m3 l t idata odata o (fun _ _ _ => (zero, zero)) /\ Forall (call_ok addr m3 l t o) cs /\
    (forall L, In (LFC L) (layers l) -> f_acc L = false) /\ t_size (tr_delta t) = outputs ps /\
    (forall i r tt, param_tensor l i r tt -> exists g', holds m3 (t_data tt) (t_size tt) (draw gen s g')) /\
    (forall N' o' m', do_calls addr t idata odata cs (layers l, o) m3 = Ok ((N', o'), m') -> program addr ps s g lo o idata odata cs m = Ok ((N', t, o'), m')).
Proof.
  intros Hn Ok_ Wb Out Da Nd New' Ad Cs. pose proof (new_opt_kept o New') as New.
  destruct (C63_every_topology_builds ps m Ok_) as (N & m1 & E1 & Len & Tr & A1 & K1 & Fr).
  destruct (new_layers N ps Len) as [El Ep]. set (l0 := new_nodes N ps) in *.
  destruct (C92_init_exact gen m1 l0 s g A1) as (m2 & l & E2 & A2 & Ll & Lp & Vl & _ & O2).
  rewrite El in *. rewrite Ep in Lp.
  assert (Nb : forall b, net_block l b <-> net_block l0 b).
  { intros b. unfold net_block. split.
    - intros (d & Hd & Q). assert (In (n_layer d) (layers l0)) by (rewrite El, <- Ll; now apply in_map).
      apply in_map_iff in H as (e & Ee & He). exists e. rewrite Ee. auto.
    - intros (d & Hd & Q). assert (In (n_layer d) (layers l)) by (rewrite Ll, <- El; now apply in_map).
      apply in_map_iff in H as (e & Ee & He). exists e. rewrite Ee. auto. }
  assert (Len2 : length m2 = length m1) by (eapply only_length; exact O2).
  assert (Lml : (length m <= length m1)%nat) by apply K1.
  (* the trainer *)
  assert (Ne : ps <> []) by (intros ->; cbn in Hn; lia).
  assert (NeN : N <> []) by (intros ->; destruct ps; [congruence|discriminate]).
  set (dp := PDense (Functions.Scalar Identity) 0 0) in *. set (lp := last ps dp) in *.
  assert (Epl : nth_error ps (length ps - 1) = Some lp) by (apply last_nth; exact Ne).
  assert (Okl : plan_ok lp) by (rewrite Forall_forall in Ok_; apply Ok_; eapply nth_error_In; exact Epl).
  destruct (out_count_nonneg lp Okl) as [Es Pos].
  assert (EL : exists L, znth N (u64 (net_size N - 1)) = Some L /\ l_osize L = p_out lp).
  { assert (Q : nth_error (plans l) (length ps - 1) = Some lp) by now rewrite Lp. unfold plans in Q. rewrite nth_error_map in Q.
    destruct (nth_error l (length ps - 1)) as [d|] eqn:Ed; [|discriminate]. injection Q as Q.
    exists (n_layer d). split.
    - unfold net_size. rewrite Len, u64_small by lia. unfold znth. destruct (Z.leb_spec 0 (Z.of_nat (length ps) - 1)); [|lia].
      replace (Z.to_nat (Z.of_nat (length ps) - 1)) with (length ps - 1)%nat by lia. rewrite <- Ll. unfold layers. now rewrite nth_error_map, Ed.
    - rewrite <- Q. apply osize_fits. destruct A2 as [F _]. rewrite Forall_forall in F. apply F. eapply nth_error_In; exact Ed. }
  destruct EL as (L & ZL & OL).
  set (m3 := m2 ++ [Some (repeat None (Z.to_nat (out_count lp)))]).
  set (t := mk_trainer (mk_tensor (Ptr (length m2) 0) (p_out lp)) (Some lo)).
  assert (E3 : tr_new N m2 = Ok (mk_trainer (mk_tensor (Ptr (length m2) 0) (p_out lp)) None, m3)).
  { unfold tr_new, bind at 1. unfold nth_of. rewrite ZL. cbn [ret]. unfold ten_shape_new, bind, alloc, ret. rewrite OL, Es. reflexivity. }
  assert (K3 : preserves m2 m3).
  { split; [unfold m3; rewrite app_length; lia|]. intros b Hb _. unfold m3. now rewrite nth_error_app1. }
  assert (A3 : net_at m3 l) by (eapply net_at_preserved; eauto).
  assert (Hi : forall q c v, 0 < c -> holds m q c v -> holds m3 q c v /\ net_outside l q /\ disjoint (Ptr (length m2) 0) (out_count lp) q c).
  { intros q c v Hc H. destruct (in_block m q c v Hc H) as (b & of & -> & Hb). split; [|split].
    - eapply holds_keeps; [exact K3|]. eapply holds_only; [exact O2| |eapply holds_keeps; [exact K1|exact H]].
      intros b' i [-> _] (k & r & d & _ & Hd & (tt & Pt & ->)). assert (Nbb : net_block l0 (block_of tt)) by (exists d; split; [eapply nth_error_In; eauto|]; exists r, tt; auto).
      apply Fr in Nbb. lia.
    - cbn. rewrite Nb. intros Q. apply Fr in Q. lia.
    - intros b' i [-> _] [E _]. lia. }
  assert (Tt : t_size (tr_delta t) = out_count lp) by (cbn; exact Es).
  assert (Ht : trainer_at m3 l t lo).
  { split; [reflexivity|]. split; [cbn; rewrite Lp; exact Wb|]. split.
    - cbn. rewrite Nb. intros Q. pose proof (net_block_live _ _ _ A1 Q). lia.
    - split; [reflexivity|]. exists (length m2). split; [reflexivity|]. rewrite Tt. unfold m3. now apply live_alloc. }
  assert (Sm : forall x v, sample_in m ps x v -> sample_at m3 l x v /\ disjoint (t_data (tr_delta t)) (t_size (tr_delta t)) (t_data x) (t_size x)).
  { intros x v (Px & Wx & Hx). destruct (Hi _ _ _ Px Hx) as (H1 & H2 & H3). split; [|rewrite Tt; exact H3]. split; [rewrite Lp; exact Wx|]. auto. }
  assert (Rd : ready m3 l t lo idata odata xs ys).
  { split; [apply (f_equal (@length _)) in Lp; unfold plans in Lp; rewrite map_length in Lp; rewrite Lp; exact Hn|]. split; [rewrite Ll; exact Tr|]. split; [exact A3|]. split; [exact Ht|].
    intros i Hi'. destruct Da as [_ Da]. destruct (Da i Hi') as (x & y & Zx & Zy & Sx & Sy & Hy). exists x, y. split; [exact Zx|]. split; [exact Zy|].
    destruct (Sm _ _ Sx) as [S1 S2]. split; [exact S1|]. split; [exact S2|]. destruct (Hi _ _ _ Out Hy) as (H1 & H2 & H3). split; [rewrite Tt; exact H1|]. split; [exact H2|]. rewrite Tt. exact H3. }
  assert (Of : optimizer_for addr m3 l t idata odata o (fun _ _ _ => (zero, zero))).
  { eapply C105_new_optimizer; [exact Rd| |].
    - assert (B : forall i r tt, param_tensor l i r tt -> exists b, t_data tt = Ptr b 0 /\ (exists c, live m1 b c) /\ b = block_of tt).
      { intros i r tt (_ & d & Ed & Pt). assert (Hin : In (n_layer d) (layers l0)) by (rewrite El, <- Ll; apply in_map; eapply nth_error_In; exact Ed).
        apply in_map_iff in Hin as (e & Ee & He). destruct A1 as [F _]. rewrite Forall_forall in F. destruct (F e He) as [_ [Lo _]]. rewrite Ee in Lo. destruct (Lo r tt Pt) as [(_ & b & Eb & Lb) _].
        exists b. split; [exact Eb|]. split; [eauto|]. unfold block_of; now rewrite Eb. }
      intros i r tt i' r' tt' P P' E. destruct (B _ _ _ P) as (b & Eb & [c Hb] & Bb). destruct (B _ _ _ P') as (b' & Eb' & [c' Hb'] & Bb'). rewrite Eb, Eb' in E. apply (Ad _ _ E1 _ _ _ _ Hb Hb') in E.
      destruct P as (_ & d & Ed & Pt). destruct P' as (_ & d' & Ed' & Pt'). destruct A3 as [F Dj]. rewrite Forall_forall in F.
      assert (Ei : i = i').
      { assert (Q : forall l, ForallOrdPairs (fun d e => forall b, block_in (n_layer d) b -> ~ block_in (n_layer e) b) l -> forall i i' (d d' : node T), nth_error l i = Some d -> nth_error l i' = Some d' -> (i < i')%nat -> forall b, block_in (n_layer d) b -> ~ block_in (n_layer d') b).
        { clear. induction 1 as [|e l He _ IH]; intros [|i] [|i'] d d' E E' Lt; try discriminate; try lia; cbn in E, E'.
          - injection E as ->. rewrite Forall_forall in He. apply He. eapply nth_error_In; exact E'.
          - eapply IH; eauto; lia. }
        destruct (Nat.lt_trichotomy i i') as [Lt|[Eq|Lt]]; [|exact Eq|]; exfalso.
        - apply (Q _ Dj i i' d d' Ed Ed' Lt b); [exists r, tt|exists r', tt']; split; auto; congruence.
        - apply (Q _ Dj i' i d' d Ed' Ed Lt b); [exists r', tt'|exists r, tt]; split; auto; congruence. }
      split; [exact Ei|]. subst i'. rewrite Ed in Ed'. injection Ed' as <-. destruct (role_eq_dec r r') as [Eq|Nq]; [exact Eq|]. exfalso.
      destruct (F d (nth_error_In _ _ Ed)) as [_ [_ Ds]]. apply (Ds r r' tt tt' Pt Pt' Nq). congruence.
    - intros i r tt _. rewrite New. repeat constructor. }
  assert (Off : forall q c, off_optimizer addr l o q c).
  { intros q c i r tt b _ Hb. rewrite New in Hb. intros b' i' _ Q. cbn in Hb. destruct Hb as [<-|[<-|[<-|[]]]]; exact Q. }
  assert (Ho : has_outputs l (outputs ps)).
  { exists lp. split; [|reflexivity]. rewrite <- Epl, Lp. f_equal. apply (f_equal (@length _)) in Lp. unfold plans in Lp. rewrite map_length in Lp. now rewrite Lp. }
  assert (Ev : forall vi vo, some_dataset m ps vi vo -> eval_data addr m3 l t o vi vo).
  { intros vi vo (vx & vy & Ln & Q). exists (outputs ps), vx, vy. split; [lia|]. split; [exact Ho|].
    assert (Q' : forall i, 0 <= i < Z.of_nat (length vo) -> exists x y, znth vi i = Some x /\ znth vo i = Some y /\ sample_in m ps x (vx i) /\ t_size y = outputs ps /\ holds m (t_data y) (outputs ps) (vy i)) by (rewrite Ln; exact Q).
    split; [|split].
    - split; [reflexivity|]. intros i Hi'. destruct (Q' i Hi') as (x & y & Zx & Zy & Sx & Sy & Hy). exists x, y. split; [exact Zx|]. split; [exact Zy|]. split; [apply Sm; exact Sx|]. split; [exact Sy|].
      destruct (Hi _ _ _ Out Hy) as (H1 & H2 & _). auto.
    - intros i x Hi' Zx. destruct (Q' i Hi') as (x' & y & Zx' & _ & Sx & _). assert (x = x') by congruence. subst x'. destruct (Sm _ _ Sx) as [S1 S2]. split; [apply S1|]. auto.
    - intros i y Hi' Zy. destruct (Q' i Hi') as (x & y' & _ & Zy' & _ & _ & Hy). assert (y = y') by congruence. subst y'. destruct (Hi _ _ _ Out Hy) as (_ & H2 & H3). split; [exact H2|]. split; [rewrite Tt; exact H3|]. auto. }
  assert (Co : Forall (call_ok addr m3 l t o) cs).
  { eapply Forall_impl; [|exact Cs]. intros [E|E b|k g'|x|vi vo|lo' vi vo|vi vo|vi vo r|vi vo r] C; cbn [call_args call_ok] in *; auto.
    - destruct C as (v & Sx). destruct (Sm _ _ Sx) as [S1 S2]. split; [eauto|]. split; [apply S1|]. auto.
    - destruct C as [C Nv]. auto. }
  assert (Nei : idata <> []) by (destruct idata; [cbn in Nd; lia|discriminate]).
  exists l, t, m3. split; [exact Lp|]. split; [exact Rd|]. split; [exact Nei|]. split; [exact Of|]. split; [exact Co|]. split; [|split; [exact Tt|split]].
  - rewrite Ll. intros L0. apply (PropDescent.new_network_fresh ps [] m N m1 E1). intros L1 [].
  - intros i r tt Pt. assert (Pt0 : param_tensor l0 i r tt).
    { destruct Pt as (Hr & d & Ed & Q). split; [exact Hr|]. assert (Ed' : nth_error (layers l0) i = Some (n_layer d)) by (rewrite El, <- Ll; unfold layers; now rewrite nth_error_map, Ed).
      unfold layers in Ed'. rewrite nth_error_map in Ed'. destruct (nth_error l0 i) as [e|]; [|discriminate]. injection Ed' as Ed'. exists e. rewrite Ed'. auto. }
    assert (Tr0 : Forall train_class (layers l0)) by (rewrite El; exact Tr). pose proof (in_init_list m1 l0 i r tt A1 Tr0 Pt0) as Hin. apply in_split in Hin as (pre & post & Q). destruct (Vl pre (i, r) post Q) as (d' & N1 & N2). cbn [fst snd] in N1, N2.
    exists (shared_at gen l0 s g pre). destruct Pt as (_ & d & Ed & Pt). rewrite Ed in N1. injection N1 as <-. rewrite <- N2. destruct A3 as [F _]. rewrite Forall_forall in F. apply (F d (nth_error_In _ _ Ed)). exact Pt.
  - intros N' o' m' D. unfold program. unfold bind at 1. rewrite E1. unfold bind at 1. rewrite E2. unfold bind at 1. rewrite E3. cbv zeta.
    unfold bind at 1. change (tr_set_loss _ lo) with t. rewrite <- Ll. match goal with |- match ?c with _ => _ end = _ => replace c with (Ok (N', o', m')) by (symmetry; exact D) end. reflexivity.
Qed.

(** ** C124 *)
Theorem C124_whole_program (addr : ptr -> Z) m ps s g lo o idata odata xs ys cs :
  (* at least two layers, with sizes that fit; each accepts what its neighbours produce *)
  2 <= Z.of_nat (length ps) < 2 ^ 64 -> Forall plan_ok ps -> wired_back ps (p_out (last ps (PDense (Functions.Scalar Identity) 0 0))) -> 0 < outputs ps ->
  (* data in memory *)
  dataset m ps idata odata xs ys -> 0 < Z.of_nat (length idata) < 2 ^ 64 ->
  (* a new optimizer; arrays that exist at the same time have different addresses *)
  new_opt o ->
  (forall N m1, build [] ps m = Ok (N, m1) -> forall b b' c c', live m1 b c -> live m1 b' c' -> addr (Ptr b 0) = addr (Ptr b' 0) -> b = b') ->
  Forall (call_args m ps) cs ->
  exists l t o' m', program addr ps s g lo o idata odata cs m = Ok ((layers l, t, o'), m') /\
    plans l = ps /\ ready m' l t lo idata odata xs ys /\ exists x, optimizer_for addr m' l t idata odata o' x.
Proof.
  intros Hn Ok_ Wb Out Da Nd New' Ad Cs. destruct (program_start addr m ps s g lo o idata odata xs ys cs Hn Ok_ Wb Out Da Nd New' Ad Cs) as (l & t & m3 & Lp & Rd & Nei & Of & Co & _ & _ & _ & Pr).
  set (x0 := fun (_ : nat) (_ : role) (_ : Z) => (zero, zero) : T * T) in *.
  set (st0 := mk_nst l x0 (o_t1 o) (o_t2 o)). pose proof (here_start addr t lo idata odata xs ys m3 l o x0 Rd Of) as A0. fold st0 in A0.
  destruct (session addr t lo idata odata xs ys m3 l o x0 Rd Of Nei ltac:(lia) cs Co m3 o st0 m3 o st0 A0 A0) as (o1 & m4 & st1 & o2 & m5 & st2 & D1 & _ & A1' & _). { split; [apply calm_refl|auto]. }
  destruct (full_end addr t lo idata odata xs ys m3 l o x0 _ _ _ _ Rd Of (proj1 (proj1 A1'))) as (R1 & H1 & _).
  exists (ns_l st1), t, o1, m4. split; [exact (Pr _ _ _ D1)|].
  split; [|split; [exact R1|eauto]]. destruct A1' as (_ & _ & P). congruence.
Qed.

(** ** The library's own example programs *)
(** test/src/simple_test.cpp: four dense layers, 1000 epochs of batch training, then [statistic]
    (debug_tools.hpp:118-154): a prediction for every sample, accuracy and loss. *)
Definition simple_net : list plan :=
  [PDense (Functions.Scalar ReLU) 4 4; PDense (Functions.Scalar ReLU) 4 5; PDense (Functions.Scalar ReLU) 5 4; PDense SoftMax 4 3].
Definition simple_calls idata odata : list (SessionSpec.call T) :=
  Batch 1000 :: map Predict idata ++ [Accuracy idata odata; CheckLoss CCE idata odata].
(** test/src/mnist_test/mnist_test.cpp: two dense layers, ten times one epoch of mini-batches of ten
    samples and the accuracy, then loss and accuracy on training and test data. *)
Definition mnist_net : list plan := [PDense (Functions.Scalar ReLU) 784 256; PDense SoftMax 256 10].
Definition mnist_calls idata odata vi vo : list (SessionSpec.call T) :=
  concat (repeat [MiniBatch 1 10; Accuracy idata odata] 10) ++ [MeanLoss idata odata; Accuracy idata odata; MeanLoss vi vo; Accuracy vi vo].
(** Samples and targets given as rows of [n] and [k] numbers somewhere in memory. *)
Definition rows m (n k : Z) idata odata (xs ys : Z -> Z -> T) : Prop :=
  length odata = length idata /\
  forall i, 0 <= i < Z.of_nat (length idata) -> exists x y, znth idata i = Some x /\ znth odata i = Some y /\
    t_shape x = shape3 1 1 n /\ holds m (t_data x) n (xs i) /\ t_size y = k /\ holds m (t_data y) k (ys i).
Lemma rows_dataset m n k ps idata odata xs ys : 0 < n -> wired (shape3 1 1 n) ps -> n < 2 ^ 64 -> outputs ps = k ->
  rows m n k idata odata xs ys -> dataset m ps idata odata xs ys.
Proof.
  intros Hn W B <- [Len R]. split; [exact Len|]. intros i Hi. destruct (R i Hi) as (x & y & Zx & Zy & Sx & Hx & Sy & Hy).
  exists x, y. assert (Ex : t_size x = n) by (unfold t_size; rewrite Sx; cbn [shape3 s_size]; rewrite u64_small; lia).
  split; [exact Zx|]. split; [exact Zy|]. split; [|auto]. split; [lia|]. split; [now rewrite Sx|]. now rewrite Ex.
Qed.
Lemma rows_predict m ps idata odata xs ys : dataset m ps idata odata xs ys -> Forall (call_args m ps) (map Predict idata).
Proof.
  intros [_ D]. apply Forall_forall. intros c Hc. apply in_map_iff in Hc as (x & <- & Hx). apply In_nth_error in Hx as (i & Ei).
  assert (Li : (i < length idata)%nat) by (apply nth_error_Some; congruence).
  destruct (D (Z.of_nat i) ltac:(lia)) as (x' & y & Zx & _ & Sx & _). unfold znth in Zx. destruct (Z.leb_spec 0 (Z.of_nat i)); [|lia]. rewrite Nat2Z.id in Zx.
  assert (x = x') by congruence. subst x'. cbn [call_args]. eauto.
Qed.
Theorem C124_simple_test (addr : ptr -> Z) m s g (o : opt T) idata odata xs ys :
  rows m 4 3 idata odata xs ys -> 0 < Z.of_nat (length idata) < 2 ^ 64 ->
  new_opt o ->
  (forall N m1, build [] simple_net m = Ok (N, m1) -> forall b b' c c', live m1 b c -> live m1 b' c' -> addr (Ptr b 0) = addr (Ptr b' 0) -> b = b') ->
  exists l t o' m', program addr simple_net s g CCE o idata odata (simple_calls idata odata) m = Ok ((layers l, t, o'), m') /\
    plans l = simple_net /\ ready m' l t CCE idata odata xs ys.
Proof.
  intros R Nd New Ad. assert (D : dataset m simple_net idata odata xs ys) by (apply (rows_dataset m 4 3); [lia|cbn; auto|lia|reflexivity|exact R]).
  destruct (C124_whole_program addr m simple_net s g CCE o idata odata xs ys (simple_calls idata odata)) as (l & t & o' & m' & E & P & Rd & _); auto.
  - cbn; lia.
  - unfold simple_net. repeat apply Forall_cons; try apply Forall_nil; cbn [plan_ok]; repeat split; try lia; discriminate.
  - cbn; auto.
  - unfold outputs. cbn; lia.
  - assert (Sd : some_dataset m simple_net idata odata) by (exists xs, ys; exact D).
    unfold simple_calls. apply Forall_cons; [cbn; lia|]. apply Forall_app. split; [eapply rows_predict; exact D|]. repeat apply Forall_cons; try apply Forall_nil; exact Sd.
  - exists l, t, o', m'. auto.
Qed.
Theorem C124_mnist_test (addr : ptr -> Z) m s g (o : opt T) idata odata xs ys vi vo vx vy :
  rows m 784 10 idata odata xs ys -> 0 < Z.of_nat (length idata) < 2 ^ 64 -> rows m 784 10 vi vo vx vy ->
  new_opt o ->
  (forall N m1, build [] mnist_net m = Ok (N, m1) -> forall b b' c c', live m1 b c -> live m1 b' c' -> addr (Ptr b 0) = addr (Ptr b' 0) -> b = b') ->
  exists l t o' m', program addr mnist_net s g CCE o idata odata (mnist_calls idata odata vi vo) m = Ok ((layers l, t, o'), m') /\
    plans l = mnist_net /\ ready m' l t CCE idata odata xs ys.
Proof.
  intros R Nd V New Ad. assert (D : dataset m mnist_net idata odata xs ys) by (apply (rows_dataset m 784 10); [lia|cbn; auto|lia|reflexivity|exact R]).
  assert (DV : dataset m mnist_net vi vo vx vy) by (apply (rows_dataset m 784 10); [lia|cbn; auto|lia|reflexivity|exact V]).
  destruct (C124_whole_program addr m mnist_net s g CCE o idata odata xs ys (mnist_calls idata odata vi vo)) as (l & t & o' & m' & E & P & Rd & _); auto.
  - cbn; lia.
  - unfold mnist_net. repeat apply Forall_cons; try apply Forall_nil; cbn [plan_ok]; repeat split; try lia; discriminate.
  - cbn; auto.
  - unfold outputs. cbn; lia.
  - assert (Sd : some_dataset m mnist_net idata odata) by (exists xs, ys; exact D). assert (Sv : some_dataset m mnist_net vi vo) by (exists vx, vy; exact DV).
    unfold mnist_calls. apply Forall_app. split.
    + apply Forall_concat. apply Forall_forall. intros q Hq. apply repeat_spec in Hq as ->. repeat apply Forall_cons; try apply Forall_nil; [cbn; lia|exact Sd].
    + repeat apply Forall_cons; try apply Forall_nil; assumption.
  - exists l, t, o', m'. auto.
Qed.

(** ** Layers report the shapes they were built for *)
Theorem C124_reported_shapes m ps : Forall plan_ok ps -> exists N m', build [] ps m = Ok (N, m') /\
  Forall2 (fun L p => match p with
    | PDense _ n k => l_isize L = shape3 1 1 n /\ l_osize L = shape3 1 1 k
    | PConv g => l_isize L = shape3 (g_d g) (g_h g) (g_w g) /\ l_osize L = shape3 (g_f g) (out_h g) (out_w g)
    | PPool _ q => l_isize L = shape3 (q_d q) (q_h q) (q_w q) /\ l_osize L = shape3 (q_d q) (q_oh q) (q_ow q)
    end) N ps.
Proof.
  intros Ok_. destruct (C63_every_topology_builds ps m Ok_) as (N & m1 & E1 & Len & Tr & [F _] & _). exists N, m1. split; [exact E1|].
  clear -F Len. revert ps Len F. induction N as [|L N IH]; intros [|p ps] Len F; try discriminate; constructor.
  - unfold new_nodes in F. cbn [combine map] in F. apply Forall_cons_iff in F as [[F _] _]. cbn [n_layer n_plan fst snd] in F.
    destruct p, L; cbn [fits l_isize l_osize] in *; try tauto.
    + destruct F as ((_ & _ & _ & A & B & _) & _). auto.
    + destruct F as ((_ & _ & _ & A & B & _) & _). auto.
    + destruct F as (_ & A & B & _). auto.
    + destruct F as (_ & A & B & _). auto.
    + destruct F as ((_ & A & B & _) & _). auto.
    + destruct F as ((_ & A & B & _) & _). auto.
  - apply IH; [cbn in Len; lia|]. unfold new_nodes in *. cbn [combine map] in F. now apply Forall_cons_iff in F as [_ F].
Qed.
(** A dense layer built from an input and an output shape flattens both. *)
Theorem C124_dense_of_shapes m (d h w d' h' w' : Z) (act : option activation) :
  0 <= d * h * w < 2 ^ 64 -> 0 <= d' * h' * w' < 2 ^ 64 -> (d * h * w) * (d' * h' * w') < 2 ^ 64 ->
  exists L m', fc_new_set (shape3 d h w) (shape3 d' h' w') act m = Ok (L, m') /\ fc_dims L (d * h * w) (d' * h' * w') /\ f_act L = act /\
    layer_at m' (LFC L) (fun _ _ => zero) /\ preserves m m' /\ forall b, block_in (LFC L) b -> (length m <= b)%nat.
Proof.
  intros H1 H2 H3. unfold fc_new_set. cbn [shape3 s_size]. rewrite !u64_small by lia. now apply PropFC.C51_construction.
Qed.
End Program.

Module Examples.
Import PropOptTrain.Examples.
Lemma at_addr_distinct (b b' : nat) : at_addr (Ptr b 0) = at_addr (Ptr b' 0) -> b = b'.
Proof. unfold at_addr. lia. Qed.
(** The data of simple_test.cpp, one allocation per row; Adam with rate 0.01. *)
Definition ins : list (list R) := map (map IZR) [[1; 0; 1; 1]; [1; 1; 1; 0]; [1; 1; 0; 1]; [0; 1; 1; 0]; [1; 0; 1; 0]; [0; 0; 1; 1]].
Definition outs : list (list R) := map (map IZR) [[1; 0; 0]; [0; 1; 0]; [1; 0; 0]; [0; 0; 1]; [0; 1; 0]; [1; 0; 0]].
Definition mem0 : mem R := map (fun r => Some (map Some r)) (ins ++ outs).
Definition idata := map (fun b => mk_tensor (Ptr b 0) (shape3 1 1 4)) (seq 0 6).
Definition odata := map (fun b => mk_tensor (Ptr b 0) (shape3 1 1 3)) (seq 6 6).
Definition xs (i j : Z) : R := nth (Z.to_nat j) (nth (Z.to_nat i) ins []) 0%R.
Definition ys (i j : Z) : R := nth (Z.to_nat j) (nth (Z.to_nat i) outs []) 0%R.
Lemma ins_holds k : (k < 6)%nat -> holds mem0 (Ptr k 0) 4 (xs (Z.of_nat k)).
Proof.
  intros Hk. assert (E : nth_error mem0 k = Some (Some (map Some (nth k ins []))) /\ length (nth k ins []) = 4%nat) by (do 6 (destruct k as [|k]; [split; reflexivity|]); lia).
  destruct E as [E L]. pose proof (holds_list mem0 k (nth k ins []) 0%R E) as H. rewrite L in H. intros i Hi. unfold xs. rewrite Nat2Z.id. exact (H i Hi).
Qed.
Lemma outs_holds k : (k < 6)%nat -> holds mem0 (Ptr (6 + k) 0) 3 (ys (Z.of_nat k)).
Proof.
  intros Hk. assert (E : nth_error mem0 (6 + k) = Some (Some (map Some (nth k outs []))) /\ length (nth k outs []) = 3%nat) by (do 6 (destruct k as [|k]; [split; reflexivity|]); lia).
  destruct E as [E L]. pose proof (holds_list mem0 (6 + k) (nth k outs []) 0%R E) as H. rewrite L in H. intros i Hi. unfold ys. rewrite Nat2Z.id. exact (H i Hi).
Qed.
Example C124_applies : rows mem0 4 3 idata odata xs ys /\ new_opt (adam (1 / 100) (9 / 10) (999 / 1000))%R /\
  (forall N m1, build [] simple_net mem0 = Ok (N, m1) -> forall b b' c c', live m1 b c -> live m1 b' c' -> at_addr (Ptr b 0) = at_addr (Ptr b' 0) -> b = b').
Proof.
  split; [|split].
  - split; [reflexivity|]. intros i Hi. change (Z.of_nat (length idata)) with 6 in Hi.
    assert (Hk : (Z.to_nat i < 6)%nat) by lia. rewrite <- (Z2Nat.id i) by lia. revert Hk. generalize (Z.to_nat i). clear. intros k Hk.
    exists (mk_tensor (Ptr k 0) (shape3 1 1 4)), (mk_tensor (Ptr (6 + k) 0) (shape3 1 1 3)).
    split; [do 6 (destruct k as [|k]; [reflexivity|]); lia|]. split; [do 6 (destruct k as [|k]; [reflexivity|]); lia|].
    split; [reflexivity|]. split; [now apply ins_holds|]. split; [reflexivity|now apply outs_holds].
  - exists (1 / 100)%R, (9 / 10)%R, (999 / 1000)%R. cbn. auto 10.
  - intros. now apply at_addr_distinct.
Qed.
End Examples.

Print Assumptions C124_whole_program.
Print Assumptions C124_simple_test.
Print Assumptions C124_mnist_test.
Print Assumptions C124_reported_shapes.
Print Assumptions C124_dense_of_shapes.

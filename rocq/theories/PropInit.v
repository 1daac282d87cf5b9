(** * Property C92: initialisation of a network *)
From Coq Require Import Lia.
From Verif Require Import Mem Scalar MemSpec MemLemmas Lique LiqueSpec LiqueProofs LiqueProofs2 Linear LinearProofs Functions FunctionSpec
  Optimizer Layer LayerSpec FCProofs Cells ConvSpec ConvProofs PoolSpec Net NetPlan NetProofs NetBack PropNet PropTool Schedule PropTraining Init InitSpec.
Open Scope Z_scope.

Section Any.
Context {T : Type} `{NT : Num T} {S G : Type} (call : S -> G -> T * (S * G)).
Implicit Types (m : mem T) (l : list (node T)) (d : node T) (s : S) (g : G).
Notation draw := (draw call). Notation shared_after := (shared_after call).
Lemma fill_fn_eq p n s g m : detail_fill_fn call p n s g m = bind (T := T) (detail_fill p n (draw s g)) (fun _ => ret (shared_after s g n)) m.
Proof.
  unfold detail_fill_fn, detail_fill. destruct (Z_le_gt_dec 0 n) as [Hn|Hn].
  2:{ rewrite mfold_empty, mfor_empty by lia. unfold bind, ret, InitSpec.shared_after. now replace (Z.to_nat n) with O by lia. }
  assert (E : mfold 0 n (fun i st => let r := call (fst st) (snd st) in store (T := T) p i (fst r) ;;; ret (snd r)) (s, g) m =
    bind (T := T) (mfor 0 n (fun i => store p i (draw s g i))) (fun _ => ret (states call (Z.to_nat n) s g)) m).
  { revert n Hn. apply (natlike_ind (fun n => mfold 0 n (fun i st => let r := call (fst st) (snd st) in store (T := T) p i (fst r) ;;; ret (snd r)) (s, g) m =
      bind (T := T) (mfor 0 n (fun i => store p i (draw s g i))) (fun _ => ret (states call (Z.to_nat n) s g)) m)).
    - reflexivity.
    - intros n Hn IH. unfold Z.succ, mfor in *. rewrite mfold_snoc by lia. unfold bind at 1. rewrite IH. clear IH. unfold bind at 3. rewrite mfold_snoc by lia. unfold bind.
      destruct (mfold 0 n _ tt m) as [[[] m1]|e]; [|reflexivity]. cbn [ret]. unfold InitSpec.draw. replace (Z.to_nat (n + 1)) with (Datatypes.S (Z.to_nat n)) by lia. cbn [states].
      destruct (store p n _ m1) as [[[] m2]|e]; reflexivity. }
  cbv zeta in E. unfold bind at 1. rewrite E. unfold bind, ret. destruct (mfor 0 n _ m) as [[[] m1]|e]; reflexivity.
Qed.

(** ** one layer *)
Definition fills (p : plan) s (rs : list role) (c : contents T) g : contents T * G :=
  fold_left (fun cg r => (set_role (fst cg) r (draw s (snd cg)), shared_after s (snd cg) (role_count p r))) rs (c, g).
Lemma fill_list_run L p s : forall rs ts c g m, Forall2 (fun r t => part L r = Some t /\ t_size t = role_count p r) rs ts -> layer_at m L c ->
  exists m', mlist (T := T) ts (fun t g => tb_fill_fn call t s g) g m = Ok (snd (fills p s rs c g), m') /\ layer_at m' L (fst (fills p s rs c g)) /\
    only (fun b _ => exists r, In r rs /\ block_at L r b) m m'.
Proof.
  induction rs as [|r rs IH]; intros ts c g m F A; inversion F as [|? t ? ts' [P E] F']; subst.
  - exists m. split; [reflexivity|]. split; [exact A|apply only_refl].
  - destruct (wp_elim _ _ _ _ (wp_detail_fill (t_data t) (t_size t) (draw s g) m (part_room _ _ _ _ _ A P))) as ([] & m1 & E1 & H1).
    pose proof (layer_at_sets _ _ _ _ _ _ _ A P H1) as A1.
    destruct (IH ts' (set_role c r (draw s g)) (shared_after s g (role_count p r)) m1 F' A1) as (m2 & E2 & A2 & O2).
    exists m2. cbn [mlist]. unfold tb_fill_fn at 1, bind at 1. rewrite fill_fn_eq. unfold bind at 1. rewrite E1. cbn [ret]. rewrite E. split; [exact E2|]. split; [exact A2|].
    eapply only_trans; [eapply only_weaken; [|exact (sets_only_block _ _ _ _ _ _ _ _ _ A P H1)]|eapply only_weaken; [|exact O2]]; cbn.
    + intros b _ Q. exists r. auto.
    + intros b _ (r' & Hr & Q). exists r'. auto.
Qed.
Lemma mlist_last (A B : Type) (body : A -> B -> M T B) (l : list A) (x : A) (b : B) m : mlist (l ++ [x]) body b m = bind (T := T) (mlist l body b) (body x) m.
Proof. rewrite mlist_app. unfold bind. destruct (mlist l body b m) as [[b' m']|]; [|reflexivity]. cbn [mlist]. unfold bind, ret. now destruct (body x b' m') as [[? ?]|]. Qed.
Definition n_init s g d : node T * G := let cg := fills (n_plan d) s (init_roles d) (n_data d) g in (mk_node (n_layer d) (n_plan d) (fst cg), snd cg).
Lemma conv_tensors (Ws : list tensor) B n : Z.of_nat (length Ws) = n -> forall f, (forall i, f (RW i) = znth Ws i) -> f RB = Some B ->
  forall Q : role -> tensor -> Prop, (forall i t, In t Ws -> Q (RW i) t) -> Q RB B -> Forall2 (fun r t => f r = Some t /\ Q r t) (map RW (zrange 0 n) ++ [RB]) (Ws ++ [B]).
Proof.
  intros Hn f Hf Hb Q Hq Qb. apply Forall2_app; [|constructor; auto].
  assert (Gn : forall Ws1 Ws2, Ws = Ws1 ++ Ws2 -> Forall2 (fun r t => f r = Some t /\ Q r t) (map RW (zrange (Z.of_nat (length Ws1)) n)) Ws2).
  { intros Ws1 Ws2. revert Ws1. induction Ws2 as [|t Ws2 IH]; intros Ws1 E.
    - subst. rewrite app_nil_r, zrange_empty by lia. constructor.
    - subst Ws. rewrite app_length in Hn. cbn [length] in Hn. replace (zrange (Z.of_nat (length Ws1)) n) with (Z.of_nat (length Ws1) :: zrange (Z.of_nat (length Ws1) + 1) n).
      2:{ unfold zrange. replace (Z.to_nat (n - Z.of_nat (length Ws1))) with (Datatypes.S (Z.to_nat (n - (Z.of_nat (length Ws1) + 1)))) by lia. cbn [seq map]. f_equal; [lia|].
          rewrite <- seq_shift, map_map. apply map_ext. intros. lia. }
      cbn [map]. constructor.
      + split; [|apply Hq; apply in_or_app; right; left; reflexivity]. rewrite Hf. unfold znth. destruct (Z.leb_spec 0 (Z.of_nat (length Ws1))); [|lia]. rewrite Nat2Z.id, nth_error_app2, Nat.sub_diag by lia. reflexivity.
      + replace (Z.of_nat (length Ws1) + 1) with (Z.of_nat (length (Ws1 ++ [t]))) by (rewrite app_length; cbn; lia). apply IH. now rewrite <- app_assoc. }
  exact (Gn [] Ws eq_refl).
Qed.
Lemma l_init_run d s g m : fits (n_layer d) (n_plan d) -> layer_at m (n_layer d) (n_data d) ->
  exists m', l_init call (n_layer d) s g m = Ok (snd (n_init s g d), m') /\ layer_at m' (n_layer d) (n_data (fst (n_init s g d))) /\
    only (fun b _ => exists r, In r (init_roles d) /\ block_at (n_layer d) r b) m m'.
Proof.
  destruct d as [L p c]. unfold n_init. cbn [n_layer n_plan n_data fst snd]. intros F A.
  destruct L as [L|L|L|L|L|L]; destruct p as [a n k|q|a q]; cbn [fits] in F; try tauto; cbn [l_init init_roles n_layer n_plan fst snd].
  all: try (exists m; split; [reflexivity|]; split; [exact A|apply only_refl]).
  - destruct F as ((Hn & Hk & Hnk & _ & _ & Sv & Sm & _) & _).
    destruct (fill_list_run (LFC L) (PDense a n k) s [RB; RW 0] [f_B L; f_W L] c g m) as (m' & E & B); [|exact A|].
    2:{ exists m'. split; [|exact B]. change [f_B L; f_W L] with ([f_B L] ++ [f_W L]) in E. rewrite mlist_last in E. rewrite <- E. cbn [mlist]. unfold fc_init, bind, ret. now destruct (tb_fill_fn call (f_B L) s g m) as [[? ?]|]. }
    repeat constructor; cbn [role_count]; [apply Sv; cbn; auto|]. destruct (Sm (f_W L)) as (_ & _ & E1 & _); [cbn; auto|exact E1].
  - destruct (fill_list_run (LConv L) (PConv q) s (map RW (zrange 0 (g_f q)) ++ [RB]) (c_Ws L ++ [c_B L]) c g m) as (m' & E & B); [|exact A|].
    + destruct F as (Gk & _ & _ & _ & _ & _ & _ & _ & Ln & _ & Tw & Sb & _).
      apply (conv_tensors (c_Ws L) (c_B L) (g_f q) Ln (part (LConv L))); auto. intros i t Ht. cbn [role_count]. destruct (Tw t) as (_ & _ & _ & E1 & _); [apply in_or_app; auto|]. exact E1.
    + exists m'. split; [|exact B]. rewrite mlist_last in E. exact E.
  - destruct (fill_list_run (LXConv L) (PConv q) s (map RW (zrange 0 (g_f q)) ++ [RB]) (xc_Ws L ++ [xc_B L]) c g m) as (m' & E & B); [|exact A|].
    + destruct F as (Gk & _ & _ & _ & _ & _ & _ & _ & Ln & Tw & Sb & _).
      apply (conv_tensors (xc_Ws L) (xc_B L) (g_f q) Ln (part (LXConv L))); auto. intros i t Ht. cbn [role_count]. destruct (Tw t Ht) as (_ & _ & _ & E1 & _). exact E1.
    + exists m'. split; [|exact B]. rewrite mlist_last in E. exact E.
Qed.

(** ** the network *)
Fixpoint nodes_init s g l : list (node T) * G :=
  match l with [] => ([], g) | d :: l => let dg := n_init s g d in let lg := nodes_init s (snd dg) l in (fst dg :: fst lg, snd lg) end.
Lemma net_init_mlist (N : net) s g m : net_init call N s g m = mlist (T := T) N (fun L g => l_init call L s g) g m.
Proof.
  unfold net_init, mfold, net_size. rewrite Z.sub_0_r, Nat2Z.id.
  assert (Gn : forall N2 N1 g m, N = N1 ++ N2 -> mfold_n (length N2) (Z.of_nat (length N1)) (fun i g => let* L := nth_of N i in l_init call L s g) g m =
    mlist (T := T) N2 (fun L g => l_init call L s g) g m).
  { induction N2 as [|L N2 IH]; intros N1 g1 m1 E; [reflexivity|]. cbn [length mfold_n mlist]. unfold bind at 1 2.
    assert (Z1 : nth_of (T := T) N (Z.of_nat (length N1)) = ret L).
    { unfold nth_of, znth. replace (0 <=? Z.of_nat (length N1)) with true by (symmetry; apply Z.leb_le; lia). rewrite Nat2Z.id, E, nth_error_app2, Nat.sub_diag by lia. reflexivity. }
    rewrite Z1. cbn [ret]. unfold bind. destruct (l_init call L s g1 m1) as [[g2 m2]|]; [|reflexivity].
    replace (Z.of_nat (length N1) + 1) with (Z.of_nat (length (N1 ++ [L]))) by (rewrite app_length; cbn; lia).
    apply IH. now rewrite <- app_assoc. }
  exact (Gn N [] g m eq_refl).
Qed.
Lemma nodes_init_like s : forall l g, layers (fst (nodes_init s g l)) = layers l /\ plans (fst (nodes_init s g l)) = plans l.
Proof.
  induction l as [|d l IH]; intros g; [split; reflexivity|]. destruct (IH (snd (n_init s g d))) as [H1 H2]. cbn [nodes_init fst]. unfold layers, plans in *. cbn [map]. rewrite H1, H2. split; reflexivity.
Qed.
Lemma nodes_init_run s : forall l g m, net_at m l ->
  exists m', mlist (T := T) (layers l) (fun L g => l_init call L s g) g m = Ok (snd (nodes_init s g l), m') /\ net_at m' (fst (nodes_init s g l)) /\
    only (fun b _ => exists k r d, In (k, r) (init_list 0 l) /\ nth_error l k = Some d /\ block_at (n_layer d) r b) m m'.
Proof.
  induction l as [|d l IH]; intros g m A.
  - exists m. split; [reflexivity|]. split; [exact A|apply only_refl].
  - apply net_at_cons in A as (F & A & N & D). destruct (l_init_run d s g m F A) as (m1 & E1 & A1 & O1).
    destruct (IH (snd (n_init s g d)) m1) as (m2 & E2 & N2 & O2).
    { eapply net_at_frame; [exact N|exact O1|]. cbn. intros b _ (r & _ & Q). apply D. eapply block_at_in; exact Q. }
    exists m2. cbn [layers map mlist]. erewrite bind_eq by exact E1. split; [exact E2|]. cbn [nodes_init fst snd].
    assert (Sh : forall k0 (l0 : list (node T)) k r, In (k, r) (init_list k0 l0) -> In (Datatypes.S k, r) (init_list (Datatypes.S k0) l0)).
    { clear. intros k0 l0. revert k0. induction l0 as [|e l0 IH]; intros k0 k r H; [exact H|]. cbn [init_list] in *. apply in_app_or in H as [H|H]; apply in_or_app; [left|right; auto].
      apply in_map_iff in H as (r' & Q & H). injection Q as <- <-. apply in_map_iff. eauto. }
    split.
    + apply net_at_cons. split; [exact F|]. split.
      * eapply layer_at_only; [exact A1|exact O2|]. cbn. intros b _ (k & r & e & _ & He & Q) C. apply (D b C). exists e. split; [eapply nth_error_In; exact He|eapply block_at_in; exact Q].
      * split; [exact N2|]. intros b Q C. apply (D b Q). destruct C as (e & He & Q'). destruct (nodes_init_like s l (snd (n_init s g d))) as [El _].
        apply (in_map n_layer) in He. fold (layers (fst (nodes_init s (snd (n_init s g d)) l))) in He. rewrite El in He. apply in_map_iff in He as (e' & Ee & He). exists e'. split; [exact He|]. now rewrite Ee.
    + eapply only_trans; [eapply only_weaken; [|exact O1]|eapply only_weaken; [|exact O2]]; cbn.
      * intros b _ (r & Hr & Q). exists 0%nat, r, d. split; [|split; [reflexivity|exact Q]]. apply in_or_app. left. apply in_map_iff. eauto.
      * intros b _ (k & r & e & Hr & He & Q). exists (Datatypes.S k), r, e. split; [|split; [exact He|exact Q]]. apply in_or_app. right. now apply Sh.
Qed.
(** what each tensor holds *)
Lemma fills_app p s rs rs' c g : fills p s (rs ++ rs') c g = fills p s rs' (fst (fills p s rs c g)) (snd (fills p s rs c g)).
Proof. unfold fills. rewrite fold_left_app. now destruct (fold_left _ rs (c, g)). Qed.
Lemma fills_cons p s r rs c g : fills p s (r :: rs) c g = fills p s rs (set_role c r (draw s g)) (shared_after s g (role_count p r)).
Proof. reflexivity. Qed.
Lemma fills_other p s r : forall rs c g, ~ In r rs -> fst (fills p s rs c g) r = c r.
Proof.
  induction rs as [|r' rs IH]; intros c g H; [reflexivity|]. rewrite fills_cons, IH by (cbn in H; tauto). apply set_role_other. cbn in H. intros ->. tauto.
Qed.
Lemma fills_at p s rs r rs' c g : ~ In r rs' -> fst (fills p s (rs ++ r :: rs') c g) r = draw s (snd (fills p s rs c g)).
Proof. intros H. rewrite fills_app, fills_cons, fills_other by exact H. apply set_role_same. Qed.
Lemma fills_shared p s : forall rs c g, snd (fills p s rs c g) = fold_left (fun g r => shared_after s g (role_count p r)) rs g.
Proof. induction rs as [|r rs IH]; intros c g; [reflexivity|]. cbn [fills fold_left fst snd]. exact (IH _ _). Qed.
Lemma init_roles_nodup d : NoDup (init_roles d).
Proof.
  assert (C : forall n, NoDup (map RW (zrange 0 n) ++ [RB])).
  { intros n. rewrite <- (rev_involutive (map RW (zrange 0 n) ++ [RB])). apply NoDup_rev. rewrite rev_app_distr. cbn. constructor; [rewrite <- in_rev; intros H; apply in_map_iff in H as (? & Q & _); discriminate|]. apply NoDup_rev.
    apply FinFun.Injective_map_NoDup; [intros x y Q; now injection Q|]. unfold zrange. apply FinFun.Injective_map_NoDup; [intros x y Q; lia|apply seq_NoDup]. }
  unfold init_roles. destruct (n_layer d), (n_plan d); auto; try constructor; try (cbn; intuition discriminate); repeat constructor; auto.
Qed.

Lemma shared_roles (l0 : list (node T)) s k d : nth_error l0 k = Some d -> forall rs g, shared_at call l0 s g (map (fun r => (k, r)) rs) = snd (fills (n_plan d) s rs (n_data d) g).
Proof.
  intros E rs g. rewrite fills_shared. unfold shared_at. revert g. induction rs as [|r rs IH]; intros g; [reflexivity|]. cbn [map fold_left]. rewrite IH. unfold param_count at 1. cbn [fst snd]. now rewrite E.
Qed.
Lemma shared_at_app (l0 : list (node T)) s g a b : shared_at call l0 s g (a ++ b) = shared_at call l0 s (shared_at call l0 s g a) b.
Proof. apply fold_left_app. Qed.
Lemma nodes_init_at s : forall l l1 l0 g pre kr post, l0 = l1 ++ l -> init_list (length l1) l = pre ++ kr :: post ->
  (length l1 <= fst kr)%nat /\ exists d', nth_error (fst (nodes_init s g l)) (fst kr - length l1) = Some d' /\ n_data d' (snd kr) = draw s (shared_at call l0 s g pre).
Proof.
  induction l as [|d l IH]; intros l1 l0 g pre kr post E0 E; cbn [init_list] in E; [destruct pre; discriminate|].
  assert (En : nth_error l0 (length l1) = Some d) by (rewrite E0, nth_error_app2, Nat.sub_diag by lia; reflexivity).
  assert (Sp : (exists rs1 rs2 r, init_roles d = rs1 ++ r :: rs2 /\ kr = (length l1, r) /\ pre = map (fun r => (length l1, r)) rs1) \/
               (exists pre', pre = map (fun r => (length l1, r)) (init_roles d) ++ pre' /\ init_list (Datatypes.S (length l1)) l = pre' ++ kr :: post)).
  { revert pre E. generalize (init_roles d) as rs. clear. induction rs as [|r rs IH]; intros pre E; cbn [map app] in E.
    - right. exists pre. auto.
    - destruct pre as [|x pre]; cbn [app] in E; injection E as Ex E.
      + left. exists [], rs, r. subst. auto.
      + destruct (IH pre E) as [(rs1 & rs2 & r' & -> & -> & ->)|(pre' & -> & Q)]; [left|right].
        * exists (r :: rs1), rs2, r'. subst. auto.
        * exists pre'. subst. auto. }
  destruct Sp as [(rs1 & rs2 & r & Er & -> & ->)|(pre' & -> & E')].
  - cbn [fst snd]. split; [lia|]. rewrite Nat.sub_diag. eexists. split; [reflexivity|]. cbn [n_init fst n_data]. rewrite (shared_roles _ _ _ _ En).
    pose proof (init_roles_nodup d) as Nd. rewrite Er in *. apply fills_at. apply NoDup_remove_2 in Nd. intros Q. apply Nd. apply in_or_app. auto.
  - replace (Datatypes.S (length l1)) with (length (l1 ++ [d])) in E' by (rewrite app_length; cbn; lia).
    destruct (IH (l1 ++ [d]) l0 (snd (n_init s g d)) pre' kr post) as (Hk & d' & N1 & N2); [now rewrite <- app_assoc|exact E'|]. rewrite app_length in Hk, N1. cbn [length] in Hk, N1.
    split; [lia|]. exists d'. split.
    + replace (fst kr - length l1)%nat with (Datatypes.S (fst kr - (length l1 + 1))) by lia. exact N1.
    + rewrite N2, shared_at_app, (shared_roles _ _ _ _ En). reflexivity.
Qed.
Lemma nodes_init_other s : forall l k0 g k r d, nth_error l k = Some d -> ~ In ((k0 + k)%nat, r) (init_list k0 l) ->
  exists d', nth_error (fst (nodes_init s g l)) k = Some d' /\ n_data d' r = n_data d r.
Proof.
  induction l as [|e l IH]; intros k0 g k r d Ek H; [destruct k; discriminate|]. cbn [init_list] in H. destruct k as [|k]; cbn [nth_error] in Ek.
  - injection Ek as <-. eexists. split; [reflexivity|]. cbn [n_init fst n_data]. apply fills_other. intros Q. apply H. apply in_or_app. left. rewrite Nat.add_0_r. now apply in_map.
  - apply (IH (Datatypes.S k0)); [exact Ek|]. intros Q. apply H. apply in_or_app. right. now replace (k0 + Datatypes.S k)%nat with (Datatypes.S k0 + k)%nat by lia.
Qed.

(** ** C92 *)
(** [net.init(generator)] for every network: the parameter tensors, in the order of [init_list], are
    filled one after the other, each by a copy of the generator in the state [s] it had at the call; only
    the shared state goes on from one to the next.  Nothing else changes. *)
Theorem C92_init_exact m l s g : net_at m l ->
  exists m' l', net_init call (layers l) s g m = Ok (shared_at call l s g (init_list 0 l), m') /\
    net_at m' l' /\ layers l' = layers l /\ plans l' = plans l /\
    (forall pre kr post, init_list 0 l = pre ++ kr :: post -> exists d', nth_error l' (fst kr) = Some d' /\ n_data d' (snd kr) = draw s (shared_at call l s g pre)) /\
    (forall k r d, nth_error l k = Some d -> ~ In (k, r) (init_list 0 l) -> exists d', nth_error l' k = Some d' /\ n_data d' r = n_data d r) /\
    only (fun b _ => exists k r d, In (k, r) (init_list 0 l) /\ nth_error l k = Some d /\ block_at (n_layer d) r b) m m'.
Proof.
  intros A. destruct (nodes_init_run s l g m A) as (m' & E & A' & O). exists m', (fst (nodes_init s g l)). rewrite net_init_mlist.
  assert (Es : forall l l1 l0 g, l0 = l1 ++ l -> snd (nodes_init s g l) = shared_at call l0 s g (init_list (length l1) l)).
  { clear. induction l as [|d l IH]; intros l1 l0 g E0; [reflexivity|]. cbn [nodes_init snd init_list]. rewrite shared_at_app. rewrite (shared_roles l0 s (length l1) d).
    - rewrite (IH (l1 ++ [d]) l0) by now rewrite <- app_assoc. rewrite app_length. cbn [length]. now rewrite Nat.add_1_r.
    - rewrite E0, nth_error_app2, Nat.sub_diag by lia. reflexivity. }
  split; [rewrite E; now rewrite (Es l [] l g eq_refl)|]. split; [exact A'|]. split; [apply nodes_init_like|]. split; [apply nodes_init_like|]. split; [|split; [|exact O]].
  - intros pre kr post Q. destruct (nodes_init_at s l [] l g pre kr post eq_refl Q) as (_ & d' & N1 & N2). exists d'. cbn in N1. rewrite Nat.sub_0_r in N1. auto.
  - intros k r d Ek H. exact (nodes_init_other s l 0 g k r d Ek H).
Qed.
End Any.

(** A generator whose values depend only on the shared state (std::rand, [&random] captures): the
    parameters are its successive values. *)
Theorem C92_successive_values_partial {T S G : Type} `{NT : Num T} (call : S -> G -> T * (S * G)) (val : G -> T) (next : G -> G) (m : mem T) l s g :
  (forall s g, fst (call s g) = val g /\ snd (snd (call s g)) = next g) -> net_at m l ->
  exists m' l', net_init call (layers l) s g m = Ok (iterate next (Z.to_nat (total l (init_list 0 l))) g, m') /\ net_at m' l' /\ layers l' = layers l /\
    forall pre kr post i, init_list 0 l = pre ++ kr :: post -> 0 <= i -> param_of l' kr i (val (iterate next (Z.to_nat (total l pre + i)) g)).
Proof.
  intros Hc A. destruct (C92_init_exact call m l s g A) as (m' & l' & E & A' & L & _ & P & _).
  assert (St : forall n s g, snd (states call n s g) = iterate next n g).
  { induction n as [|n IH]; intros s0 g0; [reflexivity|]. cbn [states iterate]. rewrite (proj2 (Hc _ _)). now rewrite IH. }
  assert (It : forall a b g, iterate next (a + b) g = iterate next a (iterate next b g)).
  { induction a as [|a IH]; intros b g0; [reflexivity|]. cbn. now rewrite IH. }
  assert (Cn : forall kr, 0 <= param_count l kr).
  { intros kr. unfold param_count. destruct (nth_error l (fst kr)) as [d|] eqn:Ed; [|lia]. apply nth_error_In in Ed. destruct A as [F _]. rewrite Forall_forall in F. destruct (F d Ed) as [Fd _].
    destruct d as [[L0|L0|L0|L0|L0|L0] [a n k|q|a q] c]; cbn [fits n_layer n_plan] in Fd; try tauto; cbn [role_count n_plan]; destruct (snd kr); try lia.
    all: try (destruct Fd as ((H1 & H2 & _) & _); lia). all: try (destruct Fd as ((H1 & H2 & _) & _); nia). all: destruct Fd as (Gk & _); unfold geometry_ok in Gk; nia. }
  assert (Sh : forall ks g, shared_at call l s g ks = iterate next (Z.to_nat (total l ks)) g /\ 0 <= total l ks).
  { induction ks as [|kr ks IH]; intros g0; [split; [reflexivity|cbn; lia]|]. destruct (IH (shared_after call s g0 (param_count l kr))) as [H1 H2]. change (total l (kr :: ks)) with (param_count l kr + total l ks). pose proof (Cn kr) as Ck. split; [|lia].
    cbn [shared_at fold_left]. fold (shared_at call l s (shared_after call s g0 (param_count l kr)) ks). rewrite H1. unfold shared_after at 1. rewrite St, <- It. f_equal. lia. }
  exists m', l'. split; [|split; [exact A'|split; [exact L|]]].
  - rewrite E. now rewrite (proj1 (Sh _ _)).
  - intros pre kr post i Q Hi. destruct (P pre kr post Q) as (d' & N1 & N2). exists d'. split; [exact N1|]. rewrite N2. unfold draw. rewrite (proj1 (Hc _ _)), St. f_equal.
    rewrite (proj1 (Sh pre g)), <- It. f_equal. pose proof (proj2 (Sh pre g)). lia.
Qed.
(** A generator that keeps its state in itself (a Random object, a mutable lambda): every parameter
    tensor of every layer gets the same values, the first ones of the generator. *)
Theorem C92_own_state_refuted {T S G : Type} `{NT : Num T} (call : S -> G -> T * (S * G)) (val : S -> T) (next : S -> S) (m : mem T) l s g :
  (forall s g, fst (call s g) = val s /\ fst (snd (call s g)) = next s) -> net_at m l ->
  exists m' l' g', net_init call (layers l) s g m = Ok (g', m') /\ net_at m' l' /\ layers l' = layers l /\
    forall kr i, In kr (init_list 0 l) -> 0 <= i -> param_of l' kr i (val (iterate next (Z.to_nat i) s)).
Proof.
  intros Hc A. destruct (C92_init_exact call m l s g A) as (m' & l' & E & A' & L & _ & P & _). exists m', l'. eexists. split; [exact E|]. split; [exact A'|]. split; [exact L|].
  intros kr i Hk Hi. apply in_split in Hk as (pre & post & Q). destruct (P pre kr post Q) as (d' & N1 & N2). exists d'. split; [exact N1|]. rewrite N2. unfold draw. rewrite (proj1 (Hc _ _)). f_equal.
  generalize (shared_at call l s g pre). generalize (Z.to_nat i). clear -Hc. induction n as [|n IH]; intros g0; [reflexivity|]. cbn [states iterate]. rewrite (proj2 (Hc _ _)). now rewrite IH.
Qed.
Module Examples.
(** two dense layers and a generator that counts 1, 2, 3, ...; its counter in the object / shared by the copies *)
Definition ps2 : list plan := [PDense (Functions.Scalar Tanh) 3 2; PDense (Functions.Scalar Identity) 2 2].
Definition own (s : Z) (g : unit) : Z * (Z * unit) := (s, (s + 1, g)).
Definition shared (s : unit) (g : Z) : Z * (unit * Z) := (g, (s, g + 1)).
Example C92_applies : exists (m : mem Z) (l : list (node Z)), net_at m l /\
  init_list 0 l = [(0%nat, RB); (0%nat, RW 0); (1%nat, RB); (1%nat, RW 0)] /\
  (exists m' l', net_init shared (layers l) tt 1 m = Ok (15, m') /\ net_at m' l' /\ param_of l' (0%nat, RB) 0 1 /\ param_of l' (0%nat, RW 0) 0 3 /\ param_of l' (1%nat, RB) 0 9 /\ param_of l' (1%nat, RW 0) 1 12) /\
  (exists m' l' g', net_init own (layers l) 1 tt m = Ok (g', m') /\ net_at m' l' /\ param_of l' (0%nat, RB) 0 1 /\ param_of l' (0%nat, RW 0) 0 1 /\ param_of l' (1%nat, RB) 0 1 /\ param_of l' (1%nat, RW 0) 1 2).
Proof.
  destruct (C63_every_topology_builds (T := Z) ps2 []) as (N & m & E & Len & Tr & A & _).
  { repeat apply Forall_cons; try apply Forall_nil; cbn [plan_ok]; repeat split; try lia; discriminate. }
  clear E. exists m, (new_nodes N ps2). destruct N as [|L1 [|L2 [|L3 N]]]; try discriminate Len.
  cbn [new_nodes combine map ps2] in *.
  assert (K : exists f1 f2, L1 = LFC f1 /\ L2 = LFC f2).
  { destruct A as [F _]. apply Forall_cons_iff in F as [[F1 _] F]. apply Forall_cons_iff in F as [[F2 _] _]. cbn in F1, F2.
    apply Forall_cons_iff in Tr as [T1 Tr]. apply Forall_cons_iff in Tr as [T2 _]. destruct L1; cbn in T1, F1; try tauto; destruct L2; cbn in T2, F2; try tauto; eauto. }
  destruct K as (f1 & f2 & -> & ->). split; [exact A|]. split; [reflexivity|]. split.
  - destruct (C92_successive_values_partial (T := Z) shared (fun g => g) (fun g => g + 1) m _ tt 1 (fun _ _ => conj eq_refl eq_refl) A) as (m' & l' & E & A' & _ & P). exists m', l'. split; [rewrite E; reflexivity|]. split; [exact A'|].
    split; [exact (P [] _ _ 0 eq_refl ltac:(lia))|]. split; [exact (P [_] _ _ 0 eq_refl ltac:(lia))|]. split; [exact (P [_; _] _ _ 0 eq_refl ltac:(lia))|exact (P [_; _; _] _ _ 1 eq_refl ltac:(lia))].
  - destruct (C92_own_state_refuted (T := Z) own (fun s => s) (fun s => s + 1) m _ 1 tt (fun _ _ => conj eq_refl eq_refl) A) as (m' & l' & g' & E & A' & _ & P). exists m', l', g'. split; [exact E|]. split; [exact A'|].
    split; [exact (P (0%nat, RB) 0 ltac:(cbn; auto) ltac:(lia))|]. split; [exact (P (0%nat, RW 0) 0 ltac:(cbn; auto) ltac:(lia))|]. split; [exact (P (1%nat, RB) 0 ltac:(cbn; auto) ltac:(lia))|exact (P (1%nat, RW 0) 1 ltac:(cbn; auto 6) ltac:(lia))].
Qed.
End Examples.

Print Assumptions C92_init_exact.
Print Assumptions C92_successive_values_partial.
Print Assumptions C92_own_state_refuted.

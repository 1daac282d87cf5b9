(** * Property C109: training can be resumed from a saved network *)
From Coq Require Import Reals Lra FunctionalExtensionality.
From Coquelicot Require Import Coquelicot.
From Verif Require Import Mem Scalar MemSpec MemLemmas Lique LiqueSpec LiqueProofs LiqueProofs2 Linear LinearProofs Functions FunctionSpec FunctionProofs
  Skel Bufs Optimizer OptimizerSpec OptimizerProofs OptimizerHist Layer LayerSpec FCProofs Cells ConvSpec ConvProofs ConvProofs2 PoolSpec PoolProofs PropFC PropConv PropPool
  Net NetPlan NetProofs NetBack PropNet NetReal NetGrad RSum RealSpec ActivationProofs LossProofs NetSpec Vjp ConvVjp PropNetGrad NetTotal Schedule PropTraining Descent DescentSpec DescentReal PropDescent OptTrain OptTrainSpec OptTrainReal PropOptTrain SessionSpec Session PropSession
  Serial SerialProofs PropSerial Resume.
Open Scope Z_scope.
#[local] Existing Instance names_pname.

Section Any.
Context {T : Type} `{NT : Num T}.
Implicit Types (m : mem T) (l : list (node T)) (o : opt T).
(** the class, the learning rate and the counters of an optimizer *)
Definition settings o := (o_kind o, o_lr o, o_t1 o, o_t2 o).
(** Two networks hold the same parameters: corresponding tensors have the same size and elements. *)
Definition parameters_agree m l m' l' : Prop := forall i r tt, param_tensor l i r tt -> exists tt' v, param_tensor l' i r tt' /\
  t_size tt' = t_size tt /\ holds m (t_data tt) (t_size tt) v /\ holds m' (t_data tt') (t_size tt') v.
Lemma parts_size L L' a n k r tt : fits L (PDense a n k) -> fits L' (PDense a n k) -> train_class L -> train_class L' -> prole r = true -> part L r = Some tt ->
  exists tt', part L' r = Some tt' /\ t_size tt' = t_size tt.
Proof.
  intros F F' Tr Tr' Pr P. destruct L as [L|L|L|L|L|L]; cbn in F, Tr; try contradiction. destruct L' as [L'|L'|L'|L'|L'|L']; cbn in F', Tr'; try contradiction.
  destruct F as (D & _). destruct F' as (D' & _). destruct D as (_ & _ & _ & _ & _ & D1 & D2 & _). destruct D' as (_ & _ & _ & _ & _ & D1' & D2' & _).
  destruct r as [|f| | | | | | | |]; try discriminate; cbn [part] in *.
  - injection P as <-. exists (f_B L'). split; [reflexivity|]. now rewrite (D1 (f_B L)), (D1' (f_B L')) by (cbn; auto).
  - destruct f; try discriminate. injection P as <-. exists (f_W L'). split; [reflexivity|]. destruct (D2 (f_W L)) as (_ & _ & E & _); [cbn; auto|]. destruct (D2' (f_W L')) as (_ & _ & E' & _); [cbn; auto|]. congruence.
Qed.
Lemma loaded_kin m l m2 l' : net_at m l -> Forall train_class (layers l) -> Forall is_dense (plans l) -> net_at m2 l' -> same_parameters l l' -> Forall2 kin l l'.
Proof.
  intros (F & _) Tr Dn (F' & _) (Ep & S). revert F Tr Dn F' Ep. induction S as [|d d' l l' (Tc & EB & EW) S IH]; intros F Tr Dn F' Ep; [constructor|].
  cbn [layers plans map] in *. inversion F as [|? ? [Fd _] Fl]; subst. inversion F' as [|? ? [Fd' _] Fl']; subst. inversion Tr as [|? ? T1 T2]; subst. inversion Dn as [|? ? D1 D2]; subst. injection Ep as Ep1 Ep2.
  constructor; [|now apply IH]. apply Tc in T1 as T1'. split.
  - split; [exact Ep1|]. rewrite Ep1 in Fd'. destruct (n_plan d); try contradiction. destruct (n_layer d); cbn in Fd, T1; try contradiction. destruct (n_layer d'); cbn in Fd', T1'; try contradiction. exact Logic.I.
  - intros r Pr. destruct r; try discriminate; [exact EB|]. exact (f_equal (fun w => w f) EW).
Qed.
Lemma kin_nth l l' : Forall2 kin l l' -> forall i d, nth_error l i = Some d -> exists d', nth_error l' i = Some d' /\ kin d d'.
Proof. induction 1 as [|a b la lb H F IH]; intros [|i] d E; cbn in *; try discriminate; [injection E as <-; eauto|eauto]. Qed.
Lemma kin_agree m l m' l' : net_at m l -> net_at m' l' -> Forall2 kin l l' -> parameters_agree m l m' l'.
Proof.
  intros A A' F i r tt (Pr & d & Nd & Pd). destruct (kin_nth l l' F i d Nd) as (d' & Nd' & (Ep & Cl) & Ed). assert (Pr' : prole r = true) by (destruct r; try destruct Pr; reflexivity).
  pose proof A as (Fa & _). pose proof A' as (Fa' & _). rewrite Forall_forall in Fa, Fa'. destruct (Fa d (nth_error_In _ _ Nd)) as [Fi _]. destruct (Fa' d' (nth_error_In _ _ Nd')) as [Fi' _]. rewrite Ep in Fi'.
  destruct (n_plan d) as [a n k|g|a q]; try contradiction. assert (T1 : train_class (n_layer d)) by (destruct (n_layer d); try contradiction; exact Logic.I). assert (T2 : train_class (n_layer d')) by (destruct (n_layer d), (n_layer d'); try contradiction; exact Logic.I).
  destruct (parts_size _ _ a n k r tt Fi Fi' T1 T2 Pr' Pd) as (tt' & Pd' & Es). exists tt', (n_data d r). split; [split; [exact Pr|eauto]|]. split; [exact Es|]. split.
  - eapply part_holds; [eapply net_layer_at; [exact A|exact Nd]|exact Pd].
  - rewrite <- (Ed r Pr'). eapply part_holds; [eapply net_layer_at; [exact A'|exact Nd']|exact Pd'].
Qed.
(** what two runs have in common: parameters, class, learning rate and counters, accumulators [x] *)
Definition ends_alike addr m l t idata odata o addr' m' l' t' idata' odata' o' : Prop :=
  parameters_agree m l m' l' /\ settings o' = settings o /\
  exists x, optimizer_for addr m l t idata odata o x /\ optimizer_for addr' m' l' t' idata' odata' o' x.
Section Two.
Context (addr addr' : ptr -> Z) (t t' : trainer) (lo : loss) (idata odata idata' odata' : list tensor) (xs ys : Z -> Z -> T).
(** Two networks with the same parameters train alike. *)
Lemma rounds_alike m l o x m' l' o' iss : ready m l t lo idata odata xs ys -> ready m' l' t' lo idata' odata' xs ys ->
  optimizer_for addr m l t idata odata o x -> optimizer_for addr' m' l' t' idata' odata' o' x -> length idata' = length idata ->
  Forall2 kin l l' -> settings o' = settings o -> Forall (fun is : list Z => is <> []) iss -> Forall (Forall (valid idata)) iss ->
  exists l1 o1 m1 l2 o2 m2,
    Schedule.run addr t idata odata (flat_map round iss) (layers l, o) m = Ok ((layers l1, o1), m1) /\
    Schedule.run addr' t' idata' odata' (flat_map round iss) (layers l', o') m' = Ok ((layers l2, o2), m2) /\
    ends_alike addr m1 l1 t idata odata o1 addr' m2 l2 t' idata' odata' o2.
Proof.
  intros R R' Of Of' EL K E Ne V. assert (V' : Forall (Forall (valid idata')) iss) by (unfold valid; now rewrite EL).
  pose proof R as (_ & _ & A & _). pose proof R' as (_ & _ & A' & _).
  destruct (rounds_event addr t lo _ _ _ _ _ _ _ _ (pname_params (layers l)) (tensors_fine addr t _ _ m l o x A Of) _ (spare_reserves addr t lo _ _ _ _ m l o x R Of) (o_kind o) (o_lr o) iss m o _ (start_state addr t lo _ _ _ _ m l o x R Of) V) as (o1 & m1 & E1 & (F1 & S1 & S2 & S3 & S4) & _).
  destruct (rounds_event addr' t' lo _ _ _ _ _ _ _ _ (pname_params (layers l')) (tensors_fine addr' t' _ _ m' l' o' x A' Of') _ (spare_reserves addr' t' lo _ _ _ _ m' l' o' x R' Of') (o_kind o') (o_lr o') iss m' o' _ (start_state addr' t' lo _ _ _ _ m' l' o' x R' Of') V') as (o2 & m2 & E2 & (F2 & U1 & U2 & U3 & U4) & _).
  destruct (full_end addr t lo _ _ _ _ m l o x _ _ _ _ R Of F1) as (Q1 & H1 & _). destruct (full_end addr' t' lo _ _ _ _ m' l' o' x _ _ _ _ R' Of' F2) as (Q2 & H2 & _).
  unfold settings in *. injection E as X1 X2 X3 X4. rewrite X1, X2, X3, X4 in *.
  destruct (rounds_kin lo xs ys (o_kind o) (o_lr o) iss Ne (mk_nst l x (o_t1 o) (o_t2 o)) (mk_nst l' x (o_t1 o) (o_t2 o))) as (C & Ex & Ea & Eb); [split; auto|].
  eexists _, o1, m1, _, o2, m2. split; [exact E1|]. split; [exact E2|]. split; [apply kin_agree; [apply Q1|apply Q2|exact C]|]. split; [unfold settings; congruence|]. eexists. split; [exact H1|]. rewrite <- Ex. exact H2.
Qed.
Lemma steps_alike m l o x m' l' o' is : ready m l t lo idata odata xs ys -> ready m' l' t' lo idata' odata' xs ys ->
  optimizer_for addr m l t idata odata o x -> optimizer_for addr' m' l' t' idata' odata' o' x -> length idata' = length idata ->
  Forall2 (twin false) l l' -> Forall flag_off l -> settings o' = settings o -> Forall (valid idata) is ->
  exists l1 o1 m1 l2 o2 m2,
    Schedule.run addr t idata odata (flat_map step_on is) (layers l, o) m = Ok ((layers l, o1), m1) /\ layers l1 = layers l /\
    Schedule.run addr' t' idata' odata' (flat_map step_on is) (layers l', o') m' = Ok ((layers l', o2), m2) /\ layers l2 = layers l' /\
    ends_alike addr m1 l1 t idata odata o1 addr' m2 l2 t' idata' odata' o2.
Proof.
  intros R R' Of Of' EL K Fl E V. assert (V' : Forall (valid idata') is) by (unfold valid; now rewrite EL).
  pose proof R as (_ & _ & A & _). pose proof R' as (_ & _ & A' & _).
  destruct (steps_event addr t lo _ _ _ _ _ _ _ _ (pname_params (layers l)) (tensors_fine addr t _ _ m l o x A Of) _ (spare_reserves addr t lo _ _ _ _ m l o x R Of) (o_kind o) (o_lr o) is m o _ (start_state addr t lo _ _ _ _ m l o x R Of) V) as (o1 & m1 & E1 & (F1 & S1 & S2 & S3 & S4) & _).
  destruct (steps_event addr' t' lo _ _ _ _ _ _ _ _ (pname_params (layers l')) (tensors_fine addr' t' _ _ m' l' o' x A' Of') _ (spare_reserves addr' t' lo _ _ _ _ m' l' o' x R' Of') (o_kind o') (o_lr o') is m' o' _ (start_state addr' t' lo _ _ _ _ m' l' o' x R' Of') V') as (o2 & m2 & E2 & (F2 & U1 & U2 & U3 & U4) & _).
  destruct (full_end addr t lo _ _ _ _ m l o x _ _ _ _ R Of F1) as (Q1 & H1 & _). destruct (full_end addr' t' lo _ _ _ _ m' l' o' x _ _ _ _ R' Of' F2) as (Q2 & H2 & _).
  unfold settings in *. injection E as X1 X2 X3 X4. rewrite X1, X2, X3, X4 in *.
  destruct (steps_off lo xs ys (o_kind o) (o_lr o) is (mk_nst l x (o_t1 o) (o_t2 o)) (mk_nst l' x (o_t1 o) (o_t2 o))) as (C & _ & Ex & Ea & Eb); [split; auto|].
  destruct (steps_same_plans lo xs ys (o_kind o) (o_lr o) is (mk_nst l x (o_t1 o) (o_t2 o))) as [P1 P2]. destruct (steps_same_plans lo xs ys (o_kind o) (o_lr o) is (mk_nst l' x (o_t1 o) (o_t2 o))) as [P1' P2'].
  cbn [ns_l] in P2, P2'. rewrite P2 in E1. rewrite P2' in E2. eexists _, o1, m1, _, o2, m2. split; [exact E1|]. split; [exact P2|]. split; [exact E2|]. split; [exact P2'|]. split; [apply kin_agree; [apply Q1|apply Q2|]|].
  { clear -C. induction C; constructor; eauto using twin_kin. } split; [unfold settings; congruence|]. eexists. split; [exact H1|]. rewrite <- Ex. exact H2.
Qed.
End Two.
(** a loaded network's layers have not accumulated anything *)
Ltac peel E := repeat (let q := fresh "q" in let mq := fresh "mq" in apply bind_inv in E as (q & mq & _ & E); repeat match type of E with context [match ?u with (_, _) => _ end] => destruct u end).
Lemma prepared_fresh L0 m L m' : fc_prepare L0 m = Ok (L, m') -> f_acc L = false.
Proof. unfold fc_prepare. cbv zeta. intros E. peel E. unfold ret in E. injection E as <- _. reflexivity. Qed.
Lemma loaded_layer_fresh a m X r m' : load_layer a m = Ok ((X, r), m') -> forall L, X = LFC L -> f_acc L = false.
Proof.
  unfold load_layer. intros E. apply bind_inv in E as ([k a1] & m1 & _ & E). destruct k; intros L Q;
    apply bind_inv in E as (q & m2 & _ & E); repeat match type of E with context [match ?u with (_, _) => _ end] => destruct u end;
    try (apply bind_inv in E as (L1 & m3 & P & E)); unfold ret in E; injection E as E1 E2 E3; subst; try discriminate.
  injection Q as ->. eapply prepared_fresh; exact P.
Qed.
Lemma loaded_fresh n : forall a m N r m', load_layers n a m = Ok ((N, r), m') -> forall L, In (LFC L) N -> f_acc L = false.
Proof.
  induction n as [|n IH]; intros a m N r m' E L H; cbn [load_layers] in E; [unfold ret in E; injection E as <- _ _; destruct H|].
  apply bind_inv in E as ([X a1] & m1 & E1 & E). apply bind_inv in E as ([N1 a2] & m2 & E2 & E). unfold ret in E. injection E as <- _ _. destruct H as [H|H]; [eapply loaded_layer_fresh; [exact E1|exact H]|eapply IH; [exact E2|exact H]].
Qed.
Lemma load_net_fresh a m N r m' : load_net a m = Ok ((N, r), m') -> forall L, In (LFC L) N -> f_acc L = false.
Proof. unfold load_net. intros E. apply bind_inv in E as ([n a1] & m1 & _ & E). eapply loaded_fresh; exact E. Qed.
Lemma dense_pooling l : Forall is_dense (plans l) -> Forall not_pooling (plans l).
Proof. apply Forall_impl. intros [a n k|g|a q] H; try destruct H; exact Logic.I. Qed.
Lemma stochastic_run addr t idata odata (N : net) o k g m o' m' : 0 <= k -> idata <> [] -> (forall i, 0 <= g i < 2 ^ 64) ->
  Schedule.run addr t idata odata (flat_map step_on (chosen idata k g)) (N, o) m = Ok ((N, o'), m') -> tr_stochastic addr N t idata odata o k g m = Ok (o', m').
Proof.
  intros Hk Ne Hg Q. pose proof (C69_stochastic_schedule addr t idata odata N o k g m Hk Ne Hg) as Q0. unfold stochastic_schedule in Q0.
  replace (flat_map (fun i => step_on (g i mod Z.of_nat (length idata))) (zrange 0 k)) with (flat_map (step_on (T := T)) (chosen idata k g)) in Q0.
  - pose proof (eq_trans Q0 Q) as Q1. clear Q0 Q. unfold bind, ret in Q1. destruct (tr_stochastic addr N t idata odata o k g m) as [[o1 m1]|e]; [|discriminate]. injection Q1 as <- <-. reflexivity.
  - unfold chosen. clear. induction (zrange 0 k) as [|i ks IH]; [reflexivity|]. cbn [map flat_map]. now rewrite IH.
Qed.
Section Main.
Context (addr : ptr -> Z) (t : trainer) (lo : loss) (idata odata : list tensor) (xs ys : Z -> Z -> T) (m : mem T) (l : list (node T)) (o : opt T) (x : nat -> role -> Z -> T * T).
Context (Rd : ready m l t lo idata odata xs ys) (Of : optimizer_for addr m l t idata odata o x) (Dn : Forall is_dense (plans l)).
(** A network of dense layers is saved at any moment between two training calls, and loaded into a
    program with memory [m1].  If that program, when the loaded network [l'] is as loaded, has its own trainer with the same loss,
    data with the same values, and an optimizer of the same class with the same settings, counters and accumulators, then batch
    training the loaded network there and batch training on here succeed and end with the same
    parameters, settings, counters and accumulators.  Any number type (rounding included). *)
Theorem C109_batch_resumes E : idata <> [] -> 0 <= E ->
  exists ar, save_net (layers l) m = Ok (ar, m) /\
  forall rest m1, exists l' m2, load_net (ar ++ rest) m1 = Ok ((layers l', rest), m2) /\ net_at m2 l' /\ preserves m1 m2 /\ plans l' = plans l /\
  forall addr' m3 t' idata' odata' o', ready m3 l' t' lo idata' odata' xs ys -> length idata' = length idata ->
    optimizer_for addr' m3 l' t' idata' odata' o' x -> settings o' = settings o ->
  exists la oa ma lb ob mb,
    tr_batch addr (layers l) t idata odata o E m = Ok ((layers la, oa), ma) /\
    tr_batch addr' (layers l') t' idata' odata' o' E m3 = Ok ((layers lb, ob), mb) /\
    ends_alike addr ma la t idata odata oa addr' mb lb t' idata' odata' ob.
Proof.
  intros Ne HE. pose proof Rd as (_ & Tr & A & _). destruct (C77_save_load m l A (dense_pooling l Dn)) as (ar & Es & H). exists ar. split; [exact Es|]. intros rest m1.
  destruct (H rest m1) as (l' & m2 & El & A' & SP & _ & Pv & _). exists l', m2. split; [exact El|]. split; [exact A'|]. split; [exact Pv|]. split; [apply SP|].
  intros addr' m3 t' idata' odata' o' R' EL Of' St. pose proof (loaded_kin m l m2 l' A Tr Dn A' SP) as K.
  destruct (rounds_alike addr addr' t t' lo idata odata idata' odata' xs ys m l o x m3 l' o' (batches idata E) Rd R' Of Of' EL K St (batches_some idata E Ne) (batches_valid idata E)) as (la & oa & ma & lb & ob & mb & E1 & E2 & Al).
  exists la, oa, ma, lb, ob, mb. split; [|split; [|exact Al]]; rewrite C67_batch_schedule by auto; [rewrite <- E1|rewrite <- E2]; f_equal; unfold batch_schedule, batches; rewrite ?EL; clear; (induction (Z.to_nat E) as [|k IH]; [reflexivity|]; cbn [repeat concat flat_map]; now rewrite IH).
Qed.
Theorem C109_mini_batch_resumes E b : Z.of_nat (length idata) < 2 ^ 64 -> 0 <= E -> 0 < b ->
  exists ar, save_net (layers l) m = Ok (ar, m) /\
  forall rest m1, exists l' m2, load_net (ar ++ rest) m1 = Ok ((layers l', rest), m2) /\ net_at m2 l' /\ preserves m1 m2 /\ plans l' = plans l /\
  forall addr' m3 t' idata' odata' o', ready m3 l' t' lo idata' odata' xs ys -> length idata' = length idata ->
    optimizer_for addr' m3 l' t' idata' odata' o' x -> settings o' = settings o ->
  exists la oa ma lb ob mb,
    tr_mini_batch addr (layers l) t idata odata o E b m = Ok ((layers la, oa), ma) /\
    tr_mini_batch addr' (layers l') t' idata' odata' o' E b m3 = Ok ((layers lb, ob), mb) /\
    ends_alike addr ma la t idata odata oa addr' mb lb t' idata' odata' ob.
Proof.
  intros Hn HE Hb. pose proof Rd as (_ & Tr & A & _). destruct (C77_save_load m l A (dense_pooling l Dn)) as (ar & Es & H). exists ar. split; [exact Es|]. intros rest m1.
  destruct (H rest m1) as (l' & m2 & El & A' & SP & _ & Pv & _). exists l', m2. split; [exact El|]. split; [exact A'|]. split; [exact Pv|]. split; [apply SP|].
  intros addr' m3 t' idata' odata' o' R' EL Of' St. pose proof (loaded_kin m l m2 l' A Tr Dn A' SP) as K.
  destruct (rounds_alike addr addr' t t' lo idata odata idata' odata' xs ys m l o x m3 l' o' (mini_batches idata b E) Rd R' Of Of' EL K St (mini_some idata b E Hb) (mini_valid idata b E Hb)) as (la & oa & ma & lb & ob & mb & E1 & E2 & Al).
  exists la, oa, ma, lb, ob, mb. split; [|split; [|exact Al]]; rewrite C68_mini_batch_schedule by (rewrite ?EL; auto); [rewrite <- E1|rewrite <- E2]; f_equal; unfold mini_batch_schedule, mini_batches; rewrite ?EL; clear;
    (induction (Z.to_nat E) as [|k IH]; [reflexivity|]; cbn [repeat concat flat_map]; rewrite flat_map_app, <- IH; f_equal; clear; induction (zrange 0 (Z.of_nat (length idata) / b)) as [|k ks IH]; [reflexivity|]; cbn [map flat_map]; now rewrite IH).
Qed.
(** Stochastic training: the same if the network has not been trained in batches before. *)
Theorem C109_stochastic_resumes_partial k g : (forall L, In (LFC L) (layers l) -> f_acc L = false) -> idata <> [] -> 0 <= k -> (forall i, 0 <= g i < 2 ^ 64) ->
  exists ar, save_net (layers l) m = Ok (ar, m) /\
  forall rest m1, exists l' m2, load_net (ar ++ rest) m1 = Ok ((layers l', rest), m2) /\ net_at m2 l' /\ preserves m1 m2 /\ plans l' = plans l /\
  forall addr' m3 t' idata' odata' o', ready m3 l' t' lo idata' odata' xs ys -> length idata' = length idata ->
    optimizer_for addr' m3 l' t' idata' odata' o' x -> settings o' = settings o ->
  exists la oa ma lb ob mb, layers la = layers l /\ layers lb = layers l' /\
    tr_stochastic addr (layers l) t idata odata o k g m = Ok (oa, ma) /\
    tr_stochastic addr' (layers l') t' idata' odata' o' k g m3 = Ok (ob, mb) /\
    ends_alike addr ma la t idata odata oa addr' mb lb t' idata' odata' ob.
Proof.
  intros Fr Ne Hk Hg. pose proof Rd as (_ & Tr & A & _). destruct (C77_save_load m l A (dense_pooling l Dn)) as (ar & Es & H). exists ar. split; [exact Es|]. intros rest m1.
  destruct (H rest m1) as (l' & m2 & El & A' & SP & _ & Pv & _). exists l', m2. split; [exact El|]. split; [exact A'|]. split; [exact Pv|]. split; [apply SP|].
  intros addr' m3 t' idata' odata' o' R' EL Of' St. pose proof (loaded_kin m l m2 l' A Tr Dn A' SP) as K. pose proof (load_net_fresh _ _ _ _ _ El) as Fr'.
  assert (Tw : Forall2 (twin false) l l').
  { clear -K Fr Fr'. induction K as [|d d' l l' Kd K IH]; [constructor|]. constructor; [|apply IH; intros; [apply Fr|apply Fr']; now right]. destruct Kd as ((Ep & Cl) & C). split; [split; [exact Ep|exact Cl]|]. split.
    - specialize (fun L Q => Fr L (or_introl Q)). specialize (fun L Q => Fr' L (or_introl Q)). destruct (n_plan d); try contradiction. destruct (n_layer d) as [L| | | | | ]; try contradiction. destruct (n_layer d') as [L'| | | | | ]; try contradiction. now rewrite (Fr L eq_refl), (Fr' L' eq_refl).
    - intros r Hr. apply C. destruct r; cbn in Hr; try contradiction; try discriminate; reflexivity. }
  assert (Fl : Forall flag_off l). { apply Forall_forall. intros d Hd. unfold flag_off. destruct (n_layer d) eqn:Q; auto. apply Fr. rewrite <- Q. now apply in_map. }
  assert (V : Forall (valid idata) (chosen idata k g)). { apply Forall_forall. intros i Hi. apply in_map_iff in Hi as (j & <- & _). apply Z.mod_pos_bound. destruct idata; [congruence|cbn; lia]. }
  assert (Ne' : idata' <> []) by (destruct idata', idata; try discriminate; congruence).
  destruct (steps_alike addr addr' t t' lo idata odata idata' odata' xs ys m l o x m3 l' o' (chosen idata k g) Rd R' Of Of' EL Tw Fl St V) as (la & oa & ma & lb & ob & mb & E1 & La & E2 & Lb & Al).
  exists la, oa, ma, lb, ob, mb. split; [exact La|]. split; [exact Lb|]. split; [|split; [|exact Al]].
  - eapply stochastic_run; eauto.
  - eapply stochastic_run; eauto. unfold chosen in *. rewrite EL. exact E2.
Qed.
End Main.
End Any.

(** ** with convolutions *)
Section Convolution.
Local Open Scope R_scope.
Lemma loaded_same l l' : same_parameters (T := R) l l' -> Forall2 same_params l l'.
Proof.
  intros (Ep & F). revert Ep. induction F as [|d d' l l' (_ & EB & EW) F IH]; intros Ep; [constructor|]. cbn [plans map] in Ep. injection Ep as E1 E2. constructor; [|now apply IH].
  split; [exact E1|]. split; [exact EB|]. intros f. exact (f_equal (fun w => w f) EW).
Qed.
(** One more epoch of gradient descent on a network with convolutions, here and on the saved and loaded
    network: every parameter of a convolution ends elsewhere, by learning rate over number of samples times
    what its gradient tensor held when the network was saved (which is its last displacement: C90).  So it
    is not enough to save the network. *)
Theorem C109_convolution_resume_refuted addr m l t lo idata odata xs ys o : ready m l t lo idata odata xs ys -> clean (to_model l) -> idata <> [] -> o_kind o = GradDescent ->
  Forall not_pooling (plans l) -> smooth_on lo (to_model l) xs ys (zrange 0 (Z.of_nat (length idata))) ->
  exists ar, save_net (layers l) m = Ok (ar, m) /\
  forall rest m1, exists l' m2, load_net (ar ++ rest) m1 = Ok ((layers l', rest), m2) /\ net_at m2 l' /\ preserves m1 m2 /\ plans l' = plans l /\
  forall addr' m3 t' idata' odata', ready m3 l' t' lo idata' odata' xs ys -> length idata' = length idata ->
  exists la ma lb mb,
    tr_batch addr (layers l) t idata odata o 1 m = Ok ((layers la, o), ma) /\ ready ma la t lo idata odata xs ys /\
    tr_batch addr' (layers l') t' idata' odata' o 1 m3 = Ok ((layers lb, o), mb) /\ ready mb lb t' lo idata' odata' xs ys /\
    forall i g s sa sb r j, nth_error (to_model l) i = Some (PConv g, s) -> nth_error (to_model la) i = Some (PConv g, sa) -> nth_error (to_model lb) i = Some (PConv g, sb) -> is_param (PConv g) r j ->
      sb r j - sa r j = o_lr o * (/ INR (length idata) * s (grad_role r) j).
Proof.
  intros Rd Cl Ne Ko NP Sm. pose proof Rd as (_ & _ & A & _). destruct (C77_save_load m l A NP) as (ar & Es & H). exists ar. split; [exact Es|]. intros rest m1.
  destruct (H rest m1) as (l' & m2 & El & A' & SP & Zr & Pv & _). exists l', m2. split; [exact El|]. split; [exact A'|]. split; [exact Pv|]. split; [apply SP|].
  intros addr' m3 t' idata' odata' R' EL. pose proof (loaded_same l l' SP) as S. assert (Ne' : idata' <> []) by (destruct idata', idata; try discriminate; congruence).
  assert (Cl' : clean (to_model l')).
  { unfold clean, to_model. apply Forall_map. eapply Forall_impl; [|exact Zr]. intros d Hz. cbn [fst snd]. destruct (n_plan d); auto. intros f r q _ _ _ _. now rewrite (Hz RBuff). }
  destruct (C90_batch_descends addr m l t lo idata odata xs ys o 1 Rd Ko ltac:(lia) Ne Cl) as (la & ma & Ea & Ra & _ & Da).
  destruct (C90_batch_descends addr' m3 l' t' lo idata' odata' xs ys o 1 R' Ko ltac:(lia) Ne' Cl') as (lb & mb & Eb & Rb & _ & Db).
  exists la, ma, lb, mb. split; [exact Ea|]. split; [exact Ra|]. split; [exact Eb|]. split; [exact Rb|].
  rewrite EL in Db. cbn [Z.to_nat Pos.to_nat Pos.iter_op repeat descends] in Da, Db. destruct Da as (tha & Da & <-). destruct Db as (thb & Db & <-).
  specialize (Da Sm). specialize (Db (msame_smooth_on lo xs ys _ l l' S Sm)). intros i g s sa sb r j Ns Na Nb Pj.
  destruct Da as (_ & Da). destruct (Da i _ _ Ns) as (sa' & Na' & Qa). assert (sa' = sa) by congruence. subst sa'. destruct (Qa r j Pj) as (ga & Pa & Va & _).
  pose proof (same_msame _ _ S) as F2. destruct (nth_Forall2 _ _ _ F2 i _ Ns) as ([p' s'] & Ns' & (Ep & EB & EW)). cbn [fst snd] in *. subst p'.
  destruct Db as (_ & Db). destruct (Db i _ _ Ns') as (sb' & Nb' & Qb). assert (sb' = sb) by congruence. subst sb'. destruct (Qb r j Pj) as (gb & Pb & Vb & _).
  assert (Er : s' r = s r) by (pose proof (is_param_role _ _ _ Pj) as Q; destruct r; try destruct Q; auto).
  assert (Eg : gb = ga).
  { eapply partial_unique; [|exact Pa]. rewrite Er in Pb. unfold RealSpec.partial in *. apply is_derive_Reals. apply is_derive_Reals in Pb. eapply is_derive_ext; [|exact Pb]. intros v. cbv beta. apply msame_mean. now apply msame_with. }
  assert (Z0 : s' (grad_role r) j = 0).
  { assert (Z1 : exists d, nth_error l' i = Some d /\ s' = n_data d). { unfold to_model in Ns'. rewrite nth_error_map in Ns'. destruct (nth_error l' i) as [d|]; [|discriminate]. cbn in Ns'. injection Ns' as _ <-. eauto. }
    destruct Z1 as (d & Nd & ->). rewrite Forall_forall in Zr. specialize (Zr d (nth_error_In _ _ Nd)). destruct r; cbn [is_param] in Pj; try contradiction; cbn [grad_role]; [now rewrite (Zr RGradB)|now rewrite (Zr (RGradW f))]. }
  rewrite Va, Vb, Er, Eg, Z0. unfold zrange. rewrite map_length, seq_length, Z.sub_0_r, Nat2Z.id. lra.
Qed.
End Convolution.

Module Examples.
Import PropNet.Examples PropDescent.Examples PropOptTrain.Examples.
Local Open Scope R_scope.
Lemma addresses (m : mem R) l : net_at m l -> forall i r tt i' r' tt', param_tensor l i r tt -> param_tensor l i' r' tt' -> at_addr (t_data tt) = at_addr (t_data tt') -> i = i' /\ r = r'.
Proof.
  intros A i r tt i' r' tt' Q Q' E. apply param_part in Q as [_ Q]. apply param_part in Q' as [_ Q'].
  rewrite (part_ptr_of m l i r tt A Q), (part_ptr_of m l i' r' tt' A Q') in E. unfold at_addr in E. assert (Eb : block_of tt = block_of tt') by lia.
  destruct (Nat.eq_dec i i') as [->|Ne]; [destruct (role_eq_dec r r') as [->|Ne]; [auto|]|]; exfalso; refine (parts_blocks m l _ _ _ _ _ _ A Q Q' _ Eb); congruence.
Qed.
(** Two dense layers and Adam: saved, and loaded in a program with memory [m0], which then has all it
    needs (trainer, data, a new Adam). *)
Example C109_applies : exists (l : list (node R)) (m : mem R) t, let xs := fun _ : Z => xv in let ys := fun _ : Z => yv in let o := adam (1/100) (9/10) (999/1000) in
  ready m l t MSE [tx] [ty] xs ys /\ optimizer_for at_addr m l t [tx] [ty] o (fun _ _ _ => (0, 0)) /\ Forall is_dense (plans l) /\ (forall L, In (LFC L) (layers l) -> f_acc L = false) /\
  clean (to_model l) /\ smooth_on MSE (to_model l) xs ys (zrange 0 1) /\
  exists ar l' m2, save_net (layers l) m = Ok (ar, m) /\ load_net ar m0 = Ok ((layers l', []), m2) /\
    ready m2 l' (mk_trainer td (Some MSE)) MSE [tx] [ty] xs ys /\ optimizer_for at_addr m2 l' (mk_trainer td (Some MSE)) [tx] [ty] o (fun _ _ _ => (0, 0)).
Proof.
  destruct C89_C90_C91_apply as (l & m & t & Rd & Cl & _ & Dn & Sz & _ & Fr & Sm & _ & Sd). exists l, m, t. cbv zeta. pose proof Rd as (Hl & Tr & A & Ta & Da).
  split; [exact Rd|]. split; [exact (new_for at_addr m l t MSE [tx] [ty] _ _ (1/100) _ (new_adam (1/100) (9/10) (999/1000)) Rd (addresses m l A))|]. split; [exact Dn|]. split; [exact Fr|]. split; [exact Cl|]. split; [exact Sm|].
  destruct (C77_save_load m l A (dense_pooling l Dn)) as (ar & Es & H). destruct (H [] m0) as (l' & m2 & El & A' & SP & _ & P & F). rewrite app_nil_r in El. exists ar, l', m2. split; [exact Es|]. split; [exact El|].
  assert (R' : ready m2 l' (mk_trainer td (Some MSE)) MSE [tx] [ty] (fun _ : Z => xv) (fun _ : Z => yv)).
  { destruct (sample_kept m2 l' 0 16 xv P F ltac:(lia) (holds_list m0 0 xs 0 eq_refl)) as [H1 H2].
    destruct (sample_kept m2 l' 1 2 yv P F ltac:(lia) (holds_list m0 1 ys 0 eq_refl)) as [H3 H4]. destruct SP as [Ep F2].
    assert (EL : length l' = length l) by (pose proof (f_equal (@length _) Ep) as Q; unfold plans in Q; now rewrite !map_length in Q).
    destruct (Da 0%Z ltac:(cbn; lia)) as (x0 & y0 & Zx & Zy & (W & _) & _). injection Zx as <-.
    split; [now rewrite EL|]. split.
    { clear -F2 Tr. unfold layers in *. induction F2 as [|d d' l l' (Tc & _) F IH]; [constructor|]. inversion Tr; subst. constructor; [now apply Tc|now apply IH]. }
    split; [exact A'|]. split.
    - split; [reflexivity|]. split; [rewrite Ep; destruct Ta as (_ & Wb & _); cbn [tr_delta]; change (t_shape td) with (shape3 1 1 2); replace (shape3 1 1 2) with (t_shape (tr_delta t)) by exact Sd; exact Wb|].
      split. { intros Q. apply F in Q. cbn in Q. lia. }
      split; [reflexivity|]. exists 2%nat. split; [reflexivity|]. exists [None; None]. split; [|reflexivity]. rewrite (proj2 P); [reflexivity|cbn; lia|intros []].
    - intros i Hi. cbn in Hi. assert (i = 0%Z) as -> by lia. exists tx, ty. split; [reflexivity|]. split; [reflexivity|]. split; [|split].
      * split; [|split; [exact H1|exact H2]]. rewrite Ep. exact W.
      * intros b i. cbn. lia.
      * split; [exact H3|split; [exact H4|]]. intros b i. cbn. lia. }
  split; [exact R'|]. exact (new_for at_addr m2 l' _ MSE [tx] [ty] _ _ (1/100) _ (new_adam (1/100) (9/10) (999/1000)) R' (addresses m2 l' A')).
Qed.
(** two convolutions after one epoch: the hypotheses of the refutation hold, and a gradient tensor is not zero *)
Import PropNetGrad.Examples.
Example C109_refuted_applies : exists (l : list (node R)) (m : mem R) t, let xs := fun _ : Z => xv in let ys := fun _ : Z => yv in
  ready m l t MSE [tx] [ty] xs ys /\ clean (to_model l) /\ Forall not_pooling (plans l) /\ smooth_on MSE (to_model l) xs ys (zrange 0 1) /\
  exists s, nth_error (to_model l) 1 = Some (PConv g2, s) /\ is_param (PConv g2) RB 0 /\ s (grad_role RB) 0%Z <> 0.
Proof.
  destruct (C63_every_topology_builds (T := R) ps3 m0) as (N & m & E & Len & Tr & A & P & F).
  { unfold ps3. repeat apply Forall_cons; try apply Forall_nil; cbn [plan_ok]; unfold geometry_ok, g0, g2, out_h, out_w; cbn -[Z.pow]; repeat split; lia. }
  destruct (new_nodes_plans N ps3 Len) as [Ep El]. set (l := new_nodes (T := R) N ps3) in *. set (t := mk_trainer td3 (Some MSE)).
  assert (Ln : length l = 2%nat). { pose proof (f_equal (@length _) Ep) as Q. unfold plans in Q. rewrite map_length in Q. exact Q. }
  destruct (sample_kept m l 0 16 xv P F ltac:(lia) (holds_list m0 0 xs 0 eq_refl)) as [H1 H2].
  destruct (sample_kept m l 1 2 yv P F ltac:(lia) (holds_list m0 1 ys 0 eq_refl)) as [H3 H4].
  assert (Rd : ready m l t MSE [tx] [ty] (fun _ => xv) (fun _ => yv)).
  { split; [lia|]. split; [rewrite El; exact Tr|]. split; [exact A|]. split.
    - split; [reflexivity|]. split; [rewrite Ep; cbn; auto|]. split. + intros Q. apply F in Q. cbn in Q. lia.
      + split; [reflexivity|]. exists 2%nat. split; [reflexivity|]. exists [None; None]. split; [|reflexivity]. rewrite (proj2 P); [reflexivity|cbn; lia|intros []].
    - intros i Hi. cbn in Hi. assert (i = 0%Z) as -> by lia. exists tx, ty. split; [reflexivity|]. split; [reflexivity|]. split; [|split].
      * split; [|split; [exact H1|exact H2]]. rewrite Ep. cbn. auto.
      * intros b i. cbn. lia.
      * split; [exact H3|split; [exact H4|]]. intros b i. cbn. lia. }
  assert (Em : to_model l = map (fun q : plan => (q, (fun _ _ => 0) : contents R)) ps3).
  { unfold l. clear -Len. revert Len. generalize ps3. induction N as [|L N IH]; intros [|q qs] Len; try discriminate; [reflexivity|]. cbn. f_equal. apply IH. cbn in Len. lia. }
  assert (Sm : forall th : model, map fst th = ps3 -> smooth_on MSE th (fun _ => xv) (fun _ => yv) (zrange 0 1)).
  { intros th Et i _. split; [|unfold final_plan; rewrite Et; left; reflexivity]. unfold ps3 in Et. destruct th as [|[p1 s1] [|[p2 s2] [|q th]]]; cbn [map fst] in Et; [discriminate Et|discriminate Et| |discriminate Et]. assert (p1 = PConv g0) by congruence. assert (p2 = PConv g2) by congruence. subst p1 p2. cbn [smooth]. auto. }
  destruct (C90_batch_descends at_addr m l t MSE [tx] [ty] _ _ (grad_descent 1) 1 Rd eq_refl ltac:(lia) ltac:(discriminate) (clean_new _ _ Len)) as (l1 & m1 & _ & R1 & C1 & D).
  cbn [Z.to_nat Pos.to_nat Pos.iter_op repeat descends length Z.of_nat Pos.of_succ_nat] in D. destruct D as (th & D & <-).
  assert (E0 : map fst (to_model l) = ps3). { rewrite Em. reflexivity. }
  specialize (D (Sm _ E0)). destruct D as (Ef & D). rewrite E0 in Ef. exists l1, m1, t. cbv zeta.
  split; [exact R1|]. split; [exact C1|]. split; [|split].
  { assert (Ep1 : plans l1 = ps3). { rewrite <- Ef. unfold plans, to_model. now rewrite map_map. } rewrite Ep1. repeat constructor. }
  { now apply Sm. }
  destruct (D 1%nat (PConv g2) (fun _ _ => 0)) as (s & Ns & Q). { rewrite Em. reflexivity. }
  exists s. split; [exact Ns|]. assert (Pj : is_param (PConv g2) RB 0) by (cbn; lia). split; [exact Pj|]. destruct (Q RB 0%Z Pj) as (g & Pg & _ & Vg). rewrite Vg.
  assert (Eg : g = -1); [|rewrite Eg, Rmult_0_r; change (o_lr (grad_descent 1)) with 1; lra].
  eapply partial_unique; [exact Pg|]. rewrite Em. unfold RealSpec.partial. apply is_derive_Reals.
  apply (is_derive_ext (fun b => / 2 * ((1 - b) ^ 2 + (0 - 0) ^ 2))).
  - intros b. change (/ 2 * ((1 - b) ^ 2 + (0 - 0) ^ 2) = (std_loss MSE 2 yv (real_net (with_param (map (fun q : plan => (q, (fun _ _ => 0) : contents R)) ps3) 1 RB (upd (fun _ => 0) 0 b)) xv) + 0) / 1).
    set (h := real_layer (PConv g0) (fun _ _ => 0) xv).
    assert (Eo : forall j, real_net (with_param (map (fun q : plan => (q, (fun _ _ => 0) : contents R)) ps3) 1 RB (upd (fun _ => 0) 0 b)) xv j = upd (fun _ => 0) 0 b (j / 1 / 1)%Z).
    { intros j. change (correlate_at g2 (upd (fun _ => 0) 0 b) (fun _ _ => 0) h (j / 1 / 1) ((j / 1) mod 1) (j mod 1) = upd (fun _ => 0) 0 b (j / 1 / 1)%Z). unfold correlate_at.
      rewrite (rsum_all0 (g_fh g2)); [lra|]. intros i _. apply rsum_all0. intros i' _. apply rsum_all0. intros c _. lra. }
    cbn [std_loss]. rewrite (rsum_ext 2 _ (fun i => (yv i - upd (fun _ => 0) 0 b (i / 1 / 1)%Z) ^ 2)) by (intros; now rewrite Eo).
    change (rsum 2 (fun i => (yv i - upd (fun _ => 0) 0 b (i / 1 / 1)%Z) ^ 2)) with (0 + (1 - b) ^ 2 + (0 - 0) ^ 2). field.
  - auto_derive; auto. lra.
Qed.
End Examples.

Print Assumptions C109_batch_resumes.
Print Assumptions C109_mini_batch_resumes.
Print Assumptions C109_stochastic_resumes_partial.
Print Assumptions C109_convolution_resume_refuted.

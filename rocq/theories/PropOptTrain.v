(** * Properties C105, C106: training runs with every optimizer *)
From Coq Require Import QArith Reals Lra FunctionalExtensionality.
From Coquelicot Require Import Coquelicot.
From Verif Require Import Mem Scalar MemSpec MemLemmas Lique LiqueSpec LiqueProofs LiqueProofs2 Linear LinearProofs Functions FunctionSpec FunctionProofs
  Optimizer OptimizerSpec OptimizerProofs OptimizerHist PropOptimizers Layer LayerSpec FCProofs Cells ConvSpec ConvProofs ConvProofs2 PoolSpec PoolProofs RSum RealSpec ActivationProofs LossProofs NetSpec Vjp ConvVjp
  PropFunctions PropFC PropConv PropPool Net NetPlan NetProofs NetBack PropNet NetReal NetGrad PropNetGrad NetTotal Checker PropChecker Schedule PropTraining Descent DescentSpec DescentReal PropDescent
  OptTrain OptTrainSpec OptTrainReal.
Open Scope Z_scope.

(** ** names for the parameter tensors of a list of layers *)
Definition is_name (Ls : list layer) (q : nat * role) : bool := prole (snd q) && match part_of Ls (fst q) (snd q) with Some _ => true | None => false end.
Definition pname (Ls : list layer) : Type := {q : nat * role | is_name Ls q = true}.
Definition q_eq_dec (q q' : nat * role) : {q = q'} + {q <> q'}.
Proof. decide equality; [apply role_eq_dec|apply Nat.eq_dec]. Defined.
Lemma pname_eq Ls (k k' : pname Ls) : proj1_sig k = proj1_sig k' -> k = k'.
Proof. destruct k as [q H], k' as [q' H']. cbn. intros ->. f_equal. apply Eqdep_dec.UIP_dec. apply Bool.bool_dec. Qed.
#[local] Instance names_pname Ls : Names (pname Ls).
Proof.
  refine {| same := fun k k' => if q_eq_dec (proj1_sig k) (proj1_sig k') then true else false |}.
  intros k k'. destruct (q_eq_dec (proj1_sig k) (proj1_sig k')) as [E|E]; constructor; [now apply pname_eq|congruence].
Defined.
Definition nP Ls (k : pname Ls) : ptr := match part_of Ls (fst (proj1_sig k)) (snd (proj1_sig k)) with Some t => t_data t | None => Null end.
Definition nN Ls (k : pname Ls) : Z := match part_of Ls (fst (proj1_sig k)) (snd (proj1_sig k)) with Some t => t_size t | None => 0 end.
Lemma pname_params Ls : names_params (fun k : pname Ls => proj1_sig k) (nP Ls) (nN Ls) Ls.
Proof.
  split; [|split].
  - intros [[i r] H]. unfold nP, nN, is_name in *. cbn [proj1_sig fst snd] in *. destruct (prole r); [|discriminate]. destruct (part_of Ls i r) as [t|]; [|discriminate]. exists t. auto.
  - intros k k'. apply pname_eq.
  - intros i r t Pr E. assert (H : is_name Ls (i, r) = true) by (unfold is_name; cbn [fst snd]; now rewrite Pr, E). exists (exist _ (i, r) H). unfold nP, nN. cbn [proj1_sig fst snd]. now rewrite E.
Qed.
Lemma prole_spec r : prole r = true <-> match r with RB | RW _ => True | _ => False end.
Proof. destruct r; cbn; split; intros; try tauto; try discriminate; auto. Qed.

Section Total.
Context {T : Type} `{NT : Num T}.
Implicit Types (m : mem T) (l : list (node T)) (o : opt T).
Context (addr : ptr -> Z) (t : trainer) (lo : loss) (idata odata : list tensor) (xs ys : Z -> Z -> T).
Notation n := (Z.of_nat (length idata)).
Notation ready m l := (ready m l t lo idata odata xs ys).
Lemma param_part l i r tt : param_tensor l i r tt <-> prole r = true /\ part_of (layers l) i r = Some tt.
Proof.
  unfold param_tensor. rewrite prole_spec. split; intros [A B]; (split; [exact A|]).
  - destruct B as (d & E & Q). erewrite part_of_nth by exact E. exact Q.
  - apply part_of_in in B as (d & E & Q). eauto.
Qed.
Definition tabn (b : tabid) : nat := match b with TBuff => 0 | TM => 1 | TS => 2 end%nat.
Lemma kept_tab o a b : nth_error (kept o a) (tabn b) = Some (tab o b a). Proof. destruct b; reflexivity. Qed.
Lemma tab_kept o a k b : nth_error (kept o a) k = Some b -> exists c, k = tabn c /\ b = tab o c a.
Proof. destruct k as [|[|[|[|k]]]]; cbn; intros Q; try discriminate; injection Q as <-; [exists TBuff|exists TM|exists TS]; auto. Qed.
Lemma in_kept o a b : In b (kept o a) <-> exists c, b = tab o c a.
Proof.
  split.
  - intros [<-|[<-|[<-|[]]]]; [exists TBuff|exists TM|exists TS]; reflexivity.
  - intros [[] ->]; cbn; auto.
Qed.
(** the ranges in use before and whatever else is there and separate from the optimizer *)
Definition spare m l o (q : ptr) (c : Z) : Prop := room m q c /\ off_optimizer addr l o q c.
Notation L l := (layers l).
Notation fullx m0 l0 o0 := (full addr t lo idata odata xs ys (fun k : pname (L l0) => proj1_sig k) (nP (L l0)) (nN (L l0)) (L l0) (spare m0 l0 o0)).
Lemma name_param l (k : pname (L l)) : exists tt, param_tensor l (fst (proj1_sig k)) (snd (proj1_sig k)) tt /\ nP (L l) k = t_data tt /\ nN (L l) k = t_size tt.
Proof. destruct (pname_params (L l)) as (H1 & _). destruct (H1 k) as (tt & Pr & E & EP & EN). exists tt. split; [|auto]. apply param_part. auto. Qed.
Lemma param_name l i r tt : param_tensor l i r tt -> exists k : pname (L l), proj1_sig k = (i, r) /\ nP (L l) k = t_data tt /\ nN (L l) k = t_size tt.
Proof. intros Q. apply param_part in Q as [Pr E]. destruct (pname_params (L l)) as (_ & _ & H). exact (H i r tt Pr E). Qed.
Lemma off_names l o q c : off_optimizer addr l o q c <-> forall i k, disjoint q c (fst (entry addr (nP (L l)) o i k)) (nN (L l) k).
Proof.
  split.
  - intros H i k. destruct (name_param l k) as (tt & Q & EP & EN). unfold entry. rewrite EP, EN. eapply H; [exact Q|]. apply in_kept. eauto.
  - intros H i r tt b Q Hb. apply in_kept in Hb as (c' & ->). destruct (param_name l i r tt Q) as (k & _ & EP & EN). specialize (H c' k). unfold entry in H. rewrite EP, EN in H. exact H.
Qed.
Lemma live_size m b k : live m b k -> 0 <= k. Proof. intros (c & _ & <-). lia. Qed.
Lemma tensors_fine m l o x : net_at m l -> optimizer_for addr m l t idata odata o x -> tensors_ok addr (nP (L l)) (nN (L l)).
Proof.
  intros A (H1 & _). split; [|split].
  - intros k k' E. destruct (name_param l k) as (tt & Q & EP & EN). destruct (name_param l k') as (tt' & Q' & EP' & EN'). rewrite EP, EP' in E.
    apply pname_eq. destruct (H1 _ _ _ _ _ _ Q Q' E). destruct (proj1_sig k), (proj1_sig k'). cbn in *. congruence.
  - intros k k' Ne. destruct (name_param l k) as (tt & Q & EP & EN). destruct (name_param l k') as (tt' & Q' & EP' & EN'). rewrite EP, EP'. apply param_part in Q as [_ Q]. apply param_part in Q' as [_ Q'].
    eapply parts_disj; [exact A|exact Q|exact Q'|]. intros E. apply Ne, pname_eq. destruct (proj1_sig k), (proj1_sig k'). exact E.
  - intros k. destruct (name_param l k) as (tt & Q & EP & EN). rewrite EN. apply param_part in Q as [_ Q]. apply part_of_in in Q as (d & E & Q). eapply live_size, part_live; [eapply net_layer_at; eauto|exact Q].
Qed.
Lemma use_room m l q c : ready m l -> in_use l t idata odata q c -> room m q c.
Proof.
  intros (_ & _ & A & (_ & _ & _ & Ow) & Da) [(i & d & r & tt & E & Q & -> & ->)|[[-> ->]|[(x & Hx & -> & ->)|(k & y & Hk & Hy & -> & ->)]]].
  - eapply part_room; [eapply net_layer_at; eauto|exact Q].
  - destruct Ow as (_ & b & -> & Lv). now apply live_room.
  - apply In_nth_error in Hx as (k & Hk). assert (Hl : (k < length idata)%nat) by (apply nth_error_Some; congruence). destruct (Da (Z.of_nat k) ltac:(lia)) as (x' & y & Zx & _ & (_ & Hx & _) & _).
    unfold znth in Zx. destruct (Z.leb_spec 0 (Z.of_nat k)); [|lia]. rewrite Nat2Z.id in Zx. assert (x' = x) by congruence. subst. eapply holds_room; eauto.
  - destruct (Da (Z.of_nat k) ltac:(lia)) as (x' & y' & _ & Zy & _ & _ & (Hh & _)).
    unfold znth in Zy. destruct (Z.leb_spec 0 (Z.of_nat k)); [|lia]. rewrite Nat2Z.id in Zy. assert (y' = y) by congruence. subst. eapply holds_room; eauto.
Qed.
Lemma spare_reserves m l o x : ready m l -> optimizer_for addr m l t idata odata o x -> reserves t idata odata (L l) (spare m l o).
Proof.
  intros R (_ & _ & _ & H). assert (U : forall q c, in_use l t idata odata q c -> spare m l o q c) by (intros q c Q; split; [eapply use_room; eauto|now apply H]).
  split; [|split; [|split]].
  - intros i r tt E. apply part_of_in in E as (d & E & Q). apply U. left. exists i, d, r, tt. auto.
  - apply U. right. left. auto.
  - intros i y _ Z. apply U. right. right. left. exists y. split; [eapply znth_in; eauto|auto].
  - intros i y Hi Z. apply U. right. right. right. exists (Z.to_nat i), y. split; [lia|]. unfold znth in Z. destruct (0 <=? i); [auto|discriminate].
Qed.
Lemma full_start m l o x : ready m l -> optimizer_for addr m l t idata odata o x -> fullx m l o m l o x.
Proof.
  intros R H. pose proof H as (H1 & H2 & H3 & H4). split; [exact R|]. split; [intros i r; reflexivity|]. split; [|].
  - pose proof R as (_ & _ & A & _). split; [|split; [|split]].
    + intros k. destruct (name_param l k) as (tt & Q & EP & EN). rewrite EP, EN. apply param_part in Q as [_ Q]. apply part_of_in in Q as (d & E & Q). unfold ests, cont. rewrite E. cbn [e_w].
      eapply part_holds; [eapply net_layer_at; eauto|exact Q].
    + intros i k. destruct (name_param l k) as (tt & Q & EP & EN). unfold entry. rewrite EP, EN. destruct (H2 _ _ _ Q) as (B & A1 & A2). cbv zeta in B, A1, A2. rewrite Forall_forall in B.
      assert (Ac : i <> TBuff -> accumulator_is m (tab o i (addr (t_data tt))) (t_size tt) (fun j => sel i (ests (fun k0 : pname (L l) => proj1_sig k0) l x k j))).
      { intros Hi. destruct i; [congruence|exact A1|exact A2]. }
      destruct (B (tab o i (addr (t_data tt)))) as [Eb|(p & Eb & Np & Hr)]; [apply in_kept; eauto| |].
      * left. split; [exact Eb|]. intros j Hj Hi. apply (proj1 (Ac Hi)); [now rewrite Eb|exact Hj].
      * right. destruct p as [|b c]; [congruence|]. exists b, c. split; [exact Eb|]. split; [exact Hr|]. intros Hi. pose proof (proj2 (Ac Hi)) as Q2. rewrite Eb in Q2. apply Q2. discriminate.
    + intros i k i' k' Ne. destruct (name_param l k) as (tt & Q & EP & EN). destruct (name_param l k') as (tt' & Q' & EP' & EN'). unfold entry. rewrite EP, EN, EP', EN'.
      eapply H3; [exact Q|exact Q'|apply kept_tab|apply kept_tab|]. intros E. destruct (proj1_sig k) as [a b] eqn:Ek, (proj1_sig k') as [a' b'] eqn:Ek'. cbn [fst snd] in E.
      destruct Ne as [Ni|Nk]; [destruct i, i'; cbn in E; congruence|]. apply Nk, pname_eq. congruence.
    + intros i k k'. destruct (name_param l k') as (tt' & Q' & EP' & EN'). rewrite EP', EN'. apply disjoint_sym. apply (off_names l o). apply H4.
      apply param_part in Q' as [_ Q']. apply part_of_in in Q' as (d & E & Q'). left. exists (fst (proj1_sig k')), d, (snd (proj1_sig k')), tt'. auto.
  - intros q c [Q1 Q2]. split; [exact Q1|]. now apply off_names.
Qed.
Lemma same_param l0 l' : same_parts (L l0) l' -> forall i r tt, param_tensor l' i r tt <-> param_tensor l0 i r tt.
Proof. intros S i r tt. rewrite !param_part, S. reflexivity. Qed.
Lemma full_end m0 l0 o0 x0 m' l' o' x' : ready m0 l0 -> optimizer_for addr m0 l0 t idata odata o0 x0 -> fullx m0 l0 o0 m' l' o' x' ->
  ready m' l' /\ optimizer_for addr m' l' t idata odata o' x' /\ (forall q c, room m0 q c -> off_optimizer addr l0 o0 q c -> off_optimizer addr l' o' q c).
Proof.
  intros R0 H0 (R & S & (I1 & I2 & I3 & I4) & Ap). pose proof (same_param l0 l' S) as Sp.
  assert (Of : forall q c, spare m0 l0 o0 q c -> off_optimizer addr l' o' q c).
  { intros q c Q. destruct (Ap q c Q) as [_ D]. intros i r tt b Qp Hb. apply Sp in Qp. destruct (param_name l0 i r tt Qp) as (k & _ & EP & EN). apply in_kept in Hb as (c' & ->). specialize (D c' k). unfold entry in D. rewrite EP, EN in D. exact D. }
  split; [exact R|]. split; [|intros q c Q1 Q2; apply Of; split; auto].
  split; [|split; [|split]].
  - intros i r tt i' r' tt' Q Q' E. apply Sp in Q. apply Sp in Q'. destruct H0 as (H1 & _). eauto.
  - intros i r tt Q. apply Sp in Q. destruct (param_name l0 i r tt Q) as (k & Ek & EP & EN). cbv zeta.
    assert (B : forall b, entry_ok m' (tab o' b (addr (t_data tt))) (t_size tt) b (fun j => sel b (ests (fun k0 : pname (L l0) => proj1_sig k0) l' x' k j))).
    { intros b. specialize (I2 b k). unfold entry in I2. rewrite EP, EN in I2. exact I2. }
    assert (Ac : forall b, b <> TBuff -> accumulator_is m' (tab o' b (addr (t_data tt))) (t_size tt) (fun j => sel b (ests (fun k0 : pname (L l0) => proj1_sig k0) l' x' k j))).
    { intros b Hb. destruct (B b) as [[-> Q2]|(p & c & -> & Hr & Q2)]; split; cbn [fst]; intros; [auto|congruence|discriminate|auto]. }
    split; [|split].
    + apply Forall_forall. intros b Hb. apply in_kept in Hb as (c & ->). destruct (B c) as [[-> _]|(p & o1 & -> & Hr & _)]; [now left|right]. exists (Ptr p o1). split; [reflexivity|]. split; [discriminate|exact Hr].
    + pose proof (Ac TM ltac:(discriminate)) as Q1. unfold sel, ests in Q1. rewrite Ek in Q1. exact Q1.
    + pose proof (Ac TS ltac:(discriminate)) as Q1. unfold sel, ests in Q1. rewrite Ek in Q1. exact Q1.
  - intros i r tt i' r' tt' k k' b b' Q Q' E E' Ne. apply Sp in Q. apply Sp in Q'. destruct (param_name l0 i r tt Q) as (w & Ew & EP & EN). destruct (param_name l0 i' r' tt' Q') as (w' & Ew' & EP' & EN').
    apply tab_kept in E as (c & -> & ->). apply tab_kept in E' as (c' & -> & ->). rewrite <- EN, <- EN'. specialize (I3 c w c' w'). unfold entry in I3. rewrite EP, EP' in I3. apply I3.
    destruct c, c'; try (left; discriminate); right; intros ->; apply Ne; rewrite Ew in Ew'; congruence.
  - intros q c U. apply Of.
    assert (U0 : in_use l0 t idata odata q c).
    { destruct U as [(i & d & r & tt & E & Q & Q1 & Q2)|U]; [|right; exact U]. left. assert (Pt : part_of (layers l') i r = Some tt) by (erewrite part_of_nth by exact E; exact Q). rewrite S in Pt. apply part_of_in in Pt as (d0 & E0 & Pt).
      exists i, d0, r, tt. auto. }
    split; [eapply use_room; eauto|]. apply H0. exact U0.
Qed.

(** ** C105: training succeeds with every optimizer *)
Definition rounds_state l o x iss : nst := fold_left (o_round lo xs ys (o_kind o) (o_lr o)) iss (mk_nst l x (o_t1 o) (o_t2 o)).
Definition steps_state l o x is : nst := fold_left (o_step lo xs ys (o_kind o) (o_lr o)) is (mk_nst l x (o_t1 o) (o_t2 o)).
(** what is left after training: a network ready for more, an optimizer that belongs to it, the rest of memory as it was *)
Definition well_trained m l o m' l' o' x' : Prop :=
  ready m' l' /\ optimizer_for addr m' l' t idata odata o' x' /\ plans l' = plans l /\ o_kind o' = o_kind o /\ o_lr o' = o_lr o /\
  forall q c v, holds m q c v -> off_network l t q c -> off_optimizer addr l o q c -> holds m' q c v /\ off_optimizer addr l' o' q c.
Lemma start_state m l o x : ready m l -> optimizer_for addr m l t idata odata o x ->
  at_state addr t lo idata odata xs ys (fun k : pname (L l) => proj1_sig k) (nP (L l)) (nN (L l)) (L l) (spare m l o) (o_kind o) (o_lr o) m o (mk_nst l x (o_t1 o) (o_t2 o)).
Proof. intros R H. split; [now apply full_start|]. auto. Qed.
Lemma end_state m l o x m' o' st : ready m l -> optimizer_for addr m l t idata odata o x -> plans (ns_l st) = plans l ->
  at_state addr t lo idata odata xs ys (fun k : pname (L l) => proj1_sig k) (nP (L l)) (nN (L l)) (L l) (spare m l o) (o_kind o) (o_lr o) m' o' st ->
  frame t (L l) (spare m l o) m m' -> well_trained m l o m' (ns_l st) o' (ns_x st).
Proof.
  intros R H Pl (F & K & El & _) G. destruct (full_end _ _ _ _ _ _ _ _ R H F) as (R' & H' & Of). split; [exact R'|]. split; [exact H'|]. split; [exact Pl|]. split; [exact K|]. split; [exact El|].
  intros q c v Hh On Oo. assert (Rm : room m q c) by (eapply holds_room; eauto). split; [|now apply Of]. apply G; [split; auto| |exact Hh].
  intros b i Q M. apply (On b i Q). destruct M as [M|M]; [left|right; exact M]. apply (parts_block (L l) l b); [intros i' r; reflexivity|exact M].
Qed.
Lemma rounds_well m l o x iss : ready m l -> optimizer_for addr m l t idata odata o x -> Forall (Forall (valid idata)) iss ->
  exists o' m', Schedule.run addr t idata odata (flat_map round iss) (L l, o) m = Ok ((L (ns_l (rounds_state l o x iss)), o'), m') /\
    well_trained m l o m' (ns_l (rounds_state l o x iss)) o' (ns_x (rounds_state l o x iss)).
Proof.
  intros R H V. pose proof R as (_ & _ & A & _).
  destruct (rounds_event addr t lo idata odata xs ys _ _ _ _ (pname_params (L l)) (tensors_fine m l o x A H) _ (spare_reserves m l o x R H) (o_kind o) (o_lr o) iss m o _ (start_state m l o x R H) V) as (o' & m' & E & S & G).
  exists o', m'. split; [exact E|]. eapply end_state; eauto. unfold rounds_state. now rewrite rounds_same_plans.
Qed.
Lemma steps_well m l o x is : ready m l -> optimizer_for addr m l t idata odata o x -> Forall (valid idata) is ->
  exists o' m', Schedule.run addr t idata odata (flat_map step_on is) (L l, o) m = Ok ((L l, o'), m') /\ L (ns_l (steps_state l o x is)) = L l /\
    well_trained m l o m' (ns_l (steps_state l o x is)) o' (ns_x (steps_state l o x is)).
Proof.
  intros R H V. pose proof R as (_ & _ & A & _).
  destruct (steps_event addr t lo idata odata xs ys _ _ _ _ (pname_params (L l)) (tensors_fine m l o x A H) _ (spare_reserves m l o x R H) (o_kind o) (o_lr o) is m o _ (start_state m l o x R H) V) as (o' & m' & E & S & G).
  destruct (steps_same_plans lo xs ys (o_kind o) (o_lr o) is (mk_nst l x (o_t1 o) (o_t2 o))) as [P1 P2]. exists o', m'. rewrite P2 in E. split; [exact E|]. split; [exact P2|]. eapply end_state; eauto.
Qed.
Lemma batch_any m l o x E : ready m l -> optimizer_for addr m l t idata odata o x -> 0 <= E ->
  exists o' m', let st := rounds_state l o x (batches idata E) in
    tr_batch addr (L l) t idata odata o E m = Ok ((L (ns_l st), o'), m') /\ well_trained m l o m' (ns_l st) o' (ns_x st).
Proof.
  intros R H HE. destruct (rounds_well m l o x (batches idata E) R H (batches_valid idata E)) as (o' & m' & Q & W). exists o', m'. cbv zeta. split; [|exact W].
  rewrite C67_batch_schedule by auto. rewrite <- Q. f_equal. unfold batch_schedule, batches. clear. induction (Z.to_nat E) as [|k IH]; [reflexivity|]. cbn [repeat concat flat_map]. now rewrite IH.
Qed.
Lemma mini_any m l o x E b : ready m l -> optimizer_for addr m l t idata odata o x -> 0 <= E -> 0 < b -> n < 2 ^ 64 ->
  exists o' m', let st := rounds_state l o x (mini_batches idata b E) in
    tr_mini_batch addr (L l) t idata odata o E b m = Ok ((L (ns_l st), o'), m') /\ well_trained m l o m' (ns_l st) o' (ns_x st).
Proof.
  intros R H HE Hb Hn. destruct (rounds_well m l o x (mini_batches idata b E) R H (mini_valid idata b E Hb)) as (o' & m' & Q & W). exists o', m'. cbv zeta. split; [|exact W].
  rewrite C68_mini_batch_schedule by auto. rewrite <- Q. f_equal. unfold mini_batch_schedule, mini_batches. clear. induction (Z.to_nat E) as [|k IH]; [reflexivity|]. cbn [repeat concat flat_map].
  rewrite flat_map_app, <- IH. f_equal. clear. induction (zrange 0 (n / b)) as [|k ks IH]; [reflexivity|]. cbn [map flat_map]. now rewrite IH.
Qed.
Lemma stochastic_any m l o x S g : ready m l -> optimizer_for addr m l t idata odata o x -> 0 <= S -> idata <> [] -> (forall i, 0 <= g i < 2 ^ 64) ->
  exists o' m', let st := steps_state l o x (chosen idata S g) in
    tr_stochastic addr (L l) t idata odata o S g m = Ok (o', m') /\ L (ns_l st) = L l /\ well_trained m l o m' (ns_l st) o' (ns_x st).
Proof.
  intros R H HS Hn Hg. assert (V : Forall (valid idata) (chosen idata S g)).
  { apply Forall_forall. intros i Hi. apply in_map_iff in Hi as (k & <- & _). apply Z.mod_pos_bound. destruct idata; [congruence|cbn; lia]. }
  destruct (steps_well m l o x (chosen idata S g) R H V) as (o' & m' & Q & El & W). exists o', m'. cbv zeta. split; [|split; [exact El|exact W]].
  pose proof (C69_stochastic_schedule addr t idata odata (L l) o S g m HS Hn Hg) as Q0. unfold stochastic_schedule in Q0.
  replace (flat_map (fun i => step_on (g i mod n)) (zrange 0 S)) with (flat_map (step_on (T := T)) (chosen idata S g)) in Q0.
  - pose proof (eq_trans Q0 Q) as Q1. clear Q0 Q. unfold bind, ret in Q1. destruct (tr_stochastic addr (L l) t idata odata o S g m) as [[o1 m1]|e]; [|discriminate]. injection Q1 as <- <-. reflexivity.
  - unfold chosen. clear. induction (zrange 0 S) as [|k ks IH]; [reflexivity|]. cbn [map flat_map]. now rewrite IH.
Qed.
(** Every network of dense, convolution and pooling layers, every optimizer class, number type, batch
    size and number of epochs: training succeeds, reads and writes nothing but the network, the
    trainer, the data and the optimizer's own buffers, and leaves everything ready for the next call. *)
Theorem C105_batch_any_optimizer m l o x E : ready m l -> optimizer_for addr m l t idata odata o x -> 0 <= E ->
  exists l' o' m' x', tr_batch addr (layers l) t idata odata o E m = Ok ((layers l', o'), m') /\ well_trained m l o m' l' o' x'.
Proof. intros R H HE. destruct (batch_any m l o x E R H HE) as (o' & m' & Q). cbv zeta in Q. eexists _, o', m', _. exact Q. Qed.
Theorem C105_mini_batch_any_optimizer m l o x E b : ready m l -> optimizer_for addr m l t idata odata o x -> 0 <= E -> 0 < b -> n < 2 ^ 64 ->
  exists l' o' m' x', tr_mini_batch addr (layers l) t idata odata o E b m = Ok ((layers l', o'), m') /\ well_trained m l o m' l' o' x'.
Proof. intros R H HE Hb Hn. destruct (mini_any m l o x E b R H HE Hb Hn) as (o' & m' & Q). cbv zeta in Q. eexists _, o', m', _. exact Q. Qed.
Theorem C105_stochastic_any_optimizer m l o x S g : ready m l -> optimizer_for addr m l t idata odata o x -> 0 <= S -> idata <> [] -> (forall i, 0 <= g i < 2 ^ 64) ->
  exists l' o' m' x', tr_stochastic addr (layers l) t idata odata o S g m = Ok (o', m') /\ layers l' = layers l /\ well_trained m l o m' l' o' x'.
Proof. intros R H HS Hn Hg. destruct (stochastic_any m l o x S g R H HS Hn Hg) as (o' & m' & Q). cbv zeta in Q. eexists _, o', m', _. exact Q. Qed.
(** The condition on the optimizer holds for every optimizer that has not seen these tensors, in
    particular a new one: all that is needed is that different tensors have different addresses. *)
Theorem C105_new_optimizer m l o : ready m l ->
  (forall i r tt i' r' tt', param_tensor l i r tt -> param_tensor l i' r' tt' -> addr (t_data tt) = addr (t_data tt') -> i = i' /\ r = r') ->
  (forall i r tt, param_tensor l i r tt -> Forall (fun b => b = (Null, 0)) (kept o (addr (t_data tt)))) ->
  optimizer_for addr m l t idata odata o (fun _ _ _ => (zero, zero)).
Proof.
  intros R Ad Fr.
  assert (K : forall i r tt b, param_tensor l i r tt -> In b (kept o (addr (t_data tt))) -> b = (Null, 0)).
  { intros i r tt b Q Hb. specialize (Fr i r tt Q). rewrite Forall_forall in Fr. now apply Fr. }
  assert (Dn : forall q c k, disjoint q c Null k). { intros q c k b i _ Q. exact Q. }
  split; [exact Ad|]. split; [|split].
  - intros i r tt Q a. split; [|split].
    + eapply Forall_impl; [|exact (Fr i r tt Q)]. intros b ->. now left.
    + split; [reflexivity|]. intros Ne. exfalso. apply Ne. rewrite (K i r tt (o_m o a) Q); [reflexivity|cbn; auto].
    + split; [reflexivity|]. intros Ne. exfalso. apply Ne. rewrite (K i r tt (o_s o a) Q); [reflexivity|cbn; auto].
  - intros i r tt i' r' tt' k k' b b' Q Q' E E' _. rewrite (K i' r' tt' b' Q' (nth_error_In _ _ E')). apply Dn.
  - intros q c _ i r tt b Q Hb. rewrite (K i r tt b Q Hb). apply Dn.
Qed.
End Total.

(** ** C106: training follows the optimizer's rule on the gradients of the mean loss *)
Section Real.
Local Open Scope R_scope.
Context (addr : ptr -> Z) (m : mem R) (l : list (node R)) (t : trainer) (lo : loss) (idata odata : list tensor) (xs ys : Z -> Z -> R) (lr : R) (o : opt R).
Notation n := (Z.of_nat (length idata)).
Notation well_trained := (well_trained addr t lo idata odata xs ys m l o).
(** A new optimizer, a network ready for training whose parameter tensors have different addresses. *)
Context (Ho : OptTrainSpec.new_optimizer lr o) (Rd : ready m l t lo idata odata xs ys) (Cl : clean (to_model l))
  (Ad : forall i r tt i' r' tt', param_tensor l i r tt -> param_tensor l i' r' tt' -> addr (t_data tt) = addr (t_data tt') -> i = i' /\ r = r').
Lemma new_kept : forall a, kept o a = [(Null, 0%Z); (Null, 0%Z); (Null, 0%Z)]. Proof. destruct Ho; reflexivity. Qed.
Lemma new_rate : o_lr o = lr /\ o_t1 o = 1 /\ o_t2 o = 1. Proof. destruct Ho; repeat split. Qed.
Lemma new_for : optimizer_for addr m l t idata odata o (fun _ _ _ => (0, 0)).
Proof. refine (C105_new_optimizer addr t lo idata odata xs ys m l o Rd Ad _). intros i r tt _. rewrite new_kept. repeat constructor. Qed.
Lemma rounds_trained iss : Forall (fun is : list Z => is <> []) iss -> idata <> [] ->
  let l' := ns_l (rounds_state lo xs ys l o (fun _ _ _ => (0, 0)) iss) in clean (to_model l') /\ trained_by o lo xs ys iss (to_model l) (to_model l').
Proof.
  intros Ne Hn l'. pose proof (ready_sound m l t lo idata odata xs ys Rd Cl) as S. destruct (ready_wired m l t lo idata odata xs ys Rd Hn) as [s0 W]. destruct new_rate as (E1 & E2 & E3).
  unfold l', rounds_state. rewrite E2, E3. split.
  - apply sound_clean. clear l'. assert (G : forall st, Forall sound (ns_l st) -> wired s0 (plans (ns_l st)) -> Forall sound (ns_l (fold_left (o_round lo xs ys (o_kind o) (o_lr o)) iss st))).
    { clear -Ne. induction Ne as [|is iss Hi Ne IH]; intros st S W; [exact S|]. cbn [fold_left]. destruct (round_moved lo xs ys (o_kind o) (o_lr o) is st s0 Hi S W) as (M & S' & _). apply IH; [exact S'|]. destruct M as (-> & _). exact W. }
    apply G; auto.
  - apply (run_trained lo xs ys (o_kind o) (o_lr o) o (o_round lo xs ys (o_kind o) (o_lr o)) (fun is => G_round lo xs ys is) (Forall sound) s0 l iss); auto.
    + exact (rule_fold lr o Ho).
    + intros st is Hi S' W'. rewrite Forall_forall in Ne. exact (round_moved lo xs ys (o_kind o) (o_lr o) is st s0 (Ne is Hi) S' W').
Qed.
Lemma batches_ne E : idata <> [] -> Forall (fun is : list Z => is <> []) (batches idata E).
Proof. intros Hn. apply Forall_forall. intros is Hi. apply repeat_spec in Hi as ->. apply zrange_ne. destruct idata; [congruence|cbn; lia]. Qed.
Lemma mini_ne b E : (0 < b)%Z -> Forall (fun is : list Z => is <> []) (mini_batches idata b E).
Proof. intros Hb. apply Forall_forall. intros is Hi. apply in_concat in Hi as (l' & Hl & Hi). apply repeat_spec in Hl as ->. apply in_map_iff in Hi as (k & <- & Hk). apply zrange_ne. lia. Qed.
(** Batch training for [E] epochs: [E] updates on all the samples.  ([trained_by] in OptTrainSpec.v.) *)
Theorem C106_batch_follows_rule E : (0 <= E)%Z -> idata <> [] ->
  exists l' o' m' x', tr_batch addr (layers l) t idata odata o E m = Ok ((layers l', o'), m') /\ well_trained m' l' o' x' /\ clean (to_model l') /\
    trained_by o lo xs ys (repeat (zrange 0 n) (Z.to_nat E)) (to_model l) (to_model l').
Proof.
  intros HE Hn. destruct (batch_any addr t lo idata odata xs ys m l o _ E Rd new_for HE) as (o' & m' & R1 & R2). destruct (rounds_trained (batches idata E) (batches_ne E Hn) Hn) as [C T].
  eexists _, o', m', _. split; [exact R1|]. split; [exact R2|]. split; [exact C|exact T].
Qed.
(** Mini-batches of [b]: an update per mini-batch, in order, [E] times over. *)
Theorem C106_mini_batch_follows_rule E b : (0 <= E)%Z -> (0 < b)%Z -> (0 < n < 2 ^ 64)%Z ->
  exists l' o' m' x', tr_mini_batch addr (layers l) t idata odata o E b m = Ok ((layers l', o'), m') /\ well_trained m' l' o' x' /\ clean (to_model l') /\
    trained_by o lo xs ys (concat (repeat (map (fun k => zrange (k * b) (k * b + b)) (zrange 0 (n / b))) (Z.to_nat E))) (to_model l) (to_model l').
Proof.
  intros HE Hb Hn. destruct (mini_any addr t lo idata odata xs ys m l o _ E b Rd new_for HE Hb ltac:(lia)) as (o' & m' & R1 & R2).
  destruct (rounds_trained (mini_batches idata b E) (mini_ne b E Hb)) as [C T]. { intros Q. rewrite Q in Hn. cbn in Hn. lia. }
  eexists _, o', m', _. split; [exact R1|]. split; [exact R2|]. split; [exact C|exact T].
Qed.
(** Stochastic training: an update per sample drawn - as long as no dense layer has accumulated
    gradients since it was created or reset (as in C90). *)
Theorem C106_stochastic_follows_rule_partial S g : (0 <= S)%Z -> idata <> [] -> (forall i, (0 <= g i < 2 ^ 64)%Z) -> (forall L, In (LFC L) (layers l) -> f_acc L = false) ->
  exists l' o' m' x', tr_stochastic addr (layers l) t idata odata o S g m = Ok (o', m') /\ layers l' = layers l /\ well_trained m' l' o' x' /\ clean (to_model l') /\
    trained_by o lo xs ys (map (fun i => [(g i mod n)%Z]) (zrange 0 S)) (to_model l) (to_model l').
Proof.
  intros HS Hn Hg U. destruct (stochastic_any addr t lo idata odata xs ys m l o _ S g Rd new_for HS Hn Hg) as (o' & m' & R1 & R2 & R3).
  eexists _, o', m', _. split; [exact R1|]. split; [exact R2|]. split; [exact R3|].
  pose proof (ready_sound m l t lo idata odata xs ys Rd Cl) as Sd. destruct (ready_wired m l t lo idata odata xs ys Rd Hn) as [s0 W]. destruct new_rate as (E1 & E2 & E3).
  assert (Uf : Forall unflagged l).
  { apply Forall_forall. intros d Hd. unfold unflagged. destruct (n_layer d) as [L|L|L|L|L|L] eqn:EL; auto. apply U. rewrite <- EL. now apply in_map. }
  unfold steps_state. rewrite E2, E3. set (f := fun (st : nst (T := R)) (is : list Z) => o_step lo xs ys (o_kind o) (o_lr o) st (hd 0%Z is)).
  assert (Ef : forall is st, fold_left (o_step lo xs ys (o_kind o) (o_lr o)) is st = fold_left f (map (fun i => [i]) is) st).
  { induction is as [|i is IH]; intros st; [reflexivity|]. cbn [map fold_left]. unfold f at 2. cbn [hd]. apply IH. }
  split.
  - apply sound_clean. generalize (chosen idata S g). intros is.
    assert (G : forall st, Forall sound (ns_l st) -> Forall unflagged (ns_l st) -> wired s0 (plans (ns_l st)) -> Forall sound (ns_l (fold_left (o_step lo xs ys (o_kind o) (o_lr o)) is st))).
    { induction is as [|i is IH]; intros st A1 A2 A3; [exact A1|]. cbn [fold_left]. destruct (step_moved lo xs ys (o_kind o) (o_lr o) i st s0 A1 A2 A3) as (M & (S1 & S2) & _). apply IH; auto. destruct M as (-> & _). exact A3. }
    apply G; auto.
  - replace (map (fun i : Z => [(g i mod n)%Z]) (zrange 0 S)) with (map (fun i => [i]) (chosen idata S g)) by (unfold chosen; now rewrite map_map). rewrite Ef.
    apply (run_trained lo xs ys (o_kind o) (o_lr o) o f (fun is => G_step lo xs ys (hd 0%Z is)) (fun l => Forall sound l /\ Forall unflagged l) s0 l); auto.
    + exact (rule_fold lr o Ho).
    + intros st is Hi [A1 A2] A3. apply in_map_iff in Hi as (i & <- & _). exact (step_moved lo xs ys (o_kind o) (o_lr o) i st s0 A1 A2 A3).
Qed.
End Real.

Module Examples.
Import PropNet.Examples PropDescent.Examples.
Local Open Scope R_scope.
(** machine addresses: block number and offset *)
Definition at_addr (p : ptr) : Z := match p with Null => 0%Z | Ptr b i => (2 ^ 40 * Z.of_nat b + i + 1)%Z end.
(** two dense layers just built, Adam: ready, and a run of three epochs *)
Example C105_C106_apply : exists (l : list (node R)) (m : mem R) t, let xs := fun _ : Z => xv in let ys := fun _ : Z => yv in let o := adam (1/100) (9/10) (999/1000) in
  ready m l t MSE [tx] [ty] xs ys /\ t_size ty = t_size (tr_delta t) /\ clean (to_model l) /\ (forall L, In (LFC L) (layers l) -> f_acc L = false) /\ OptTrainSpec.new_optimizer (1/100) o /\
  (forall i r tt i' r' tt', param_tensor l i r tt -> param_tensor l i' r' tt' -> at_addr (t_data tt) = at_addr (t_data tt') -> i = i' /\ r = r') /\
  optimizer_for at_addr m l t [tx] [ty] o (fun _ _ _ => (0, 0)) /\
  exists l' o' m', tr_batch at_addr (layers l) t [tx] [ty] o 3 m = Ok ((layers l', o'), m') /\
    trained_by o MSE xs ys [zrange 0 1; zrange 0 1; zrange 0 1] (to_model l) (to_model l').
Proof.
  destruct C89_C90_C91_apply as (l & m & t & Rd & Cl & _ & _ & Sz & _ & Fr & _). exists l, m, t. cbv zeta.
  assert (Ad : forall i r tt i' r' tt', param_tensor l i r tt -> param_tensor l i' r' tt' -> at_addr (t_data tt) = at_addr (t_data tt') -> i = i' /\ r = r').
  { intros i r tt i' r' tt' Q Q' E. pose proof Rd as (_ & _ & A & _). apply param_part in Q as [_ Q]. apply param_part in Q' as [_ Q'].
    rewrite (part_ptr_of m l i r tt A Q), (part_ptr_of m l i' r' tt' A Q') in E. unfold at_addr in E. assert (Eb : block_of tt = block_of tt') by lia.
    destruct (Nat.eq_dec i i') as [->|Ne]; [destruct (role_eq_dec r r') as [->|Ne]; [auto|]|]; exfalso; refine (parts_blocks m l _ _ _ _ _ _ A Q Q' _ Eb); congruence. }
  assert (No : OptTrainSpec.new_optimizer (1/100) (adam (1/100) (9/10) (999/1000))) by constructor.
  split; [exact Rd|]. split; [now inversion Sz|]. split; [exact Cl|]. split; [exact Fr|]. split; [exact No|]. split; [exact Ad|]. split; [exact (new_for at_addr m l t MSE [tx] [ty] _ _ _ _ No Rd Ad)|].
  destruct (C106_batch_follows_rule at_addr m l t MSE [tx] [ty] _ _ _ _ No Rd Cl Ad 3 ltac:(lia) ltac:(discriminate)) as (l' & o' & m' & x' & E & _ & _ & T). exists l', o', m'. split; [exact E|exact T].
Qed.
End Examples.

Print Assumptions C105_batch_any_optimizer.
Print Assumptions C105_mini_batch_any_optimizer.
Print Assumptions C105_stochastic_any_optimizer.
Print Assumptions C105_new_optimizer.
Print Assumptions C106_batch_follows_rule.
Print Assumptions C106_mini_batch_follows_rule.
Print Assumptions C106_stochastic_follows_rule_partial.

(** * Property C108: in exact arithmetic the order of the samples in a batch does not matter *)
From Coq Require Import Reals Lra FunctionalExtensionality Permutation.
From Verif Require Import Mem Scalar MemSpec MemLemmas Lique LiqueSpec LiqueProofs LiqueProofs2 Linear LinearProofs Functions FunctionSpec FunctionProofs
  Skel Bufs Optimizer OptimizerSpec OptimizerProofs OptimizerHist Layer LayerSpec FCProofs Cells ConvSpec ConvProofs ConvProofs2 PoolSpec PoolProofs PropFC PropConv PropPool
  Net NetPlan NetProofs NetBack PropNet NetReal Schedule PropTraining Descent DescentSpec DescentReal PropDescent OptTrain OptTrainSpec OptTrainReal PropOptTrain Order.
Open Scope Z_scope.
#[local] Existing Instance names_pname.

(** ** the contents of a tensor *)
Definition val (m : mem R) (t : tensor) (i : Z) : R := match elem m (t_data t) i with Some (Some v) => v | _ => 0%R end.
Lemma val_holds m t n v : holds m (t_data t) n v -> holds m (t_data t) n (val m t).
Proof. intros H i Hi. unfold val. now rewrite (H i Hi). Qed.
Lemma znth_map' {A B} (f : A -> B) (D : list A) i x : znth D i = Some x -> znth (map f D) i = Some (f x).
Proof. unfold znth. destruct (0 <=? i); [|discriminate]. intros E. now rewrite nth_error_map, E. Qed.
Lemma znth_unmap {A B} (f : A -> B) (D : list A) i y : znth (map f D) i = Some y -> exists x, znth D i = Some x /\ y = f x.
Proof. unfold znth. destruct (0 <=? i); [|discriminate]. rewrite nth_error_map. destruct (nth_error D (Z.to_nat i)) as [x|]; cbn; [|discriminate]. intros E. injection E as <-. eauto. Qed.

Section Order.
Context (addr : ptr -> Z) (t : trainer) (lo : loss).
Implicit Types (m : mem R) (l : list (node R)) (o : opt R) (D : list (tensor * tensor)).
(** a data set as pairs of sample and target *)
Notation inputs D := (map fst D).
Notation targets D := (map snd D).
Definition pairs_of m D : list ((Z -> R) * (Z -> R)) := map (fun q => (val m (fst q), val m (snd q))) D.
Definition nullp : tensor * tensor := (mk_tensor Null (shape3 0 0 0), mk_tensor Null (shape3 0 0 0)).
Definition vx m D (i : Z) : Z -> R := val m (fst (nth (Z.to_nat i) D nullp)).
Definition vy m D (i : Z) : Z -> R := val m (snd (nth (Z.to_nat i) D nullp)).
(** one sample with its target is as it should be *)
Definition good m l (q : tensor * tensor) : Prop :=
  (exists v, sample_at m l (fst q) v) /\ disjoint (t_data (tr_delta t)) (t_size (tr_delta t)) (t_data (fst q)) (t_size (fst q)) /\ exists w, target_at m l t (snd q) w.
Lemma ready_good m l D xs ys : ready m l t lo (inputs D) (targets D) xs ys -> forall q, In q D -> good m l q.
Proof.
  intros (_ & _ & _ & _ & Da) q Hq. apply In_nth_error in Hq as (k & Hk). assert (Hl : (k < length D)%nat) by (apply nth_error_Some; congruence).
  destruct (Da (Z.of_nat k)) as (x & y & Zx & Zy & A & B & C). { rewrite map_length. lia. }
  unfold znth in Zx, Zy. destruct (Z.leb_spec 0 (Z.of_nat k)); [|lia]. rewrite Nat2Z.id, nth_error_map, Hk in Zx, Zy. cbn in Zx, Zy. injection Zx as <-. injection Zy as <-.
  split; [eauto|]. split; [exact B|eauto].
Qed.
Lemma good_ready m l D xs ys D' : ready m l t lo (inputs D) (targets D) xs ys -> (forall q, In q D' -> In q D) -> ready m l t lo (inputs D') (targets D') (vx m D') (vy m D').
Proof.
  intros R Sub. pose proof (ready_good m l D xs ys R) as G. destruct R as (A1 & A2 & A3 & A4 & _). split; [exact A1|]. split; [exact A2|]. split; [exact A3|]. split; [exact A4|].
  intros i Hi. rewrite map_length in Hi. destruct (nth_error D' (Z.to_nat i)) as [q|] eqn:E; [|apply nth_error_None in E; lia].
  exists (fst q), (snd q). assert (Z : znth D' i = Some q). { unfold znth. destruct (Z.leb_spec 0 i); [exact E|lia]. }
  split; [now apply znth_map'|]. split; [now apply znth_map'|]. destruct (G q) as ((v & S1 & S2 & S3) & Dj & (w & W1 & W2 & W3)). { apply Sub. eapply nth_error_In; eauto. }
  unfold vx, vy. rewrite (nth_error_nth _ _ nullp E). split; [|split; [exact Dj|]].
  - split; [exact S1|]. split; [eapply val_holds; exact S2|exact S3].
  - split; [eapply val_holds; exact W1|]. auto.
Qed.
Lemma optimizer_for_data m l D D' o x : optimizer_for addr m l t (inputs D) (targets D) o x -> (forall q, In q D' -> In q D) -> optimizer_for addr m l t (inputs D') (targets D') o x.
Proof.
  intros (H1 & H2 & H3 & H4) Sub. split; [exact H1|]. split; [exact H2|]. split; [exact H3|]. intros q c U. apply H4.
  destruct U as [U|[U|[(z & Hz & Q)|(k & y & Hk & Hy & Q)]]]; [left; exact U|right; left; exact U| |]; right; right.
  - left. exists z. split; [|exact Q]. apply in_map_iff in Hz as (p & <- & Hp). apply in_map, Sub, Hp.
  - right. rewrite nth_error_map in Hy. destruct (nth_error D' k) as [p|] eqn:E; cbn in Hy; [|discriminate]. injection Hy as <-.
    apply nth_error_In, Sub, In_nth_error in E as (k' & E'). exists k', (snd p). rewrite nth_error_map, E', map_length. split; [apply nth_error_Some; congruence|auto].
Qed.
(** the values of samples [a], [a+1], ... *)
Lemma vals_part m D a b : 0 <= a -> a + b <= Z.of_nat (length D) -> 0 <= b ->
  map (fun i => (vx m D i, vy m D i)) (zrange a (a + b)) = pairs_of m (firstn (Z.to_nat b) (skipn (Z.to_nat a) D)).
Proof.
  intros Ha Hab Hb. unfold zrange, pairs_of. rewrite map_map. replace (Z.to_nat (a + b - a)) with (Z.to_nat b) by lia.
  apply nth_error_ext; [rewrite !map_length, seq_length, firstn_length, skipn_length; lia|]. intros k. rewrite !nth_error_map. destruct (Nat.lt_ge_cases k (Z.to_nat b)) as [Hk|Hk].
  - rewrite (nth_error_nth' (seq 0 (Z.to_nat b)) 0%nat) by (rewrite seq_length; lia). rewrite seq_nth by lia. cbn [option_map Nat.add].
    rewrite (nth_error_nth' (firstn (Z.to_nat b) (skipn (Z.to_nat a) D)) nullp) by (rewrite firstn_length, skipn_length; lia). cbn [option_map].
    unfold vx, vy. replace (Z.to_nat (a + Z.of_nat k)) with (Z.to_nat a + k)%nat by lia.
    assert (E : nth k (firstn (Z.to_nat b) (skipn (Z.to_nat a) D)) nullp = nth (Z.to_nat a + k) D nullp).
    { rewrite <- (firstn_skipn (Z.to_nat a) D) at 2.  rewrite <- (firstn_skipn (Z.to_nat b) (skipn (Z.to_nat a) D)) at 2.
      rewrite app_nth2 by (rewrite firstn_length; lia). rewrite firstn_length. replace (Z.to_nat a + k - Nat.min (Z.to_nat a) (length D))%nat with k by lia.
      rewrite app_nth1; [reflexivity|]. rewrite firstn_length, skipn_length. lia. }
    now rewrite E.
  - rewrite (proj2 (nth_error_None (seq 0 (Z.to_nat b)) k)) by (rewrite seq_length; lia). rewrite (proj2 (nth_error_None (firstn (Z.to_nat b) (skipn (Z.to_nat a) D)) k)) by (rewrite firstn_length; lia). reflexivity.
Qed.
(** no max pooling *)
Definition dense_or_conv (p : plan) : Prop := match p with PPool _ _ => False | _ => True end.
Lemma ready_proper m l idata odata xs ys : ready m l t lo idata odata xs ys -> Forall dense_or_conv (plans l) -> Forall proper l.
Proof.
  intros (_ & Tr & (F & _) & _) Np. apply Forall_forall. intros d Hd. rewrite Forall_forall in F, Np, Tr. pose proof (F d Hd) as [Fi _]. specialize (Np (n_plan d) (in_map _ _ _ Hd)). specialize (Tr (n_layer d) (in_map _ _ _ Hd)).
  unfold proper. destruct (n_plan d), (n_layer d); cbn in *; try contradiction; auto. apply Fi.
Qed.
(** what two training runs have in common *)
Definition same_result l (r1 r2 : list (node R) * opt R * mem R) : Prop :=
  let '(l1, o1, m1) := r1 in let '(l2, o2, m2) := r2 in
  layers l1 = layers l2 /\ plans l1 = plans l2 /\
  (forall i r tt, param_tensor l i r tt -> exists v, holds m1 (t_data tt) (t_size tt) v /\ holds m2 (t_data tt) (t_size tt) v) /\
  (o_kind o1, o_lr o1, o_t1 o1, o_t2 o1) = (o_kind o2, o_lr o2, o_t1 o2, o_t2 o2).
Lemma core_nth l l' : Forall2 core l l' -> forall i d d', nth_error l i = Some d -> nth_error l' i = Some d' -> core d d'.
Proof. induction 1 as [|a b la lb H F IH]; intros [|i] d d' E E'; cbn in *; try discriminate; [congruence|eauto]. Qed.
Definition final l o x xs ys iss : nst := rounds_state lo xs ys l o x iss.
Lemma two_runs m l o x D D' xs ys iss iss' :
  ready m l t lo (inputs D) (targets D) xs ys -> Forall dense_or_conv (plans l) -> optimizer_for addr m l t (inputs D) (targets D) o x ->
  (forall q, In q D' <-> In q D) -> Forall (Forall (valid (inputs D))) iss -> Forall (Forall (valid (inputs D'))) iss' ->
  Forall2 (fun is is' => is <> [] /\ Permutation (map (fun i => (vx m D i, vy m D i)) is) (map (fun i => (vx m D' i, vy m D' i)) is')) iss iss' ->
  exists l1 o1 m1 l2 o2 m2 x',
    Schedule.run addr t (inputs D) (targets D) (flat_map round iss) (layers l, o) m = Ok ((layers l1, o1), m1) /\
    Schedule.run addr t (inputs D') (targets D') (flat_map round iss') (layers l, o) m = Ok ((layers l2, o2), m2) /\
    same_result l (l1, o1, m1) (l2, o2, m2) /\
    optimizer_for addr m1 l1 t (inputs D) (targets D) o1 x' /\ optimizer_for addr m2 l2 t (inputs D') (targets D') o2 x'.
Proof.
  intros Rd Np Of Sub V V' Pm. assert (S1 : forall q, In q D' -> In q D) by (intros; now apply Sub). assert (S2 : forall q, In q D -> In q D) by auto.
  pose proof (good_ready m l D xs ys D Rd S2) as R1. pose proof (good_ready m l D xs ys D' Rd S1) as R2.
  pose proof (optimizer_for_data m l D D' o x Of S1) as Of2. pose proof (ready_proper m l _ _ _ _ R1 Np) as P.
  pose proof R1 as (_ & _ & A & _).
  destruct (rounds_event addr t lo _ _ _ _ _ _ _ _ (pname_params (layers l)) (tensors_fine addr t _ _ m l o x A Of) _ (spare_reserves addr t lo _ _ _ _ m l o x R1 Of) (o_kind o) (o_lr o) iss m o _ (start_state addr t lo _ _ _ _ m l o x R1 Of) V) as (o1 & m1 & E1 & St1 & G1).
  destruct (rounds_event addr t lo _ _ _ _ _ _ _ _ (pname_params (layers l)) (tensors_fine addr t _ _ m l o x A Of2) _ (spare_reserves addr t lo _ _ _ _ m l o x R2 Of2) (o_kind o) (o_lr o) iss' m o _ (start_state addr t lo _ _ _ _ m l o x R2 Of2) V') as (o2 & m2 & E2 & St2 & G2).
  set (st0 := mk_nst l x (o_t1 o) (o_t2 o)) in *.
  pose proof (rounds_same lo (o_kind o) (o_lr o) _ _ _ _ iss iss' Pm st0 st0 P P (same_nst_refl st0)) as (C & Ex & Ea & Eb).
  set (st1 := fold_left (o_round lo (vx m D) (vy m D) (o_kind o) (o_lr o)) iss st0) in *. set (st2 := fold_left (o_round lo (vx m D') (vy m D') (o_kind o) (o_lr o)) iss' st0) in *.
  pose proof St1 as (F1 & K1 & L1 & T1 & U1). pose proof St2 as (F2 & K2 & L2 & T2 & U2).
  destruct (full_end addr t lo _ _ _ _ m l o x _ _ _ _ R1 Of F1) as (Q1 & H1 & _). destruct (full_end addr t lo _ _ _ _ m l o x _ _ _ _ R2 Of2 F2) as (Q2 & H2 & _). rewrite Ex in H2.
  exists (ns_l st1), o1, m1, (ns_l st2), o2, m2, (ns_x st1). split; [exact E1|]. split; [exact E2|]. split; [|auto].
  split; [symmetry; apply (core_reset_layers _ _ C)|]. split; [|split].
  - clear -C. induction C as [|a b la lb H F IH]; [reflexivity|]. cbn. f_equal; [symmetry; apply H|exact IH].
  - intros i r tt Q. pose proof (proj2 (same_param l (ns_l st1) (proj1 (proj2 F1)) i r tt) Q) as (Pr & d1 & N1 & P1). pose proof (proj2 (same_param l (ns_l st2) (proj1 (proj2 F2)) i r tt) Q) as (_ & d2 & N2 & P2).
    exists (n_data d1 r). split.
    + eapply part_holds; [eapply net_layer_at; [apply Q1|exact N1]|exact P1].
    + assert (Ed : n_data d2 r = n_data d1 r). { destruct (core_nth _ _ C i d1 d2 N1 N2) as (_ & _ & Cc). apply functional_extensionality. intros j. apply Cc. destruct r; try destruct Pr; exact Logic.I. }
      rewrite <- Ed. eapply part_holds; [eapply net_layer_at; [apply Q2|exact N2]|exact P2].
  - congruence.
Qed.
Lemma batch_run idata odata (N : net) o E m : 0 <= E -> tr_batch addr N t idata odata o E m = Schedule.run addr t idata odata (flat_map round (batches idata E)) (N, o) m.
Proof.
  intros HE. rewrite C67_batch_schedule by auto. f_equal. unfold batch_schedule, batches. clear. induction (Z.to_nat E) as [|k IH]; [reflexivity|]. cbn [repeat concat flat_map]. now rewrite IH.
Qed.
Lemma mini_run idata odata (N : net) o E b m : 0 <= E -> 0 < b -> Z.of_nat (length idata) < 2 ^ 64 ->
  tr_mini_batch addr N t idata odata o E b m = Schedule.run addr t idata odata (flat_map round (mini_batches idata b E)) (N, o) m.
Proof.
  intros HE Hb Hn. rewrite C68_mini_batch_schedule by auto. f_equal. unfold mini_batch_schedule, mini_batches. clear. induction (Z.to_nat E) as [|k IH]; [reflexivity|]. cbn [repeat concat flat_map].
  rewrite flat_map_app, <- IH. f_equal. clear. induction (zrange 0 (Z.of_nat (length idata) / b)) as [|k ks IH]; [reflexivity|]. cbn [map flat_map]. now rewrite IH.
Qed.
Lemma pairs_perm m D D' : Permutation D D' -> Permutation (pairs_of m D) (pairs_of m D'). Proof. apply Permutation_map. Qed.

(** Batch training on the data in any order gives the same network and the same optimizer: the same
    values in every weight and bias, the same flags, counters and accumulators. *)
Theorem C108_batch_order m l o x D D' xs ys E :
  ready m l t lo (inputs D) (targets D) xs ys -> Forall dense_or_conv (plans l) -> optimizer_for addr m l t (inputs D) (targets D) o x ->
  D <> [] -> 0 <= E -> Permutation D D' ->
  exists l1 o1 m1 l2 o2 m2 x',
    tr_batch addr (layers l) t (inputs D) (targets D) o E m = Ok ((layers l1, o1), m1) /\
    tr_batch addr (layers l) t (inputs D') (targets D') o E m = Ok ((layers l2, o2), m2) /\
    same_result l (l1, o1, m1) (l2, o2, m2) /\
    optimizer_for addr m1 l1 t (inputs D) (targets D) o1 x' /\ optimizer_for addr m2 l2 t (inputs D') (targets D') o2 x'.
Proof.
  intros Rd Np Of Ne HE Pm. rewrite !batch_run by auto. apply (two_runs m l o x D D' xs ys); auto.
  - intros q. split; apply Permutation_in; [now apply Permutation_sym|exact Pm].
  - apply batches_valid.
  - apply batches_valid.
  - unfold batches. rewrite !map_length, <- (Permutation_length Pm).
    assert (Hd : 0 < Z.of_nat (length D)) by (destruct D; [congruence|cbn; lia]).
    assert (W : forall D0, length D0 = length D -> map (fun i => (vx m D0 i, vy m D0 i)) (zrange 0 (Z.of_nat (length D))) = pairs_of m D0).
    { intros D0 EL. replace (Z.of_nat (length D)) with (0 + Z.of_nat (length D)) by lia. rewrite vals_part by lia. cbn [skipn Z.to_nat]. now rewrite Nat2Z.id, <- EL, firstn_all. }
    induction (Z.to_nat E) as [|k IH]; [constructor|]. constructor; [|exact IH]. split; [apply zrange_ne; lia|]. rewrite (W D eq_refl), (W D'); [now apply pairs_perm|]. symmetry. now apply Permutation_length.
Qed.
(** Mini-batch training: the same if the samples are reordered within the mini-batches. *)
Theorem C108_mini_batch_order m l o x Bs Bs' rest xs ys E b : let D := concat Bs ++ rest in let D' := concat Bs' ++ rest in
  ready m l t lo (inputs D) (targets D) xs ys -> Forall dense_or_conv (plans l) -> optimizer_for addr m l t (inputs D) (targets D) o x ->
  0 <= E -> 0 < b -> Z.of_nat (length D) < 2 ^ 64 -> Forall (fun B => Z.of_nat (length B) = b) Bs -> Z.of_nat (length rest) < b -> Forall2 (@Permutation _) Bs Bs' ->
  exists l1 o1 m1 l2 o2 m2 x',
    tr_mini_batch addr (layers l) t (inputs D) (targets D) o E b m = Ok ((layers l1, o1), m1) /\
    tr_mini_batch addr (layers l) t (inputs D') (targets D') o E b m = Ok ((layers l2, o2), m2) /\
    same_result l (l1, o1, m1) (l2, o2, m2) /\
    optimizer_for addr m1 l1 t (inputs D) (targets D) o1 x' /\ optimizer_for addr m2 l2 t (inputs D') (targets D') o2 x'.
Proof.
  intros D D' Rd Np Of HE Hb H64 Hl Hr Pm.
  assert (Pc : Permutation D D'). { apply Permutation_app_tail. clear -Pm. induction Pm as [|B B' Bs Bs' P F IH]; cbn [concat]; [constructor|]. now apply Permutation_app. }
  assert (EL : length D' = length D) by (symmetry; now apply Permutation_length).
  rewrite !mini_run by (auto; rewrite map_length; lia). apply (two_runs m l o x D D' xs ys); auto.
  - intros q. split; apply Permutation_in; [now apply Permutation_sym|exact Pc].
  - now apply mini_valid.
  - now apply mini_valid.
  - unfold mini_batches. rewrite !map_length, EL.
    assert (Ln : Z.of_nat (length D) / b = Z.of_nat (length Bs)).
    { assert (Lc : Z.of_nat (length (concat Bs)) = Z.of_nat (length Bs) * b). { clear -Hl. induction Hl as [|B Bs H F IH]; cbn [concat length]; [lia|]. rewrite app_length, Nat2Z.inj_add, IH, H. lia. }
      unfold D. rewrite app_length, Nat2Z.inj_add, Lc, Z.add_comm. rewrite Z.div_add by lia. rewrite Z.div_small by lia. lia. }
    rewrite Ln.
    assert (Step : Forall2 (fun is is' => is <> [] /\ Permutation (map (fun i => (vx m D i, vy m D i)) is) (map (fun i => (vx m D' i, vy m D' i)) is'))
        (map (fun k => zrange (k * b) (k * b + b)) (zrange 0 (Z.of_nat (length Bs)))) (map (fun k => zrange (k * b) (k * b + b)) (zrange 0 (Z.of_nat (length Bs))))).
    { assert (Bk : forall (Cs : list (list (tensor * tensor))) k R0, Forall (fun B => Z.of_nat (length B) = b) Cs -> (k < length Cs)%nat -> firstn (Z.to_nat b) (skipn (Z.to_nat (Z.of_nat k * b)) (concat Cs ++ R0)) = nth k Cs []).
      { clear -Hb. intros Cs. induction Cs as [|C Cs IH]; intros k R0 H Hk; [cbn in Hk; lia|]. apply Forall_cons_iff in H as [H1 H2]. cbn [concat]. rewrite <- app_assoc. destruct k as [|k].
        - cbn [nth]. replace (Z.to_nat (Z.of_nat 0 * b)) with 0%nat by lia. cbn [skipn]. replace (Z.to_nat b) with (length C + 0)%nat by lia. rewrite firstn_app_2. cbn [firstn]. apply app_nil_r.
        - cbn [nth]. rewrite <- (IH k R0 H2) by (cbn in Hk; lia). f_equal. replace (Z.to_nat (Z.of_nat (S k) * b)) with (length C + Z.to_nat (Z.of_nat k * b))%nat by nia.
          rewrite skipn_app. rewrite skipn_all2 by lia. cbn [app]. f_equal. lia. }
      assert (Hl' : Forall (fun B => Z.of_nat (length B) = b) Bs'). { clear -Hl Pm. induction Pm as [|B B' Bs Bs' P F IH]; [constructor|]. apply Forall_cons_iff in Hl as [H1 H2]. constructor; [|auto]. now rewrite <- (Permutation_length P). }
      assert (Lb : length Bs' = length Bs) by (symmetry; clear -Pm; induction Pm; cbn; congruence).
      assert (Hz : Z.of_nat (length D) = Z.of_nat (length Bs) * b + Z.of_nat (length rest)).
      { assert (Lc : Z.of_nat (length (concat Bs)) = Z.of_nat (length Bs) * b). { clear -Hl. induction Hl as [|B Bs H F IH]; cbn [concat length]; [lia|]. rewrite app_length, Nat2Z.inj_add, IH, H. lia. }
        unfold D. rewrite app_length, Nat2Z.inj_add, Lc. lia. }
      assert (Q : forall ks, Forall (fun k => 0 <= k < Z.of_nat (length Bs)) ks -> Forall2 (fun is is' => is <> [] /\ Permutation (map (fun i => (vx m D i, vy m D i)) is) (map (fun i => (vx m D' i, vy m D' i)) is'))
        (map (fun k => zrange (k * b) (k * b + b)) ks) (map (fun k => zrange (k * b) (k * b + b)) ks)).
      { induction 1 as [|k ks Hk F IH]; cbn [map]; constructor; [|exact IH]. split; [apply zrange_ne; lia|]. rewrite !vals_part by (rewrite ?EL; nia). apply pairs_perm.
        replace k with (Z.of_nat (Z.to_nat k)) by lia. unfold D, D'. rewrite !Bk by (auto; lia). generalize (Z.to_nat k). clear -Pm.
        induction Pm as [|B B' Bs Bs' P F IH]; intros [|k']; cbn [nth]; auto. }
      apply Q. apply Forall_forall. intros k Hk. now apply in_zrange in Hk. }
    induction (Z.to_nat E) as [|k IH]; [constructor|]. cbn [repeat concat]. apply Forall2_app; [exact Step|exact IH].
Qed.
End Order.

Module Examples.
Import PropOptTrain.Examples.
Local Open Scope R_scope.
(** two convolutions 1x4x4 -> 2x2x2 -> 1x1x1, three samples, two of them with the same target tensor; AdaGrad *)
Definition g1 : geometry := mk_geometry 1 4 4 2 3 3 0 1 1.
Definition g2 : geometry := mk_geometry 2 2 2 1 2 2 0 1 1.
Definition qs : list plan := [PConv g1; PConv g2].
Definition in1 : list R := map INR (seq 0 16).
Definition in2 : list R := map INR (seq 7 16).
Definition in3 : list R := map INR (seq 3 16).
Definition mem0 : mem R := [Some (map Some in1); Some (map Some in2); Some (map Some in3); Some (map Some [1]); Some (map Some [2]); Some [None]].
Definition pic (b : nat) : tensor := mk_tensor (Ptr b 0) (shape3 1 4 4).
Definition num (b : nat) : tensor := mk_tensor (Ptr b 0) (shape3 1 1 1).
Definition D1 : list (tensor * tensor) := [(pic 0, num 3); (pic 1, num 4); (pic 2, num 3)].
Definition D2 : list (tensor * tensor) := [(pic 2, num 3); (pic 0, num 3); (pic 1, num 4)].
Lemma kept_list (m : mem R) (l : list (node R)) b (f : list R) : preserves mem0 m -> (forall b, net_block l b -> (length mem0 <= b)%nat) -> nth_error mem0 b = Some (Some (map Some f)) ->
  holds m (Ptr b 0) (Z.of_nat (length f)) (fun i => nth (Z.to_nat i) f 0) /\ net_outside l (Ptr b 0).
Proof.
  intros P F E. split.
  - intros i Hi. eapply keeps_cell; [exact P|intros []|]. exact (holds_list mem0 b f 0 E i Hi).
  - intros Q. apply F in Q. assert (b < length mem0)%nat by (apply nth_error_Some; congruence). lia.
Qed.
Example C108_applies : exists (l : list (node R)) (m : mem R) t xs ys, let o := ada_grad (1/10) in
  ready m l t MSE (map fst D1) (map snd D1) xs ys /\ Forall dense_or_conv (plans l) /\ plans l = qs /\
  optimizer_for at_addr m l t (map fst D1) (map snd D1) o (fun _ _ _ => (0, 0)) /\ Permutation D1 D2 /\
  concat [[(pic 0, num 3); (pic 1, num 4)]] ++ [(pic 2, num 3)] = D1 /\ Forall2 (@Permutation _) [[(pic 0, num 3); (pic 1, num 4)]] [[(pic 1, num 4); (pic 0, num 3)]].
Proof.
  destruct (C63_every_topology_builds (T := R) qs mem0) as (N & m & E & Len & Tr & A & P & F).
  { unfold qs. repeat apply Forall_cons; try apply Forall_nil; cbn [plan_ok]; unfold geometry_ok, g1, g2, out_h, out_w; cbn -[Z.pow]; repeat split; lia. }
  destruct (PropNet.Examples.new_nodes_plans N qs Len) as [Ep El]. set (l := new_nodes N qs) in *.
  assert (Ln : length l = 2%nat). { pose proof (f_equal (@length _) Ep) as Q. unfold plans in Q. rewrite map_length in Q. exact Q. }
  assert (Sx : forall b f, (b < 3)%nat -> nth_error mem0 b = Some (Some (map Some f)) -> length f = 16%nat -> exists v, sample_at m l (pic b) v /\ disjoint (Ptr 5 0) 1 (Ptr b 0) 16).
  { intros b f Hb Eb Lf. destruct (kept_list m l b f P F Eb) as [H1 H2]. rewrite Lf in H1. eexists. split; [split; [rewrite Ep; cbn; auto|]; split; [exact H1|exact H2]|]. intros b' i. cbn. lia. }
  assert (Sy : forall b f, (3 <= b < 5)%nat -> nth_error mem0 b = Some (Some (map Some f)) -> length f = 1%nat -> exists w, target_at m l (mk_trainer (num 5) (Some MSE)) (num b) w).
  { intros b f Hb Eb Lf. destruct (kept_list m l b f P F Eb) as [H1 H2]. rewrite Lf in H1. eexists. split; [exact H1|]. split; [exact H2|]. intros b' i. cbn. lia. }
  destruct (Sx 0%nat in1 ltac:(lia) eq_refl eq_refl) as (v1 & X1 & Y1). destruct (Sx 1%nat in2 ltac:(lia) eq_refl eq_refl) as (v2 & X2 & Y2). destruct (Sx 2%nat in3 ltac:(lia) eq_refl eq_refl) as (v3 & X3 & Y3).
  destruct (Sy 3%nat [1] ltac:(lia) eq_refl eq_refl) as (w1 & W1). destruct (Sy 4%nat [2] ltac:(lia) eq_refl eq_refl) as (w2 & W2).
  exists l, m, (mk_trainer (num 5) (Some MSE)), (fun i => if (i =? 0)%Z then v1 else if (i =? 1)%Z then v2 else v3), (fun i => if (i =? 1)%Z then w2 else w1). cbv zeta.
  assert (Rd : ready m l (mk_trainer (num 5) (Some MSE)) MSE (map fst D1) (map snd D1) (fun i => if (i =? 0)%Z then v1 else if (i =? 1)%Z then v2 else v3) (fun i => if (i =? 1)%Z then w2 else w1)).
  { split; [lia|]. split; [rewrite El; exact Tr|]. split; [exact A|]. split.
    - split; [reflexivity|]. split; [rewrite Ep; cbn; auto|]. split.
      + intros Q. apply F in Q. cbn in Q. lia.
      + split; [reflexivity|]. exists 5%nat. split; [reflexivity|]. exists [None]. split; [|reflexivity]. rewrite (proj2 P); [reflexivity|cbn; lia|intros []].
    - intros i Hi. cbn in Hi. assert (Q : i = 0%Z \/ i = 1%Z \/ i = 2%Z) by lia. destruct Q as [ -> | [ -> | -> ] ]; cbn [Z.eqb Pos.eqb].
      + exists (pic 0), (num 3). split; [reflexivity|]. split; [reflexivity|]. split; [exact X1|]. split; [exact Y1|exact W1].
      + exists (pic 1), (num 4). split; [reflexivity|]. split; [reflexivity|]. split; [exact X2|]. split; [exact Y2|exact W2].
      + exists (pic 2), (num 3). split; [reflexivity|]. split; [reflexivity|]. split; [exact X3|]. split; [exact Y3|exact W1]. }
  split; [exact Rd|]. split; [rewrite Ep; repeat constructor|]. split; [exact Ep|]. split; [|split; [|split]].
  - refine (C105_new_optimizer at_addr _ _ _ _ _ _ m l (ada_grad (1 / 10)) Rd _ _).
    + intros i r tt i' r' tt' Q Q' E'. apply param_part in Q as [_ Q]. apply param_part in Q' as [_ Q'].
      rewrite (part_ptr_of m l i r tt A Q), (part_ptr_of m l i' r' tt' A Q') in E'. unfold at_addr in E'. assert (Eb : block_of tt = block_of tt') by lia.
      destruct (Nat.eq_dec i i') as [->|Ne]; [destruct (role_eq_dec r r') as [->|Ne]; [auto|]|]; exfalso; refine (parts_blocks m l _ _ _ _ _ _ A Q Q' _ Eb); congruence.
    + intros i r tt _. cbn. repeat constructor.
  - unfold D1, D2. apply Permutation_sym. apply (Permutation_cons_append [(pic 0, num 3); (pic 1, num 4)] (pic 2, num 3)).
  - reflexivity.
  - constructor; [apply perm_swap|constructor].
Qed.
End Examples.

Print Assumptions C108_batch_order.
Print Assumptions C108_mini_batch_order.

(** * Properties C70, C71: accuracy measures and mean loss *)
From Coq Require Import Reals Lra FinFun.
From Verif Require Import Mem Scalar MemSpec MemLemmas Lique LiqueProofs2 LiqueSpec Functions FunctionSpec FunctionProofs RealSpec RSum LossProofs Optimizer Layer LayerSpec ConvSpec PoolSpec Cells Net NetPlan NetProofs PropNet Checker.
Open Scope Z_scope.

(** ** Specification *)
Section Spec.
Context {T : Type} `{NT : Num T}.
(** The network [l] has [k] outputs. *)
Definition has_outputs (l : list (node T)) (k : Z) : Prop := exists p, nth_error (plans l) (length l - 1) = Some p /\ out_count p = k.
(** A data set of [n] samples [xs i] with targets [ys i] of [k] values each, outside the network's memory. *)
Definition data_at (m : mem T) (l : list (node T)) (n k : Z) (idata odata : list tensor) (xs ys : Z -> Z -> T) : Prop :=
  Z.of_nat (length odata) = n /\
  forall i, 0 <= i < n -> exists x y, znth idata i = Some x /\ znth odata i = Some y /\ sample_at m l x (xs i) /\
    t_size y = k /\ holds m (t_data y) k (ys i) /\ net_outside l (t_data y).
End Spec.
(** [r] is the share of the elements of [dom] (of which there are [total]) that satisfy [P]. *)
Definition share {A} (dom P : A -> Prop) (total : Z) (r : R) : Prop :=
  exists l : list A, NoDup l /\ (forall a, In a l <-> dom a /\ P a) /\ r = (INR (length l) / IZR total)%R.
(** [i] is the first index of the largest of [f 0 .. f (k-1)] *)
Definition first_max (k : Z) (f : Z -> R) (i : Z) : Prop :=
  0 <= i < k /\ (forall j, 0 <= j < k -> (f j <= f i)%R) /\ (forall j, 0 <= j < i -> (f j < f i)%R).
Definition below (n i : Z) : Prop := 0 <= i < n.
Definition below2 (n k : Z) (ij : Z * Z) : Prop := 0 <= fst ij < n /\ 0 <= snd ij < k.

Section Loop.
Context {T : Type} `{NT : Num T}.
Implicit Types (m : mem T) (l : list (node T)).
Lemma outside_only m m' l (p : ptr) n v : only (fun b _ => net_block l b) m m' -> net_outside l p -> holds m p n v -> holds m' p n v.
Proof. intros O H. apply (only_outside _ _ l _ _ _ _ O); auto. Qed.
(** A loop that feeds sample after sample and looks at target and output. *)
Lemma predict_loop A m l n k idata odata xs ys (body : tensor -> tensor -> A -> M T A) (step : (Z -> T) -> (Z -> T) -> A -> A) a0 :
  l <> [] -> Z.of_nat (length l) < 2 ^ 64 -> net_at m l -> has_outputs l k -> data_at m l n k idata odata xs ys ->
  (forall z y a mm zv yv, t_size z = k -> holds mm (t_data z) k zv -> holds mm (t_data y) k yv -> body z y a mm = Ok (step zv yv a, mm)) ->
  exists m' l', mfold 0 n (fun i a =>
      let* x := nth_of idata i in
      let* y := net_feedforward (layers l) x in
      let* z := nth_of odata i in
      body z y a) a0 m = Ok (zfold n (fun i a => step (ys i) (net_out l (xs i)) a) a0, m') /\
    net_at m' l' /\ same_model l l' /\ only (fun b _ => net_block l b) m m'.
Proof.
  intros Ne Hn A0 (p & Ep & Eo) (Hl & Hd) Hb. assert (0 <= n) by lia.
  assert (W : wp (mfold 0 n (fun i a =>
      let* x := nth_of idata i in
      let* y := net_feedforward (layers l) x in
      let* z := nth_of odata i in
      body z y a) a0) m (fun r m' => r = zfold n (fun i a => step (ys i) (net_out l (xs i)) a) a0 /\
      only (fun b _ => net_block l b) m m' /\ exists l', net_at m' l' /\ same_model l l' /\ forall v, net_out l' v = net_out l v)).
  { apply (wp_mfold _ 0 n _ (fun i r m' => r = zfold i (fun i a => step (ys i) (net_out l (xs i)) a) a0 /\
      only (fun b _ => net_block l b) m m' /\ exists l', net_at m' l' /\ same_model l l' /\ forall v, net_out l' v = net_out l v)); [lia| | |auto].
    - split; [reflexivity|]. split; [apply only_refl|]. exists l. split; [exact A0|]. split; [apply same_model_refl|reflexivity].
    - intros i r m' Hi (-> & O & l' & A' & S' & F'). destruct (Hd i ltac:(lia)) as (x & y & Ex & Ey & Sx & Ty & Hy & Oy).
      pose proof S' as (L' & P' & _). assert (Len : length l' = length l). { apply (f_equal (@length _)) in L'. unfold layers in L'. now rewrite !map_length in L'. }
      assert (Sx' : sample_at m' l' x (xs i)).
      { apply (sample_same _ l); [congruence|congruence|]. destruct Sx as (Q1 & Q2 & Q3). split; [exact Q1|]. split; [|exact Q3]. eapply outside_only; eauto. }
      destruct (feedforward_run m' l' x (xs i)) as (y' & m2 & E2 & A2 & O2 & p' & Ep' & Yp' & Yh' & _); auto; [intros ->; destruct l; [congruence|discriminate]|lia|].
      assert (p' = p) by (rewrite P', Len in Ep'; congruence). subst p'. rewrite Eo, F' in Yh'. rewrite L' in E2.
      assert (O2' : only (fun b _ => net_block l b) m' m2). { eapply only_weaken; [|exact O2]. cbn. intros b _ Q. now apply (net_block_same l' l). }
      unfold wp, bind. unfold nth_of at 1. rewrite Ex. cbn [ret]. rewrite E2. unfold nth_of. rewrite Ey. cbn [ret].
      rewrite (Hb y y' _ m2 (ys i) (net_out l (xs i))); [| exact Ty | | exact Yh'].
      + split; [rewrite zfold_S by lia; reflexivity|]. split; [eapply only_trans; eauto|]. exists (run_fwd l' (xs i)). split; [exact A2|]. split.
        * eapply same_model_trans; [exact S'|apply same_model_fwd].
        * intros v. rewrite net_out_run_fwd. apply F'.
      + eapply outside_only; [exact O2'|exact Oy|]. eapply outside_only; eauto. }
  apply wp_elim in W as (r & m' & E & -> & O & l' & A' & S' & _). eauto 8.
Qed.
(** ** C71 *)
(** Any scalar type: the sum of the losses in order, divided by the number of samples. *)
Lemma mean_loss_run m l n k idata odata xs ys lo :
  l <> [] -> Z.of_nat (length l) < 2 ^ 64 -> net_at m l -> has_outputs l k -> data_at m l n k idata odata xs ys -> 0 <= k ->
  exists m' l', chk_loss (layers l) lo idata odata m = Ok (div (zsum n (fun i => loss_val lo k (ys i) (net_out l (xs i)))) (ofZ n), m') /\
    net_at m' l' /\ same_model l l' /\ only (fun b _ => net_block l b) m m'.
Proof.
  intros Ne Hn A0 Hk Hd K0. pose proof Hd as [Hl _].
  destruct (predict_loop T m l n k idata odata xs ys (fun z y result => let* error := loss_f lo (t_size z) (t_data z) (t_data y) in ret (add result error))
    (fun t p r => add r (loss_val lo k t p)) zero Ne Hn A0 Hk Hd) as (m' & l' & E & Q).
  { intros z y a mm zv yv Tz Hz Hy. unfold bind. rewrite Tz, (loss_f_ok lo k _ _ mm zv yv) by auto. reflexivity. }
  exists m', l'. split; [|exact Q]. unfold chk_loss. rewrite Hl. unfold bind at 1. rewrite E. unfold ret. rewrite <- zfold_zsum. reflexivity.
Qed.
(** Checker::loss and Training::loss are the same function. *)
Theorem C71_checker_equals_trainer m N t lo idata odata : tr_loss t = Some lo ->
  tr_loss_mean N t idata odata m = chk_loss N lo idata odata m.
Proof. intros E. unfold tr_loss_mean, chk_loss. rewrite E. reflexivity. Qed.
End Loop.

Theorem C71_mean_loss (m : mem R) l n k idata odata xs ys lo :
  l <> [] -> Z.of_nat (length l) < 2 ^ 64 -> net_at m l -> has_outputs l k -> data_at m l n k idata odata xs ys -> 0 < n -> 0 <= k ->
  exists m' l', chk_loss (layers l) lo idata odata m = Ok ((rsum n (fun i => std_loss lo k (ys i) (net_out l (xs i))) / IZR n)%R, m') /\
    net_at m' l' /\ same_model l l' /\ only (fun b _ => net_block l b) m m'.
Proof.
  intros Ne Hn A0 Hk Hd N0 K0. destruct (mean_loss_run m l n k idata odata xs ys lo Ne Hn A0 Hk Hd K0) as (m' & l' & E & Q).
  exists m', l'. split; [|exact Q]. rewrite E. repeat f_equal. cbn [div ofZ Num_R]. f_equal. change (rsum n (fun i => loss_val lo k (ys i) (net_out l (xs i))) = rsum n (fun i => std_loss lo k (ys i) (net_out l (xs i)))). apply rsum_ext. intros. apply loss_val_std.
Qed.
(** One sample. *)
Theorem C71_single_sample (m : mem R) l k x y xv yv lo :
  l <> [] -> Z.of_nat (length l) < 2 ^ 64 -> net_at m l -> has_outputs l k -> sample_at m l x xv -> 0 <= k -> t_size y = k ->
  holds m (t_data y) k yv -> net_outside l (t_data y) ->
  exists m' l', chk_loss1 (layers l) lo x y m = Ok (std_loss lo k yv (net_out l xv), m') /\
    net_at m' l' /\ same_model l l' /\ only (fun b _ => net_block l b) m m'.
Proof.
  intros Ne Hn A0 (p & Ep & Eo) S K0 Ty Hy Oy. destruct (feedforward_run m l x xv Ne Hn A0 S) as (y' & m' & E & A' & O & p' & Ep' & Yp & Yh & _).
  assert (p' = p) by congruence. subst p'. exists m', (run_fwd l xv). split; [|split; [exact A'|split; [apply same_model_fwd|exact O]]].
  unfold chk_loss1, bind. rewrite E, Ty. rewrite (loss_f_ok lo k _ _ m' yv (net_out l xv)); [now rewrite loss_val_std|exact K0|eapply outside_only; eauto|]. rewrite <- Eo. exact Yh.
Qed.

(** ** C70 *)
Section Count.
Local Open Scope R_scope.
Lemma guide_max_ok (m : mem R) n p (f : Z -> R) : (0 < n)%Z -> holds m p n f -> exists i, guide_max n p m = Ok (i, m) /\ first_max n f i.
Proof.
  intros Hn H. assert (W : wp (guide_max n p) m (fun i m' => m' = m /\ first_max n f i)).
  { unfold guide_max. apply (wp_mfold _ 1 n _ (fun j i m' => m' = m /\ first_max j f i)); [lia| | |auto].
    - split; [reflexivity|]. split; [lia|]. split; intros j Hj; [replace j with 0%Z by lia; lra|lia].
    - intros j best m' Hj (-> & Hb & Hmax & Hfst). eapply wp_bind, wp_load; [apply H; lia|]. eapply wp_bind, wp_load; [apply H; lia|].
      apply wp_ret. split; [reflexivity|]. cbn [ltb Num_R]. unfold Rltb. destruct (Rlt_dec (f best) (f j)) as [L|L].
      + split; [lia|]. split; intros i Hi.
        * destruct (Z.eq_dec i j) as [->|]; [lra|]. pose proof (Hmax i ltac:(lia)). lra.
        * pose proof (Hmax i ltac:(lia)). lra.
      + split; [lia|]. split; intros i Hi; [|apply Hfst; lia]. destruct (Z.eq_dec i j) as [->|]; [lra|]. apply Hmax. lia. }
  apply wp_elim in W as (i & m' & E & -> & Hi). eauto.
Qed.
Lemma first_max_unique n f i j : first_max n f i -> first_max n f j -> i = j.
Proof.
  intros (A1 & A2 & A3) (B1 & B2 & B3). destruct (Z.lt_trichotomy i j) as [L|[E|L]]; [|exact E|].
  - pose proof (B3 i ltac:(lia)). pose proof (A2 j ltac:(lia)). lra.
  - pose proof (A3 j ltac:(lia)). pose proof (B2 i ltac:(lia)). lra.
Qed.
(** the boolean the loop computes, as a function *)
Definition argmax (k : Z) (f : Z -> R) : Z := zfold (k - 1) (fun j best => if Rltb (f best) (f (j + 1)%Z) then (j + 1)%Z else best) 0%Z.
Lemma argmax_first k f : (0 < k)%Z -> first_max k f (argmax k f).
Proof.
  intros Hk. unfold argmax. assert (G : forall j, (0 <= j)%Z -> (j + 1 <= k)%Z -> first_max (j + 1) f (zfold j (fun j best => if Rltb (f best) (f (j + 1)%Z) then (j + 1)%Z else best) 0%Z)).
  { apply (natlike_ind (fun j => (j + 1 <= k)%Z -> first_max (j + 1) f _)).
    - intros _. split; [rewrite zfold_0; lia|]. split; intros j Hj; rewrite ?zfold_0 in *; [replace j with 0%Z by lia; lra|lia].
    - intros j Hj IH Hk'. unfold Z.succ in *. rewrite zfold_S by lia. destruct (IH ltac:(lia)) as (A1 & A2 & A3).
      set (best := zfold j _ 0%Z) in *. unfold Rltb. destruct (Rlt_dec (f best) (f (j + 1)%Z)) as [L|L].
      + split; [lia|]. split; intros i Hi.
        * destruct (Z.eq_dec i (j + 1)) as [->|]; [lra|]. pose proof (A2 i ltac:(lia)). lra.
        * pose proof (A2 i ltac:(lia)). lra.
      + split; [lia|]. split; intros i Hi; [|apply A3; lia]. destruct (Z.eq_dec i (j + 1)) as [->|]; [lra|]. apply A2. lia. }
  specialize (G (k - 1)%Z ltac:(lia) ltac:(lia)). now replace (k - 1 + 1)%Z with k in G by lia.
Qed.
Lemma guide_normal_ok k z y (m : mem R) zv yv : (0 < k)%Z -> t_size z = k -> holds m (t_data z) k zv -> holds m (t_data y) k yv ->
  guide_normal z y m = Ok ((argmax k zv =? argmax k yv)%Z, m).
Proof.
  intros Hk Tz Hz Hy. unfold guide_normal. rewrite Tz. destruct (guide_max_ok m k _ _ Hk Hz) as (i & Ei & Fi). destruct (guide_max_ok m k _ _ Hk Hy) as (j & Ej & Fj).
  unfold bind, ret. rewrite Ei, Ej. now rewrite (first_max_unique _ _ _ _ Fi (argmax_first k zv Hk)), (first_max_unique _ _ _ _ Fj (argmax_first k yv Hk)).
Qed.
Definition all_within (k : Z) (r : R) (a b : Z -> R) : bool := zfold k (fun j ok => if ok : bool then negb (Rltb r (Rabs (a j - b j))) else false) true.
Lemma all_within_spec k r a b : (0 <= k)%Z -> all_within k r a b = true <-> forall j, (0 <= j < k)%Z -> Rabs (a j - b j) <= r.
Proof.
  intros Hk. unfold all_within. revert Hk. revert k. apply (natlike_ind (fun k => _ <-> _)).
  - rewrite zfold_0. split; [lia|reflexivity].
  - intros k Hk IH. unfold Z.succ. rewrite zfold_S by lia. destruct (zfold k _ true).
    + unfold Rltb. destruct (Rlt_dec r (Rabs (a k - b k))) as [L|L]; cbn [negb].
      * split; [discriminate|]. intros H. specialize (H k ltac:(lia)). lra.
      * split; [|reflexivity]. intros _ j Hj. destruct (Z.eq_dec j k) as [->|]; [lra|]. apply IH; [reflexivity|lia].
    + split; [discriminate|]. intros H. apply IH. intros. apply H. lia.
Qed.
Lemma guide_full_ok k r z y (m : mem R) zv yv : t_size z = k -> holds m (t_data z) k zv -> holds m (t_data y) k yv ->
  guide_full z y r m = Ok (all_within k r zv yv, m).
Proof.
  intros Tz Hz Hy. unfold guide_full, all_within. rewrite Tz. apply (mfold_pure bool k _ (fun j ok => if ok : bool then negb (Rltb r (Rabs (zv j - yv j))) else false)).
  intros i [|] Hi; [|reflexivity]. unfold bind. rewrite (load_ok _ _ _ _ (Hz i Hi)). rewrite (load_ok _ _ _ _ (Hy i Hi)). reflexivity.
Qed.
Definition close (r : R) (a b : Z -> R) (j : Z) : bool := Rltb (Rabs (a j - b j)) r.
Definition count_close (k : Z) (r : R) (a b : Z -> R) : Z := zfold k (fun j c => if close r a b j then (c + 1)%Z else c) 0%Z.
Lemma guide_global_ok k r z y (m : mem R) zv yv : t_size z = k -> holds m (t_data z) k zv -> holds m (t_data y) k yv ->
  guide_global z y r m = Ok (count_close k r zv yv, m).
Proof.
  intros Tz Hz Hy. unfold guide_global, count_close. rewrite Tz. apply (mfold_pure Z k _ (fun j c => if close r zv yv j then (c + 1)%Z else c)).
  intros i c Hi. unfold bind. rewrite (load_ok _ _ _ _ (Hz i Hi)). rewrite (load_ok _ _ _ _ (Hy i Hi)). reflexivity.
Qed.
(** counting *)
Lemma NoDup_app_intro A (a b : list A) : NoDup a -> NoDup b -> (forall x, In x a -> In x b -> False) -> NoDup (a ++ b).
Proof.
  induction a as [|x a IH]; intros Na Nb D; [exact Nb|]. inversion Na; subst. cbn. constructor.
  - rewrite in_app_iff. intros [I|I]; [contradiction|]. eapply D; [left; reflexivity|exact I].
  - apply IH; auto. intros y I1 I2. eapply D; [right; exact I1|exact I2].
Qed.
Lemma count_list (P : Z -> bool) n c0 : (0 <= n)%Z -> exists is, NoDup is /\ (forall i, In i is <-> (0 <= i < n)%Z /\ P i = true) /\
  zfold n (fun i c => if P i then (c + 1)%Z else c) c0 = (c0 + Z.of_nat (length is))%Z.
Proof.
  revert n. apply (natlike_ind (fun n => exists is, _ /\ _ /\ _)).
  - exists []. split; [constructor|]. split; [intros i; cbn; lia|]. rewrite zfold_0. cbn. lia.
  - intros n Hn (is & Nd & Hin & E). unfold Z.succ. rewrite zfold_S, E by lia. destruct (P n) eqn:Ep.
    + exists (n :: is). split; [constructor; [|exact Nd]; rewrite Hin; lia|]. split; [|cbn [length]; lia].
      intros i. cbn [In]. rewrite Hin. split; [intros [<-|[H ->]]; split; auto; lia|]. intros [H Hp]. destruct (Z.eq_dec n i); [auto|right; split; auto; lia].
    + exists is. split; [exact Nd|]. split; [|lia]. intros i. rewrite Hin. split; intros [H Hp]; split; auto; try lia. destruct (Z.eq_dec i n) as [->|]; [congruence|lia].
Qed.
Lemma share_of_count n (P : Z -> bool) (Q : Z -> Prop) : (0 <= n)%Z -> (forall i, (0 <= i < n)%Z -> P i = true <-> Q i) ->
  share (below n) Q n (IZR (zfold n (fun i c => if P i then (c + 1)%Z else c) 0%Z) / IZR n).
Proof.
  intros Hn H. destruct (count_list P n 0 Hn) as (is & Nd & Hin & E). exists is. split; [exact Nd|]. split.
  - intros i. rewrite Hin. unfold below. split; intros [A B]; split; auto; now apply H.
  - rewrite E, Z.add_0_l, <- INR_IZR_INZ. reflexivity.
Qed.
Lemma share_of_count2 n k (P : Z -> Z -> bool) (Q : Z * Z -> Prop) t : (0 <= n)%Z -> (0 <= k)%Z -> (forall i j, (0 <= i < n)%Z -> (0 <= j < k)%Z -> P i j = true <-> Q (i, j)) ->
  share (below2 n k) Q t (IZR (zfold n (fun i c => (c + zfold k (fun j c => if P i j then c + 1 else c) 0)%Z) 0%Z) / IZR t).
Proof.
  intros Hn Hk H. assert (G : exists l : list (Z * Z), NoDup l /\ (forall ij, In ij l <-> below2 n k ij /\ P (fst ij) (snd ij) = true) /\
    zfold n (fun i c => (c + zfold k (fun j c => if P i j then c + 1 else c) 0)%Z) 0%Z = Z.of_nat (length l)).
  { clear H. revert Hn. revert n. apply (natlike_ind (fun n => exists l, _ /\ _ /\ _)).
    - exists []. split; [constructor|]. split; [intros ij; unfold below2; cbn; lia|reflexivity].
    - intros n Hn (l & Nd & Hin & E). destruct (count_list (P n) k 0 Hk) as (is & Nd2 & Hin2 & E2). unfold Z.succ. rewrite zfold_S, E, E2 by lia.
      exists (map (pair n) is ++ l). split; [|split].
      + apply NoDup_app_intro; [apply FinFun.Injective_map_NoDup; [intros a b [= E3]; exact E3|exact Nd2]|exact Nd|].
        intros ij I1 I2. apply in_map_iff in I1 as (j & <- & _). apply Hin in I2 as [[I2 _] _]. cbn in I2. lia.
      + intros [i j]. rewrite in_app_iff, in_map_iff, Hin. unfold below2. cbn [fst snd]. split.
        * intros [(j' & [= <- <-] & I1)|[[I1 I2] I3]]; [apply Hin2 in I1 as [I1 I2]|]; repeat split; auto; lia.
        * intros [[I1 I2] I3]. destruct (Z.eq_dec i n) as [->|]; [left; exists j; split; [reflexivity|apply Hin2; auto]|right; repeat split; auto; lia].
      + rewrite app_length, map_length. lia. }
  destruct G as (l & Nd & Hin & E). exists l. split; [exact Nd|]. split.
  - intros [i j]. rewrite Hin. unfold below2. cbn [fst snd]. split; intros [[A B] C]; repeat split; auto; try lia; now apply (H i j).
  - rewrite E, <- INR_IZR_INZ. reflexivity.
Qed.

(** normal(): the share of the samples for which target and output have their (first) largest
    component at the same place *)
Theorem C70_normal (m : mem R) l n k idata odata xs ys :
  l <> [] -> (Z.of_nat (length l) < 2 ^ 64)%Z -> net_at m l -> has_outputs l k -> data_at m l n k idata odata xs ys -> (0 < n)%Z -> (0 < k)%Z ->
  exists r m' l', acc_normal (layers l) idata odata m = Ok (r, m') /\ net_at m' l' /\ same_model l l' /\ only (fun b _ => net_block l b) m m' /\
    share (below n) (fun i => exists j, first_max k (ys i) j /\ first_max k (net_out l (xs i)) j) n r.
Proof.
  intros Ne Hn A0 Hk Hd N0 K0. pose proof Hd as [Hl _].
  destruct (predict_loop Z m l n k idata odata xs ys (fun z y count => let* b := guide_normal z y in ret (if b : bool then (count + 1)%Z else count))
    (fun t p c => if (argmax k t =? argmax k p)%Z then (c + 1)%Z else c) 0%Z Ne Hn A0 Hk Hd) as (m' & l' & E & Q1 & Q2 & Q3).
  { intros z y a mm zv yv Tz Hz Hy. unfold bind. rewrite (guide_normal_ok k z y mm zv yv) by auto. reflexivity. }
  eexists _, m', l'. split; [unfold acc_normal; rewrite Hl; unfold bind at 1; rewrite E; reflexivity|]. split; [exact Q1|]. split; [exact Q2|]. split; [exact Q3|].
  apply (share_of_count n (fun i => argmax k (ys i) =? argmax k (net_out l (xs i)))%Z); [lia|]. intros i Hi. rewrite Z.eqb_eq. split.
  - intros Eq. exists (argmax k (ys i)). split; [now apply argmax_first|]. rewrite Eq. now apply argmax_first.
  - intros (j & F1 & F2). rewrite (first_max_unique _ _ _ _ (argmax_first k (ys i) K0) F1). now apply (first_max_unique k (net_out l (xs i))); [|apply argmax_first].
Qed.
(** full(r): the share of the samples with all components within r *)
Theorem C70_full (m : mem R) l n k idata odata xs ys r0 :
  l <> [] -> (Z.of_nat (length l) < 2 ^ 64)%Z -> net_at m l -> has_outputs l k -> data_at m l n k idata odata xs ys -> (0 < n)%Z -> (0 <= k)%Z ->
  exists r m' l', acc_full (layers l) idata odata r0 m = Ok (r, m') /\ net_at m' l' /\ same_model l l' /\ only (fun b _ => net_block l b) m m' /\
    share (below n) (fun i => forall j, (0 <= j < k)%Z -> Rabs (ys i j - net_out l (xs i) j) <= r0) n r.
Proof.
  intros Ne Hn A0 Hk Hd N0 K0. pose proof Hd as [Hl _].
  destruct (predict_loop Z m l n k idata odata xs ys (fun z y count => let* b := guide_full z y r0 in ret (if b : bool then (count + 1)%Z else count))
    (fun t p c => if all_within k r0 t p then (c + 1)%Z else c) 0%Z Ne Hn A0 Hk Hd) as (m' & l' & E & Q1 & Q2 & Q3).
  { intros z y a mm zv yv Tz Hz Hy. unfold bind. rewrite (guide_full_ok k r0 z y mm zv yv) by auto. reflexivity. }
  eexists _, m', l'. split; [unfold acc_full; rewrite Hl; unfold bind at 1; rewrite E; reflexivity|]. split; [exact Q1|]. split; [exact Q2|]. split; [exact Q3|].
  apply (share_of_count n (fun i => all_within k r0 (ys i) (net_out l (xs i)))); [lia|]. intros i Hi. now apply all_within_spec.
Qed.
(** global(r): the share of all components of all samples that are strictly within r *)
Theorem C70_global (m : mem R) l n k idata odata xs ys r0 :
  l <> [] -> (Z.of_nat (length l) < 2 ^ 64)%Z -> net_at m l -> has_outputs l k -> data_at m l n k idata odata xs ys -> (0 < n)%Z -> (0 <= k)%Z -> (n * k < 2 ^ 64)%Z ->
  exists r m' l', acc_global (layers l) idata odata r0 m = Ok (r, m') /\ net_at m' l' /\ same_model l l' /\ only (fun b _ => net_block l b) m m' /\
    share (below2 n k) (fun ij => Rabs (ys (fst ij) (snd ij) - net_out l (xs (fst ij)) (snd ij)) < r0) (n * k) r.
Proof.
  intros Ne Hn A0 Hk Hd N0 K0 Hnk. pose proof Hd as [Hl Hd'].
  destruct (predict_loop Z m l n k idata odata xs ys (fun z y count => let* c := guide_global z y r0 in ret (count + c)%Z)
    (fun t p c => (c + count_close k r0 t p)%Z) 0%Z Ne Hn A0 Hk Hd) as (m' & l' & E & Q1 & Q2 & Q3).
  { intros z y a mm zv yv Tz Hz Hy. unfold bind. rewrite (guide_global_ok k r0 z y mm zv yv) by auto. reflexivity. }
  destruct (Hd' 0%Z ltac:(lia)) as (x0 & y0 & _ & Ey0 & _ & Ty0 & _).
  eexists _, m', l'. split.
  { unfold acc_global. rewrite Hl. unfold bind at 1. rewrite E. unfold bind, nth_of. rewrite Ey0. cbn [ret]. rewrite Ty0, u64_small by (split; [apply Z.mul_nonneg_nonneg; lia|exact Hnk]). reflexivity. }
  split; [exact Q1|]. split; [exact Q2|]. split; [exact Q3|].
  apply (share_of_count2 n k (fun i j => close r0 (ys i) (net_out l (xs i)) j)); [lia|lia|]. intros i j Hi Hj. cbn [fst snd]. unfold close, Rltb. destruct (Rlt_dec _ _); split; auto; discriminate.
Qed.
(** Shares are between 0 and 1. *)
Theorem C70_between_0_and_1 n k (P : Z -> Prop) (Q : Z * Z -> Prop) r : (0 < n)%Z -> (0 < k)%Z ->
  (share (below n) P n r \/ share (below2 n k) Q (n * k) r) -> 0 <= r <= 1.
Proof.
  assert (G : forall c t, (0 < t)%Z -> (Z.of_nat c <= t)%Z -> 0 <= INR c / IZR t <= 1).
  { intros c t Ht Hc. assert (0 < IZR t) by (apply IZR_lt; lia). assert (INR c <= IZR t) by (rewrite INR_IZR_INZ; apply IZR_le; lia). pose proof (pos_INR c).
    split; [apply Rmult_le_pos; [lra|left; now apply Rinv_0_lt_compat]|]. apply Rmult_le_reg_r with (IZR t); [lra|]. unfold Rdiv. rewrite Rmult_assoc, Rinv_l by lra. lra. }
  intros Hn Hk [(l & Nd & Hin & ->)|(l & Nd & Hin & ->)].
  - apply G; [lia|]. assert (L : (length l <= length (map Z.of_nat (seq 0 (Z.to_nat n))))%nat).
    { apply NoDup_incl_length; [exact Nd|]. intros i Hi. apply Hin in Hi as [Hi _]. unfold below in Hi. apply in_map_iff. exists (Z.to_nat i). split; [lia|]. apply in_seq. lia. }
    rewrite map_length, seq_length in L. lia.
  - apply G; [apply Z.mul_pos_pos; lia|]. assert (L : (length l <= length (list_prod (map Z.of_nat (seq 0 (Z.to_nat n))) (map Z.of_nat (seq 0 (Z.to_nat k)))))%nat).
    { apply NoDup_incl_length; [exact Nd|]. intros [i j] Hi. apply Hin in Hi as [[Hi Hj] _]. cbn in Hi, Hj. apply in_prod; apply in_map_iff; [exists (Z.to_nat i)|exists (Z.to_nat j)]; (split; [lia|apply in_seq; lia]). }
    rewrite prod_length, !map_length, !seq_length in L. nia.
Qed.
End Count.

Module Examples.
Import PropNet.Examples.
Local Open Scope R_scope.
(** The 16-3-2 network of PropNet.v with a data set of two samples (twice the same tensors). *)
Example C70_applies : exists (l : list (node R)) (m : mem R), l <> [] /\ (Z.of_nat (length l) < 2 ^ 64)%Z /\ net_at m l /\ has_outputs l 2 /\
  data_at m l 2 2 [tx; tx] [ty; ty] (fun _ => xv) (fun _ => yv).
Proof.
  destruct (C63_every_topology_builds (T := R) ps2 m0) as (N & m & E & Len & Tr & A & P & F).
  { unfold ps2. repeat apply Forall_cons; try apply Forall_nil; cbn [plan_ok]; repeat split; try lia; discriminate. }
  destruct (new_nodes_plans N ps2 Len) as [Ep El]. exists (new_nodes N ps2), m.
  assert (Ln : length (new_nodes (T := R) N ps2) = 2%nat). { pose proof (f_equal (@length _) Ep) as Q. unfold plans in Q. rewrite map_length in Q. exact Q. }
  split; [intros Q; rewrite Q in Ln; discriminate|]. split; [lia|]. split; [exact A|].
  destruct (sample_kept m (new_nodes N ps2) 0 16 xv P F ltac:(lia) (holds_list m0 0 xs 0 eq_refl)) as [H1 H2].
  destruct (sample_kept m (new_nodes N ps2) 1 2 yv P F ltac:(lia) (holds_list m0 1 ys 0 eq_refl)) as [H3 H4].
  split; [exists (PDense SoftMax 3 2); split; [rewrite Ep, Ln; reflexivity|reflexivity]|]. split; [reflexivity|].
  intros i Hi. exists tx, ty. assert (Hc : i = 0%Z \/ i = 1%Z) by lia.
  split; [destruct Hc as [->| ->]; reflexivity|]. split; [destruct Hc as [->| ->]; reflexivity|].
  split; [split; [rewrite Ep; cbn; auto|split; [exact H1|exact H2]]|]. split; [reflexivity|]. split; [exact H3|exact H4].
Qed.
(** [0; 3; 3; 1]: first largest component at 1; within the data 2 of 3 indices below 3 are even *)
Example first_max_ex : first_max 4 (fun i => nth (Z.to_nat i) [0; 3; 3; 1] 0) 1.
Proof.
  split; [lia|]. split; intros j Hj.
  - assert (C : (j = 0 \/ j = 1 \/ j = 2 \/ j = 3)%Z) by lia. replace (Z.to_nat 1) with 1%nat by reflexivity. destruct C as [->|[->|[->| ->]]];
      [replace (Z.to_nat 0) with 0%nat by reflexivity|replace (Z.to_nat 1) with 1%nat by reflexivity|replace (Z.to_nat 2) with 2%nat by reflexivity|replace (Z.to_nat 3) with 3%nat by reflexivity]; cbn [nth]; lra.
  - replace j with 0%Z by lia. replace (Z.to_nat 0) with 0%nat by reflexivity. replace (Z.to_nat 1) with 1%nat by reflexivity. cbn [nth]. lra.
Qed.
Example share_ex : share (below 3) Z.Even 3 (2 / 3).
Proof.
  exists [0; 2]%Z. split; [repeat constructor; cbn; lia|]. split.
  - intros i. unfold below. cbn [In]. split; [intros [<-|[<-|[]]]; (split; [lia|])|]; [now exists 0%Z|now exists 1%Z|]. intros [Hi [k Hk]]. lia.
  - cbn. lra.
Qed.
End Examples.

Print Assumptions C70_normal.
Print Assumptions C70_full.
Print Assumptions C70_global.
Print Assumptions C70_between_0_and_1.
Print Assumptions C71_mean_loss.
Print Assumptions C71_single_sample.
Print Assumptions C71_checker_equals_trainer.

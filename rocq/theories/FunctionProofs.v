(** * Loop proofs for Functions.v *)
From Verif Require Import Mem Scalar MemSpec MemLemmas Lique LiqueProofs LiqueProofs2 LiqueSpec Linear LinearProofs Functions FunctionSpec.

Section P.
Context {T : Type} `{NT : Num T}.
Implicit Types (m : mem T) (p q : ptr).

Lemma zfold_S A n (g : Z -> A -> A) a : 0 <= n -> zfold (n + 1) g a = g n (zfold n g a).
Proof.
  intros H. unfold zfold. replace (Z.to_nat (n + 1)) with (S (Z.to_nat n)) by lia. cbn [gfold]. now rewrite Z2Nat.id by lia.
Qed.
Lemma zfold_0 A (g : Z -> A -> A) a : zfold 0 g a = a. Proof. reflexivity. Qed.
Lemma zfold_ext A n (g g' : Z -> A -> A) a : (forall i b, 0 <= i < n -> g i b = g' i b) -> zfold n g a = zfold n g' a.
Proof.
  intros H. destruct (Z.le_gt_cases n 0); [unfold zfold; now replace (Z.to_nat n) with O by lia|].
  unfold zfold. assert (Hn : Z.of_nat (Z.to_nat n) <= n) by lia. revert Hn. generalize (Z.to_nat n) as k.
  induction k; intros Hk; cbn [gfold]; auto. rewrite IHk by lia. apply H. lia.
Qed.
Lemma vmax_ext n (x x' : Z -> T) : 0 < n -> (forall i, 0 <= i < n -> x i = x' i) -> vmax n x = vmax n x'.
Proof.
  intros Hn H. unfold vmax. rewrite (H 0) by lia. apply zfold_ext. intros i b Hi. now rewrite (H (i + 1)) by lia.
Qed.
Lemma act_val_ext a n (x x' : Z -> T) i : 0 <= i < n -> (forall j, 0 <= j < n -> x j = x' j) -> act_val a n x i = act_val a n x' i.
Proof.
  intros Hi H. destruct a; cbn; [now rewrite H|]. rewrite (vmax_ext n x x'), (H i) by (auto; lia).
  do 2 f_equal. apply zsum_ext. intros j Hj. now rewrite H.
Qed.
Lemma act_dval_ext a (x x' : Z -> T) i : x i = x' i -> act_dval a x i = act_dval a x' i.
Proof. intros H. destruct a; cbn; congruence. Qed.

(** reading fold *)
Lemma wp_read_fold lo n p m (f : Z -> T) (g : Z -> T -> T) (step : T -> T -> T) a :
  0 <= n -> (forall i, lo <= i < lo + n -> elem m p i = Some (Some (f i))) ->
  (forall i b, 0 <= i < n -> step b (f (lo + i)) = g i b) ->
  mfold lo (lo + n) (fun i acc => let* x := load p i in ret (step acc x)) a m = Ok (zfold n g a, m).
Proof.
  intros Hn Hf Hg.
  assert (W : wp (mfold lo (lo + n) (fun i acc => let* x := load p i in ret (step acc x)) a) m
            (fun r m' => r = zfold n g a /\ m' = m)).
  { apply (wp_mfold _ lo (lo + n) _ (fun i r m' => r = zfold (i - lo) g a /\ m' = m)); [lia| | |].
    - rewrite Z.sub_diag. auto.
    - intros i r m' Hi [-> ->]. eapply wp_bind, wp_load; [apply Hf; lia|]. apply wp_ret. split; auto.
      replace (i + 1 - lo) with ((i - lo) + 1) by lia. rewrite zfold_S by lia. rewrite <- Hg by lia. do 2 f_equal. lia.
    - intros r m' [-> ->]. split; auto. f_equal. lia. }
  apply wp_elim in W as (r & m' & E & -> & ->). auto.
Qed.
Lemma zfold_zsum n (f : Z -> T) : zfold n (fun i acc => add acc (f i)) zero = zsum n f.
Proof. unfold zfold, zsum. induction (Z.to_nat n); cbn; congruence. Qed.

Lemma wp_apply_range g result n input m (x : Z -> T) :
  room m result n -> holds m input n x -> operand_ok result n input ->
  wp (apply_range g result n input) m (fun _ m' => sets result n (fun i => g (x i)) m m').
Proof.
  intros Hr Hx Ho. apply (wp_map_loop result n (fun i => g (x i))); auto.
  intros i m1 Hi O1. assert (E : elem m1 input i = Some (Some (x i))) by (erewrite operand_elem by eauto; apply Hx; lia).
  erewrite bind_eq by (apply load_ok; eauto). apply store_mset. eapply only_room; eauto.
Qed.
Lemma wp_softmax result n input m (x : Z -> T) : 0 < n ->
  room m result n -> holds m input n x -> operand_ok result n input ->
  wp (softmax result n input n) m (fun _ m' => sets result n (act_val SoftMax n x) m m').
Proof.
  intros Hn Hr Hx Ho. unfold softmax.
  eapply wp_bind, wp_load; [apply Hx; lia|].
  eapply wp_bind'.
  { eapply wp_intro.
    - replace n with (1 + (n - 1)) at 1 by lia.
      apply (wp_read_fold 1 (n - 1) input m x (fun i max => if ltb max (x (i + 1)) then x (i + 1) else max)
               (fun max x => if ltb max x then x else max)); [lia| |].
      + intros i Hi. apply Hx. lia.
      + intros i b Hi. cbv beta. now rewrite (Z.add_comm 1 i).
    - instantiate (1 := fun max m' => max = vmax n x /\ m' = m). cbv beta. unfold vmax. auto. }
  intros max m0 [-> ->]. set (M := vmax n x).
  eapply wp_bind'. { apply (wp_apply_range (fun v => nexp (sub v M)) result n input m x); auto. }
  intros [] m1 [H1 O1]. cbv beta in H1.
  eapply wp_bind'.
  { eapply wp_intro.
    - replace n with (0 + n) at 1 by lia.
      apply (wp_read_fold 0 n result m1 (fun i => nexp (sub (x i) M)) (fun i acc => add acc (nexp (sub (x i) M))) add); [lia| |].
      + intros i Hi. apply H1. lia.
      + reflexivity.
    - instantiate (1 := fun d m' => d = zsum n (fun i => nexp (sub (x i) M)) /\ m' = m1). split; auto. apply zfold_zsum. }
  intros d m2 [-> ->]. eapply wp_conseq.
  { apply (wp_apply_range (fun v => mul v (div one (zsum n (fun i => nexp (sub (x i) M))))) result n result m1 (fun i => nexp (sub (x i) M))); auto.
    - eapply only_room; eauto.
    - now left. }
  intros [] m3 [H3 O3]. split; [apply H3|]. eapply only_trans; eauto.
Qed.
Lemma wp_unstable_softmax result n input m (x : Z -> T) : 0 < n ->
  room m result n -> holds m input n x -> operand_ok result n input ->
  wp (unstable_softmax result n input) m (fun _ m' =>
    sets result n (fun i => mul (nexp (x i)) (div one (zsum n (fun j => nexp (x j))))) m m').
Proof.
  intros Hn Hr Hx Ho. unfold unstable_softmax.
  eapply wp_bind'. { apply (wp_apply_range nexp result n input m x); auto. }
  intros [] m1 [H1 O1]. cbv beta in H1.
  eapply wp_bind'.
  { eapply wp_intro.
    - replace n with (0 + n) at 1 by lia.
      apply (wp_read_fold 0 n result m1 (fun i => nexp (x i)) (fun i acc => add acc (nexp (x i))) add); [lia| |].
      + intros i Hi. apply H1. lia.
      + reflexivity.
    - instantiate (1 := fun d m' => d = zsum n (fun i => nexp (x i)) /\ m' = m1). split; auto. apply zfold_zsum. }
  intros d m2 [-> ->]. eapply wp_conseq.
  { apply (wp_apply_range (fun v => mul v (div one (zsum n (fun i => nexp (x i))))) result n result m1 (fun i => nexp (x i))); auto.
    - eapply only_room; eauto.
    - now left. }
  intros [] m3 [H3 O3]. split; [apply H3|]. eapply only_trans; eauto.
Qed.
Lemma wp_softmax_derived result n m : room m result n ->
  wp (softmax_derived result n) m (fun _ m' => sets result n (fun _ => one) m m').
Proof.
  intros Hr. apply (wp_map_loop result n (fun _ => one)); auto. intros i m1 Hi O1.
  apply store_mset. eapply only_room; eauto.
Qed.
Lemma wp_act_f a result n input m (x : Z -> T) : (a = SoftMax -> 0 < n) ->
  room m result n -> holds m input n x -> operand_ok result n input ->
  wp (act_f a result n input n) m (fun _ m' => sets result n (act_val a n x) m m').
Proof. intros Ha Hr Hx Ho. destruct a; [now apply wp_apply_range|now apply wp_softmax; auto]. Qed.
Lemma wp_act_df a result n input ni m (x : Z -> T) :
  room m result n -> holds m input n x -> operand_ok result n input ->
  wp (act_df a result n input ni) m (fun _ m' => sets result n (act_dval a x) m m').
Proof. intros Hr Hx Ho. destruct a; [now apply wp_apply_range|now apply wp_softmax_derived]. Qed.

(** losses *)
Lemma loss_loop_ok n tp pp m (t p : Z -> T) step : 0 <= n -> holds m tp n t -> holds m pp n p ->
  loss_loop n tp pp step m = Ok (zfold n (fun i acc => step acc (t i) (p i)) zero, m).
Proof.
  intros Hn Ht Hp. unfold loss_loop.
  assert (W : wp (mfold 0 n (fun i acc => let* x := load tp i in let* y := load pp i in ret (step acc x y)) zero) m
            (fun r m' => r = zfold n (fun i acc => step acc (t i) (p i)) zero /\ m' = m)).
  { apply (wp_mfold _ 0 n _ (fun i r m' => r = zfold i (fun i acc => step acc (t i) (p i)) zero /\ m' = m)); [lia|auto| |auto].
    intros i r m' Hi [-> ->]. eapply wp_bind, wp_load; [apply Ht; lia|]. eapply wp_bind, wp_load; [apply Hp; lia|].
    apply wp_ret. split; auto. rewrite zfold_S by lia. reflexivity. }
  apply wp_elim in W as (r & m' & E & -> & ->). auto.
Qed.
Lemma loss_f_ok l n tp pp m (t p : Z -> T) : 0 <= n -> holds m tp n t -> holds m pp n p ->
  loss_f l n tp pp m = Ok (loss_val l n t p, m).
Proof.
  intros Hn Ht Hp. destruct l; cbn [loss_f]; unfold mse, mae, cce, bce, msle, nll, logcosh;
    first [erewrite bind_eq by (apply (loss_loop_ok n tp pp m t p); auto)|rewrite (loss_loop_ok n tp pp m t p) by auto];
    cbn [loss_val]; rewrite <- ?zfold_zsum; reflexivity.
Qed.
Lemma wp_dloss_loop result n tp pp m (t p : Z -> T) g : room m result n -> holds m tp n t -> holds m pp n p ->
  operand_ok result n tp -> operand_ok result n pp ->
  wp (dloss_loop result n tp pp g) m (fun _ m' => sets result n (fun i => g (t i) (p i)) m m').
Proof.
  intros Hr Ht Hp Ot Op. apply (wp_map_loop result n (fun i => g (t i) (p i))); auto.
  intros i m1 Hi O1.
  erewrite bind_eq by (apply load_ok; erewrite operand_elem by eauto; apply Ht; lia).
  erewrite bind_eq by (apply load_ok; erewrite operand_elem by eauto; apply Hp; lia).
  apply store_mset. eapply only_room; eauto.
Qed.
Lemma mset_mset m p i (x y : T) : elem m p i <> None -> mset (mset m p i x) p i y = mset m p i y.
Proof.
  unfold mset, store, elem, cell. destruct p as [|b o]; auto. destruct (nth_error m b) as [[l|]|] eqn:E; try congruence.
  destruct (znth l (o + i)) eqn:E2; try congruence. intros _.
  rewrite nth_set_nth_same by (apply nth_error_Some; congruence).
  destruct (znth_bound _ _ _ _ E2). rewrite znth_set_same by lia.
  clear. assert (G : forall A n (a b : A) l, set_nth n a (set_nth n b l) = set_nth n a l).
  { clear. intros A n; induction n; intros a b l; destruct l; cbn; auto. now rewrite IHn. }
  now rewrite !G.
Qed.
(** [df] of a loss may write over the prediction or into separate storage; over the target it
    may not for MSLE (the target is read after the first write), so the target must be separate. *)
Lemma wp_loss_df l result n tp pp m (t p : Z -> T) : room m result n -> holds m tp n t -> holds m pp n p ->
  disjoint result n tp n -> operand_ok result n pp ->
  wp (loss_df l result n tp pp) m (fun _ m' => sets result n (loss_dval l t p) m m').
Proof.
  intros Hr Ht Hp Dt Op. assert (Ot : operand_ok result n tp) by now right.
  destruct l; cbn [loss_df];
    try (unfold mse_derived, bce_derived_sigmoid, nll_derived_softmax, logcosh_derived;
         eapply wp_conseq; [apply (wp_dloss_loop result n tp pp m t p); auto | intros [] m' H; exact H]).
  - apply (wp_map_loop result n (loss_dval MAE t p)); auto. intros i m1 Hi O1.
    assert (R1 : elem m1 result i <> None) by (eapply only_room; eauto).
    erewrite bind_eq by (apply load_ok; erewrite operand_elem by eauto; apply Ht; lia).
    erewrite bind_eq by (apply load_ok; erewrite operand_elem by eauto; apply Hp; lia).
    erewrite bind_eq by (apply store_mset; auto).
    erewrite bind_eq by (apply load_ok, elem_mset_same; auto).
    rewrite store_mset by (rewrite elem_mset_same by auto; discriminate). now rewrite mset_mset.
  - apply (wp_map_loop result n (loss_dval MSLE t p)); auto. intros i m1 Hi O1.
    assert (R1 : elem m1 result i <> None) by (eapply only_room; eauto).
    erewrite bind_eq by (apply load_ok; erewrite operand_elem by eauto; apply Hp; lia).
    erewrite bind_eq by (apply store_mset; auto).
    erewrite bind_eq by (apply load_ok, elem_mset_same; auto).
    erewrite bind_eq.
    2:{ apply load_ok. rewrite (only_elem (inside result n) m _ tp i).
        - apply Ht. lia.
        - eapply only_trans; [eapply only_weaken; [|apply O1]|apply only_mset_in; auto].
          intros b o. destruct result; cbn; auto. lia.
        - intros b j Hj Hb. apply (Dt b j); auto. destruct tp; cbn in *; auto. lia. }
    rewrite store_mset by (rewrite elem_mset_same by auto; discriminate). now rewrite mset_mset.
Qed.
End P.

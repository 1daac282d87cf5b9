(** * Optimizers over whole histories (proof infrastructure) *)
From Verif Require Import Mem Scalar MemSpec MemLemmas Lique LiqueProofs LinearProofs Optimizer Bufs OptimizerProofs OptimizerSpec.
Open Scope Z_scope.

Section Hist.
Context {T : Type} `{NT : Num T} {Nm : Type} `{NI : Names Nm}.
Context (addr : ptr -> Z) (P : Nm -> ptr) (N : Nm -> Z).
Implicit Types (m : mem T) (o : opt T).

(** state after a list of calls *)
Definition hstate : Type := (Nm -> Z -> @est T) * T * T.
Definition hstep (kd : opt_kind T) (x : hstate) (c : call T Nm) : hstate :=
  let '(X, t1, t2) := x in
  let t1' := next_t1 kd t1 in let t2' := next_t2 kd t2 in
  (upd_state X (c_tensor c) (fun j => elem_step kd (c_lr c) t1' t2' (X (c_tensor c) j) (c_grad c j)), t1', t2').
Definition hrun kd (x : hstate) (cs : list (call T Nm)) : hstate := fold_left (hstep kd) cs x.

Lemma in_memory o k q : In q (opt_memory o (addr (P k))) <-> exists i, q = fst (entry addr P o i k).
Proof.
  unfold opt_memory, entry. split.
  - intros [<-|[<-|[<-|[]]]]; [exists TBuff|exists TM|exists TS]; reflexivity.
  - intros [[] ->]; cbn; auto.
Qed.
Lemma grad_ok_of o gp k : separate_gradient addr P N o gp (N k) -> grad_ok addr P N o gp k.
Proof.
  intros [H1 H2]. split; auto. intros i k'. eapply H2. apply in_memory. eauto.
Qed.

Definition fresh_opt (lr0 : T) o : Prop := o_lr o = lr0 /\ o_buff o = table_new /\ o_m o = table_new /\ o_s o = table_new /\ o_t1 o = one /\ o_t2 o = one.
Definition st0 (w : Nm -> Z -> T) : hstate := (fun k j => mk_est (w k j) zero zero, one, one).

Lemma inv_start lr0 o m w : fresh_opt lr0 o -> (forall k, holds m (P k) (N k) (w k)) -> inv addr P N o m (fun k j => mk_est (w k j) zero zero).
Proof.
  intros (_ & E1 & E2 & E3 & _) Hw.
  assert (E : forall i k, entry addr P o i k = (Null, 0)) by (intros [] k; unfold entry; cbn; rewrite ?E1, ?E2, ?E3; reflexivity).
  split; [|split; [|split]].
  - auto.
  - intros i k. left. split; [apply E|]. intros j _ Hi. destruct i; cbn; congruence.
  - intros i k i' k' _. rewrite E. apply disjoint_null.
  - intros i k k'. rewrite E. apply disjoint_null.
Qed.

Lemma history_inv lr0 o0 m0 w cs lr o m : distinct_tensors addr P N -> fresh_opt lr0 o0 -> (forall k, holds m0 (P k) (N k) (w k)) ->
  history addr P N lr0 o0 m0 cs lr o m ->
  let '(X, t1, t2) := hrun (o_kind o0) (st0 w) cs in
  inv addr P N o m X /\ o_kind o = o_kind o0 /\ o_t1 o = t1 /\ o_t2 o = t2 /\ o_lr o = lr.
Proof.
  intros Ht Hf Hw H. induction H as [|cs lr o m k gp g o' m' H IH Hg Hs Hu|cs lr o m lr' H IH|cs lr o m m' H IH H1 H2].
  - cbn. split; [now apply (inv_start lr0)|]. split; auto. repeat split; apply Hf.
  - unfold hrun in *. rewrite fold_left_app. cbn [fold_left]. destruct (fold_left _ cs _) as [[X t1] t2]. cbn [hstep c_tensor c_lr c_grad].
    destruct IH as (I & Ek & E1 & E2 & El). apply grad_ok_of in Hs.
    pose proof (wp_update addr P N o m X k gp g Ht I Hs Hg) as W. unfold wp in W. rewrite Hu in W.
    destruct W as (W1 & W2 & W3 & W4 & W5 & _). rewrite <- Ek, <- E1, <- E2. rewrite <- El. split; [exact W1|]. repeat split; auto.
  - destruct (hrun _ _ _) as [[X t1] t2]. destruct IH as (I & Ek & E1 & E2 & _). repeat split; auto; apply I.
  - destruct (hrun _ _ _) as [[X t1] t2]. destruct IH as ((I1 & I2 & I3 & I4) & E). split; [|exact E].
    split; [auto|]. split; [|split; auto].
    intros i k. destruct (I2 i k) as [?|(b & c & Eb & Hr & Hh)]; [now left|]. right. exists b, c. split; auto.
    destruct (H2 k (Ptr b c)) as [R1 R2]; [apply in_memory; exists i; now rewrite Eb|exact Hr|]. split; auto.
Qed.

(** every call succeeds *)
Lemma history_progress lr0 o0 m0 w cs lr o m k gp g : distinct_tensors addr P N -> fresh_opt lr0 o0 -> (forall k, holds m0 (P k) (N k) (w k)) ->
  history addr P N lr0 o0 m0 cs lr o m -> holds m gp (N k) g -> separate_gradient addr P N o gp (N k) ->
  exists o' m', opt_update addr o (P k, N k) (gp, N k) m = Ok (o', m') /\
    (scales_grad (o_kind o) -> holds m' gp (N k) (fun j => mul (g j) lr)) /\
    (~ scales_grad (o_kind o) -> holds m' gp (N k) g) /\
    (forall q c v, holds m q c v -> disjoint q c (P k) (N k) -> disjoint q c gp (N k) ->
       (forall r, In r (opt_memory o (addr (P k))) -> disjoint q c r (N k)) -> holds m' q c v) /\
    (forall q c, room m q c -> separate_gradient addr P N o q c -> separate_gradient addr P N o' q c).
Proof.
  intros Ht Hf Hw H Hg Hs. pose proof (history_inv lr0 o0 m0 w cs lr o m Ht Hf Hw H) as HI.
  destruct (hrun _ _ _) as [[X t1] t2]. destruct HI as (I & _ & _ & _ & El). apply grad_ok_of in Hs.
  pose proof (wp_update addr P N o m X k gp g Ht I Hs Hg) as W. unfold wp in W.
  destruct (opt_update _ _ _ _ _) as [[o' m']|]; [|tauto]. exists o', m'. split; [reflexivity|].
  destruct W as (_ & _ & _ & _ & _ & W6 & W7 & W8 & _). split; [rewrite <- El; auto|]. split; [|split].
  - intros Hn. apply (W6 gp (N k) g Hg); [apply Hs|intros i; apply Hs|tauto].
  - intros q c v Hq D1 D2 D3. apply W6; auto. intros i. apply D3. apply in_memory. eauto.
  - intros q c Hr [S1 S2]. split; auto. intros k' r Hi. apply in_memory in Hi as [i ->]. apply W8; auto.
    intros i' k''. eapply S2. apply in_memory. eauto.
Qed.

(** without Adam: a tensor sees only its own calls *)
Definition not_adam (kd : opt_kind T) : Prop := match kd with Adam _ _ _ _ => False | _ => True end.
Lemma elem_step_t kd lr t1 t2 t1' t2' x g : not_adam kd -> elem_step kd lr t1 t2 x g = elem_step kd lr t1' t2' x g.
Proof. destruct kd, x; cbn; tauto. Qed.
Lemma hrun_own kd cs : not_adam kd -> forall X t1 t2 k j,
  fst (fst (hrun kd (X, t1, t2) cs)) k j =
  fold_left (fun x lg => elem_step kd (fst lg) one one x (snd lg)) (own_calls k j cs) (X k j).
Proof.
  intros Hn. induction cs as [|c cs IH]; intros X t1 t2 k j; [reflexivity|].
  cbn [hrun fold_left hstep]. change (fold_left (hstep kd) cs ?x) with (hrun kd x cs). rewrite IH.
  unfold own_calls. cbn [filter]. destruct (same_spec (c_tensor c) k) as [E|E].
  - cbn [map fold_left fst snd]. rewrite E, upd_state_same. f_equal. now apply elem_step_t.
  - rewrite upd_state_other by congruence. reflexivity.
Qed.
Lemma history_params lr0 o0 m0 w cs lr o m k : distinct_tensors addr P N -> fresh_opt lr0 o0 -> not_adam (o_kind o0) -> (forall k, holds m0 (P k) (N k) (w k)) ->
  history addr P N lr0 o0 m0 cs lr o m ->
  holds m (P k) (N k) (fun j => e_w (fold_left (fun x lg => elem_step (o_kind o0) (fst lg) one one x (snd lg)) (own_calls k j cs) (mk_est (w k j) zero zero))).
Proof.
  intros Ht Hf Hn Hw H. pose proof (history_inv lr0 o0 m0 w cs lr o m Ht Hf Hw H) as HI.
  pose proof (hrun_own (o_kind o0) cs Hn (fun k j => mk_est (w k j) zero zero) one one k) as HO. unfold st0 in HI.
  destruct (hrun _ _ _) as [[X t1] t2]. destruct HI as ((I & _) & _). cbn [fst] in HO.
  eapply holds_ext; [|apply I]. intros j _. cbv beta. now rewrite HO.
Qed.

(** Adam: the powers count all calls *)
Fixpoint tpow (b : T) (n : nat) : T := match n with O => one | S n' => mul (tpow b n') b end.
Lemma hrun_adam b1 b2 rb1 rb2 cs : forall X n k j,
  let kd := Adam b1 b2 rb1 rb2 in
  fst (fst (hrun kd (X, tpow b1 n, tpow b2 n) cs)) k j =
  fold_left (fun x nlg => elem_step kd (fst (snd nlg)) (tpow b1 (fst nlg)) (tpow b2 (fst nlg)) x (snd (snd nlg)))
    (map (fun nc => (fst nc, (c_lr (snd nc), c_grad (snd nc) j))) (filter (fun nc => same (c_tensor (snd nc)) k) (numbered (S n) cs))) (X k j).
Proof.
  induction cs as [|c cs IH]; intros X n k j kd; [reflexivity|].
  cbn [hrun fold_left hstep]. change (fold_left (hstep kd) cs ?x) with (hrun kd x cs).
  change (next_t1 kd (tpow b1 n)) with (tpow b1 (S n)). change (next_t2 kd (tpow b2 n)) with (tpow b2 (S n)).
  unfold kd in *. rewrite IH. clear IH.
  cbn [numbered filter fst snd]. destruct (same_spec (c_tensor c) k) as [E|E].
  - cbn [map fold_left fst snd]. rewrite E, upd_state_same. reflexivity.
  - rewrite upd_state_other by congruence. reflexivity.
Qed.
Lemma history_adam lr0 o0 m0 w cs lr o m k b1 b2 rb1 rb2 : distinct_tensors addr P N -> fresh_opt lr0 o0 -> o_kind o0 = Adam b1 b2 rb1 rb2 -> (forall k, holds m0 (P k) (N k) (w k)) ->
  history addr P N lr0 o0 m0 cs lr o m ->
  holds m (P k) (N k) (fun j => e_w (fold_left (fun x nlg => elem_step (o_kind o0) (fst (snd nlg)) (tpow b1 (fst nlg)) (tpow b2 (fst nlg)) x (snd (snd nlg)))
     (own_numbered k j cs) (mk_est (w k j) zero zero))).
Proof.
  intros Ht Hf Hn Hw H. pose proof (history_inv lr0 o0 m0 w cs lr o m Ht Hf Hw H) as HI.
  pose proof (hrun_adam b1 b2 rb1 rb2 cs (fun k j => mk_est (w k j) zero zero) 0 k) as HO. cbn [tpow] in HO. unfold st0 in HI. rewrite <- Hn in HO.
  destruct (hrun _ _ _) as [[X t1] t2]. destruct HI as ((I & _) & _). cbn [fst] in HO.
  eapply holds_ext; [|apply I]. intros j _. cbv beta. now rewrite HO.
Qed.
End Hist.

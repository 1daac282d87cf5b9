(** * Fully connected layers: loop proofs *)
From Verif Require Import Mem Scalar MemSpec MemLemmas Lique LiqueSpec LiqueProofs LiqueProofs2 Linear LinearProofs Functions FunctionSpec FunctionProofs Optimizer Layer LayerSpec.
Open Scope Z_scope.

Section Frame.
Context {T : Type} `{NT : Num T}.
Lemma wp_assoc A B C (c : M T A) (f : A -> M T B) (g : B -> M T C) m Q :
  wp (bind (bind c f) g) m Q -> wp (bind c (fun a => bind (f a) g)) m Q.
Proof. unfold wp. now rewrite bind_assoc. Qed.
Implicit Types (m : mem T) (L : layer) (s : contents T).

Lemma set_role_same s r f : set_role s r f r = f.
Proof. unfold set_role. destruct (role_eq_dec r r); congruence. Qed.
Lemma set_role_other s r f r' : r' <> r -> set_role s r f r' = s r'.
Proof. unfold set_role. destruct (role_eq_dec r' r); congruence. Qed.

Lemma part_ptr m L s r t : layer_at m L s -> part L r = Some t -> t_data t = Ptr (block_of t) 0.
Proof. intros [H _] E. destruct (H r t E) as [(_ & b & Eb & _) _]. unfold block_of. now rewrite Eb. Qed.
Lemma part_live m L s r t : layer_at m L s -> part L r = Some t -> live m (block_of t) (t_size t).
Proof. intros [H _] E. destruct (H r t E) as [(_ & b & Eb & Hl) _]. unfold block_of. now rewrite Eb. Qed.
Lemma part_holds m L s r t : layer_at m L s -> part L r = Some t -> holds m (t_data t) (t_size t) (s r).
Proof. intros [H _] E. now destruct (H r t E). Qed.
Lemma part_room m L s r t : layer_at m L s -> part L r = Some t -> room m (t_data t) (t_size t).
Proof. intros H E. eapply holds_room, part_holds; eauto. Qed.
Lemma part_room' m L s r t n : layer_at m L s -> part L r = Some t -> t_size t = n -> room m (t_data t) n.
Proof. intros H E <-. eapply part_room; eauto. Qed.
Lemma part_holds' m L s r t n : layer_at m L s -> part L r = Some t -> t_size t = n -> holds m (t_data t) n (s r).
Proof. intros H E <-. eapply part_holds; eauto. Qed.
Lemma part_disj m L s r r' t t' n k : layer_at m L s -> part L r = Some t -> part L r' = Some t' -> r <> r' ->
  disjoint (t_data t) n (t_data t') k.
Proof.
  intros H E E' Hne. rewrite (part_ptr _ _ _ _ _ H E), (part_ptr _ _ _ _ _ H E').
  apply disjoint_blocks. eapply H; eauto.
Qed.
Lemma part_outside m L s r t p n k : layer_at m L s -> part L r = Some t -> outside L p -> disjoint (t_data t) n p k.
Proof.
  intros H E Ho. rewrite (part_ptr _ _ _ _ _ H E). destruct p as [|b o]; [intros b i _ []|].
  apply disjoint_blocks. intros Hb. apply Ho. subst. exists r, t. auto.
Qed.
Lemma layer_at_only m m' L s (W : nat -> Z -> Prop) : layer_at m L s -> only W m m' ->
  (forall b i, W b i -> ~ block_in L b) -> layer_at m' L s.
Proof.
  intros H Ho HW. split; [|apply H]. intros r t E. pose proof (part_ptr _ _ _ _ _ H E) as Ep. split.
  - split; auto. exists (block_of t). split; auto. eapply live_skel; [apply Ho|]. eapply part_live; eauto.
  - eapply only_holds; [exact Ho| |eapply part_holds; eauto]. rewrite Ep. intros b i [-> _] C. eapply HW; eauto. exists r, t; auto.
Qed.
Lemma layer_at_sets m m' L s r t f : layer_at m L s -> part L r = Some t -> sets (t_data t) (t_size t) f m m' ->
  layer_at m' L (set_role s r f).
Proof.
  intros H E [Hs Ho]. split; [|apply H]. intros r' t' E'. pose proof (part_ptr _ _ _ _ _ H E') as Ep. split.
  - split; auto. exists (block_of t'). split; auto. eapply live_skel; [apply Ho|]. eapply part_live; eauto.
  - unfold set_role. destruct (role_eq_dec r' r) as [->|Hne].
    + assert (t' = t) by congruence. subst. exact Hs.
    + eapply only_holds_disj; [exact Ho| |eapply part_holds; eauto]. eapply part_disj; [exact H|exact E|exact E'|auto].
Qed.
Lemma sets_only_block m m0 m' L s r t f n : layer_at m0 L s -> part L r = Some t -> sets (t_data t) n f m m' ->
  only (fun b _ => block_at L r b) m m'.
Proof.
  intros H E [_ Ho]. eapply only_weaken; [|exact Ho]. rewrite (part_ptr _ _ _ _ _ H E). intros b i [-> _]. exists t. auto.
Qed.
Lemma layer_at_ext m L s s' : layer_at m L s -> (forall r t i, part L r = Some t -> 0 <= i < t_size t -> s r i = s' r i) -> layer_at m L s'.
Proof.
  intros H He. split; [|apply H]. intros r t E. split; [exact (proj1 (proj1 H r t E))|]. eapply holds_ext; [|eapply part_holds; eauto]. intros i Hi. eapply He; eauto.
Qed.
Lemma outside_holds m m' L p n v (W : nat -> Z -> Prop) : only W m m' -> (forall b i, W b i -> block_in L b) -> outside L p -> holds m p n v -> holds m' p n v.
Proof.
  intros Ho HW Hp. eapply only_holds; [exact Ho|]. destruct p as [|b' o]; [intros b i []|]. intros b i [-> _] C. apply Hp. eapply HW; eauto.
Qed.
Lemma block_at_in L r b : block_at L r b -> block_in L b.
Proof. intros (t & E & ->). exists r, t. auto. Qed.

(** element-wise steps on the tensors of a layer *)
Definition upd_post m L s r f m' : Prop := layer_at m' L (set_role s r f) /\ only (fun b _ => block_at L r b) m m'.
Lemma wp_part_sets (c : M T unit) m L s r t f : layer_at m L s -> part L r = Some t ->
  wp c m (fun _ m' => sets (t_data t) (t_size t) f m m') -> wp c m (fun _ m' => upd_post m L s r f m').
Proof.
  intros H E Hc. eapply wp_conseq; [exact Hc|]. intros [] m' Hs. split; [eapply layer_at_sets; eauto|eapply sets_only_block; eauto].
Qed.
Lemma wp_part_fill m L s r t x : layer_at m L s -> part L r = Some t ->
  wp (tb_fill t x) m (fun _ m' => upd_post m L s r (fun _ => x) m').
Proof. intros H E. eapply wp_part_sets; eauto. apply wp_assign_val_cpy. eapply part_room; eauto. Qed.
Lemma wp_part_join m L s r t x : layer_at m L s -> part L r = Some t ->
  wp (tb_join t x) m (fun _ m' => upd_post m L s r (fun i => mul (s r i) x) m').
Proof. intros H E. eapply wp_part_sets; eauto. apply (wp_assign_val _ _ OpMul). eapply part_holds; eauto. Qed.
Lemma wp_part_assign m L s r t op src u : layer_at m L s -> part L r = Some t -> holds m (t_data src) (t_size t) u -> operand_ok (t_data t) (t_size t) (t_data src) ->
  wp (tb_assign op t src) m (fun _ m' => upd_post m L s r (fun i => op_val op (s r i) (u i)) m').
Proof. intros H E Hu Hok. eapply wp_part_sets; eauto. apply wp_assign_src; auto. eapply part_holds; eauto. Qed.
End Frame.

Section FC.
Context {T : Type} `{NT : Num T}.
Implicit Types (m : mem T) (s : contents T).

(** x.W + B *)
Definition fc_pre (n k : Z) s (x : Z -> T) (j : Z) : T :=
  add (zsum n (fun i => mul (x i) (s (RW 0) (i * k + j)))) (s RB j).

Lemma holds_flat2 m p n k (v : Z -> T) : 0 <= n -> 0 <= k -> holds m p (n * k) v -> holds2 m p n k (fun i j => v (i * k + j)).
Proof. apply holds_2. Qed.

(** The two ways of running the affine part: into the buffer (Train) or the value (Raw). *)
Lemma wp_affine m (L : layer) s n k dst B W x (xv : Z -> T) r :
  layer_at m L s -> r <> RB -> r <> RW 0 -> part L r = Some dst -> part L RB = Some B -> part L (RW 0) = Some W ->
  0 <= n -> 0 <= k -> t_size dst = k -> t_size B = k -> mat_is W n k ->
  t_size x = n -> holds m (t_data x) n xv -> outside L (t_data x) ->
  wp (lin_dot_vm dst x W ;;; tb_assign OpAdd dst B) m (fun _ m' => upd_post m L s r (fc_pre n k s xv) m').
Proof.
  intros H Hr1 Hr2 Ed EB EW Hn Hk Sd SB HW Sx Hx Ho.
  assert (HWs : t_size W = n * k) by apply HW.
  apply wp_bind. eapply wp_conseq.
  { eapply (wp_dot_vm dst x W m xv (fun i j => s (RW 0) (i * k + j))); rewrite ?Sd, ?Sx; auto.
    - apply holds_2; auto. rewrite <- HWs. eapply part_holds; eauto.
    - rewrite <- Sd. eapply part_room; eauto.
    - eapply part_outside; eauto.
    - eapply part_disj; [exact H|exact Ed|exact EW|auto]. }
  intros [] m1 H1. cbn beta zeta in H1. rewrite Sx in H1.
  assert (H1' := layer_at_sets _ _ _ _ _ _ _ H Ed H1).
  assert (HB := part_holds _ _ _ _ _ H1' EB). rewrite SB in HB.
  eapply wp_conseq.
  { eapply wp_part_assign; [exact H1'|exact Ed| |].
    - rewrite Sd. exact HB.
    - right. eapply part_disj; [exact H1'|exact Ed|exact EB|auto]. }
  intros [] m2 [H2 Ho2]. split.
  - eapply layer_at_ext; [exact H2|]. intros r' t i E' Hi. unfold set_role. destruct (role_eq_dec r' r); [|reflexivity].
    destruct (role_eq_dec r r); [|congruence]. destruct (role_eq_dec RB r); [congruence|]. reflexivity.
  - eapply only_trans; [|exact Ho2]. eapply sets_only_block; [exact H|exact Ed|exact H1].
Qed.

Section One.
Context (L : fc) (n k : Z).
Context (D : fc_dims L n k).
Lemma fcd : 0 <= n /\ 0 <= k /\ t_size (f_B L) = k /\ t_size (f_value L) = k /\ t_size (f_buff L) = k /\ t_size (f_gradB L) = k /\
  t_size (f_gradBs L) = k /\ mat_is (f_W L) n k /\ mat_is (f_gradW L) n k /\ mat_is (f_gradWs L) n k /\ t_size (f_delta L) = n /\
  t_size (f_W L) = n * k /\ t_size (f_gradW L) = n * k /\ t_size (f_gradWs L) = n * k.
Proof.
  destruct D as (A & B & C & _ & _ & E & F & G).
  assert (Fw := F (f_W L) ltac:(cbn; auto)). assert (Fg := F (f_gradW L) ltac:(cbn; auto)). assert (Fs := F (f_gradWs L) ltac:(cbn; auto)).
  repeat split; try (apply E; cbn; tauto); try lia; try apply Fw; try apply Fg; try apply Fs; auto.
Qed.

Definition fc_after_forward (a : activation) s (x : Z -> T) : contents T :=
  set_role (set_role s RBuff (fc_pre n k s x)) RValue (act_val a k (fc_pre n k s x)).
Lemma wp_fc_forward a m s x (xv : Z -> T) :
  f_act L = Some a -> (a = SoftMax -> 0 < k) -> layer_at m (LFC L) s ->
  t_size x = n -> holds m (t_data x) n xv -> outside (LFC L) (t_data x) ->
  wp (fc_forward L x) m (fun _ m' => layer_at m' (LFC L) (fc_after_forward a s xv) /\
     only (fun b _ => block_at (LFC L) RBuff b \/ block_at (LFC L) RValue b) m m').
Proof.
  destruct fcd as (Hn & Hk & SB & SV & SU & SG & SGs & MW & MG & MGs & SD & W1 & W2 & W3).
  intros Ea Hsm H Sx Hx Ho. unfold fc_forward.
  apply wp_assoc. apply wp_bind. eapply wp_conseq.
  { eapply (wp_affine m (LFC L) s n k (f_buff L) (f_B L) (f_W L) x xv RBuff); auto; discriminate. }
  intros [] m1 [H1 Ho1]. rewrite Ea. cbn [with_act].
  eapply wp_conseq.
  { eapply (wp_part_sets _ m1 (LFC L) _ RValue (f_value L) (act_val a k (fc_pre n k s xv))); [exact H1|reflexivity|].
    unfold call_f. rewrite SV, SU. apply wp_act_f; auto.
    - eapply (part_room' _ _ _ RValue); [exact H1|reflexivity|auto].
    - pose proof (part_holds' _ _ _ RBuff _ _ H1 eq_refl SU) as P. rewrite set_role_same in P. exact P.
    - right. eapply (part_disj _ _ _ RValue RBuff); [exact H1|reflexivity|reflexivity|discriminate]. }
  intros [] m2 [H2 Ho2]. split; [exact H2|].
  eapply only_trans; eapply only_weaken; [|exact Ho1| |exact Ho2]; cbn; auto.
Qed.

(** gradB = F'(S) * idelta *)
Definition fc_gradB (a : activation) s (d : Z -> T) (j : Z) : T := mul (act_dval a (s RBuff) j) (d j).
(** flat: element (i, j) of a row-major [n] x [k] matrix *)
Definition fc_gradW (a : activation) s (x d : Z -> T) (o : Z) : T := mul (x (o / k)) (fc_gradB a s d (o mod k)).
Definition fc_delta (a : activation) s (d : Z -> T) (i : Z) : T := zsum k (fun j => mul (s (RW 0) (i * k + j)) (fc_gradB a s d j)).
Definition fc_after_backward (a : activation) (full : bool) s (x d : Z -> T) : contents T :=
  let s1 := set_role (set_role s RGradB (fc_gradB a s d)) (RGradW 0) (fc_gradW a s x d) in
  if full then set_role s1 RDelta (fc_delta a s d) else s1.

Lemma wp_fc_backward a m s x dt full (xv d : Z -> T) :
  f_act L = Some a -> layer_at m (LFC L) s ->
  t_size x = n -> holds m (t_data x) n xv -> outside (LFC L) (t_data x) ->
  holds m (t_data dt) k d -> outside (LFC L) (t_data dt) ->
  wp (fc_backward L x dt full) m (fun _ m' => layer_at m' (LFC L) (fc_after_backward a full s xv d) /\
     only (fun b _ => block_at (LFC L) RGradB b \/ block_at (LFC L) (RGradW 0) b \/ full = true /\ block_at (LFC L) RDelta b) m m').
Proof.
  destruct fcd as (Hn & Hk & SB & SV & SU & SG & SGs & MW & MG & MGs & SD & W1 & W2 & W3).
  intros Ea H Sx Hx Ho Hd Hod. unfold fc_backward. rewrite Ea. cbn [with_act].
  apply wp_bind. eapply wp_conseq.
  { eapply (wp_part_sets _ m (LFC L) s RGradB (f_gradB L) (act_dval a (s RBuff))); [exact H|reflexivity|].
    unfold call_df. rewrite SG, SU. apply wp_act_df; auto.
    - eapply (part_room' _ _ _ RGradB); [exact H|reflexivity|auto].
    - eapply (part_holds' _ _ _ RBuff); [exact H|reflexivity|auto].
    - right. eapply (part_disj _ _ _ RGradB RBuff); [exact H|reflexivity|reflexivity|discriminate]. }
  intros [] m1 [H1 Ho1].
  assert (Hx1 : holds m1 (t_data x) n xv) by (eapply outside_holds; [exact Ho1|intros b i Hb; eapply block_at_in; exact Hb|exact Ho|auto]).
  assert (Hd1 : holds m1 (t_data dt) k d) by (eapply outside_holds; [exact Ho1|intros b i Hb; eapply block_at_in; exact Hb|exact Hod|auto]).
  apply wp_bind. eapply wp_conseq.
  { eapply (wp_part_assign m1 (LFC L) _ RGradB (f_gradB L) OpMul dt d); [exact H1|reflexivity|rewrite SG; exact Hd1|].
    right. eapply (part_outside _ _ _ RGradB); [exact H1|reflexivity|auto]. }
  intros [] m2 [H2 Ho2].
  assert (Hx2 : holds m2 (t_data x) n xv) by (eapply outside_holds; [exact Ho2|intros b i Hb; eapply block_at_in; exact Hb|exact Ho|auto]).
  assert (H2' : layer_at m2 (LFC L) (set_role s RGradB (fc_gradB a s d))).
  { eapply layer_at_ext; [exact H2|]. intros r t i _ _. unfold set_role. destruct (role_eq_dec r RGradB); [|reflexivity].
    destruct (role_eq_dec RGradB RGradB); [reflexivity|congruence]. }
  apply wp_bind. eapply wp_conseq.
  { eapply (wp_part_sets _ m2 (LFC L) _ (RGradW 0) (f_gradW L) (fc_gradW a s xv d)); [exact H2'|reflexivity|].
    eapply wp_conseq.
    - eapply (wp_tensordot (f_gradW L) x (f_gradB L) m2 xv (fc_gradB a s d)); rewrite ?Sx, ?SG; auto.
      + eapply (part_room' _ _ _ (RGradW 0)); [exact H2'|reflexivity|auto].
      + pose proof (part_holds' _ _ _ RGradB _ _ H2' eq_refl SG) as P. rewrite set_role_same in P. exact P.
      + eapply (part_outside _ _ _ (RGradW 0)); [exact H2'|reflexivity|auto].
      + eapply (part_disj _ _ _ (RGradW 0) RGradB); [exact H2'|reflexivity|reflexivity|discriminate].
    - intros [] m3 [A B]. rewrite Sx, SG in *. rewrite W2. split; auto. exact (holds2_flat _ _ _ _ (fun i j => mul (xv i) (fc_gradB a s d j)) Hn Hk A). }
  intros [] m3 [H3 Ho3].
  assert (Oall : only (fun b _ => block_at (LFC L) RGradB b \/ block_at (LFC L) (RGradW 0) b \/ full = true /\ block_at (LFC L) RDelta b) m m3).
  { eapply only_trans; [eapply only_weaken; [|exact Ho1]|eapply only_trans; [eapply only_weaken; [|exact Ho2]|eapply only_weaken; [|exact Ho3]]]; cbn; auto. }
  destruct full; [|apply wp_ret; split; auto].
  eapply wp_conseq.
  { eapply (wp_part_sets _ m3 (LFC L) _ RDelta (f_delta L) (fc_delta a s d)); [exact H3|reflexivity|].
    eapply wp_conseq.
    - eapply (wp_dot_mv (f_delta L) (f_W L) (f_gradB L) m3 (fc_gradB a s d) (fun i j => s (RW 0) (i * k + j))); rewrite ?SD, ?SG; auto.
      + pose proof (part_holds' _ _ _ RGradB _ _ H3 eq_refl SG) as P. rewrite set_role_other, set_role_same in P by discriminate. exact P.
      + apply holds_2; auto. pose proof (part_holds' _ _ _ (RW 0) _ _ H3 eq_refl W1) as P. rewrite !set_role_other in P by discriminate. exact P.
      + eapply (part_room' _ _ _ RDelta); [exact H3|reflexivity|auto].
      + eapply (part_disj _ _ _ RDelta RGradB); [exact H3|reflexivity|reflexivity|discriminate].
      + eapply (part_disj _ _ _ RDelta (RW 0)); [exact H3|reflexivity|reflexivity|discriminate].
    - intros [] m4 H4. cbn beta zeta in H4. rewrite SG in H4. exact H4. }
  intros [] m4 [H4 Ho4]. split; [exact H4|]. eapply only_trans; [exact Oall|]. eapply only_weaken; [|exact Ho4]. cbn; auto.
Qed.

Definition fc_after_reset s : contents T := set_role (set_role s RGradBs (fun _ => zero)) RGradWs (fun _ => zero).
Lemma wp_fc_reset m s : layer_at m (LFC L) s ->
  wp (fc_reset L) m (fun L' m' => L' = fc_set_acc L false /\ layer_at m' (LFC L) (fc_after_reset s) /\
     only (fun b _ => block_at (LFC L) RGradBs b \/ block_at (LFC L) RGradWs b) m m').
Proof.
  intros H. unfold fc_reset. apply wp_bind. eapply wp_conseq; [eapply (wp_part_fill m (LFC L) s RGradBs); [exact H|reflexivity]|].
  intros [] m1 [H1 O1]. apply wp_bind. eapply wp_conseq; [eapply (wp_part_fill m1 (LFC L) _ RGradWs); [exact H1|reflexivity]|].
  intros [] m2 [H2 O2]. apply wp_ret. split; [reflexivity|]. split; [exact H2|].
  eapply only_trans; eapply only_weaken; [|exact O1| |exact O2]; cbn; auto.
Qed.
Definition fc_after_accumulate s : contents T :=
  set_role (set_role s RGradBs (fun j => add (s RGradBs j) (s RGradB j))) RGradWs (fun o => add (s RGradWs o) (s (RGradW 0) o)).
Lemma wp_fc_accumulate m s : layer_at m (LFC L) s ->
  wp (fc_accumulate L) m (fun L' m' => L' = fc_set_acc L true /\ layer_at m' (LFC L) (fc_after_accumulate s) /\
     only (fun b _ => block_at (LFC L) RGradBs b \/ block_at (LFC L) RGradWs b) m m').
Proof.
  destruct fcd as (Hn & Hk & SB & SV & SU & SG & SGs & MW & MG & MGs & SD & W1 & W2 & W3).
  intros H. unfold fc_accumulate. apply wp_bind. eapply wp_conseq.
  { eapply (wp_part_assign m (LFC L) s RGradBs (f_gradBs L) OpAdd (f_gradB L)); [exact H|reflexivity| |].
    - rewrite SGs. eapply (part_holds' _ _ _ RGradB); [exact H|reflexivity|auto].
    - right. eapply (part_disj _ _ _ RGradBs RGradB); [exact H|reflexivity|reflexivity|discriminate]. }
  intros [] m1 [H1 O1]. apply wp_bind. eapply wp_conseq.
  { eapply (wp_part_assign m1 (LFC L) _ RGradWs (f_gradWs L) OpAdd (f_gradW L)); [exact H1|reflexivity| |].
    - rewrite W3. eapply (part_holds' _ _ _ (RGradW 0)); [exact H1|reflexivity|auto].
    - right. eapply (part_disj _ _ _ RGradWs (RGradW 0)); [exact H1|reflexivity|reflexivity|discriminate]. }
  intros [] m2 [H2 O2]. apply wp_ret. split; [reflexivity|]. split; [exact H2|].
  eapply only_trans; eapply only_weaken; [|exact O1| |exact O2]; cbn; auto.
Qed.
End One.
End FC.

(** update *)
Section Update.
Context {T : Type} `{NT : Num T}.
Context (L : fc) (n k : Z) (D : fc_dims L n k).
Implicit Types (m : mem T) (s : contents T).
Definition rGB : role := if f_acc L then RGradBs else RGradB.
Definition rGW : role := if f_acc L then RGradWs else RGradW 0.
Definition scaled (alpha g : T) : T := if eqb alpha one then g else mul g alpha.
Definition tGB : tensor := if f_acc L then f_gradBs L else f_gradB L.
Definition tGW : tensor := if f_acc L then f_gradWs L else f_gradW L.
Lemma part_GB : part (LFC L) rGB = Some tGB. Proof. unfold rGB, tGB. now destruct (f_acc L). Qed.
Lemma part_GW : part (LFC L) rGW = Some tGW. Proof. unfold rGW, tGW. now destruct (f_acc L). Qed.
Lemma size_GB : t_size tGB = k. Proof. unfold tGB. pose proof (fcd L n k D). destruct (f_acc L); tauto. Qed.
Lemma size_GW : t_size tGW = n * k. Proof. unfold tGW. pose proof (fcd L n k D). destruct (f_acc L); tauto. Qed.
Lemma roles_ne : rGB <> rGW /\ rGB <> RB /\ rGB <> RW 0 /\ rGW <> RB /\ rGW <> RW 0.
Proof. unfold rGB, rGW. destruct (f_acc L); repeat split; discriminate. Qed.
Definition fc_scaled (alpha : T) s : contents T :=
  set_role (set_role s rGB (fun j => scaled alpha (s rGB j))) rGW (fun o => scaled alpha (s rGW o)).
(** [update] scales the gradient in use by [alpha], then calls the optimizer on B and on W *)
Lemma fc_update_scaled addr alpha m s : layer_at m (LFC L) s ->
  exists m1, layer_at m1 (LFC L) (fc_scaled alpha s) /\
    only (fun b _ => block_at (LFC L) rGB b \/ block_at (LFC L) rGW b) m m1 /\
    forall o, fc_update addr L o alpha m =
      (let* o1 := opt_update addr o (t_data (f_B L), k) (t_data tGB, k) in opt_update addr o1 (t_data (f_W L), n * k) (t_data tGW, n * k)) m1.
Proof.
  intros H. destruct roles_ne as (N1 & N2 & N3 & N4 & N5).
  destruct (fcd L n k D) as (Hn & Hk & SB & SV & SU & SG & SGs & MW & MG & MGs & SD & W1 & W2 & W3).
  assert (E : wp (if negb (eqb alpha one) then tb_join tGB alpha ;;; tb_join tGW alpha else ret tt) m (fun _ m1 =>
    layer_at m1 (LFC L) (fc_scaled alpha s) /\ only (fun b _ => block_at (LFC L) rGB b \/ block_at (LFC L) rGW b) m m1)).
  { unfold fc_scaled, scaled. destruct (eqb alpha one); cbn [negb].
    - apply wp_ret. split; [|apply only_refl]. eapply layer_at_ext; [exact H|]. intros r t i _ _. unfold set_role.
      destruct (role_eq_dec r rGW); [now subst|]. destruct (role_eq_dec r rGB); [now subst|reflexivity].
    - apply wp_bind. eapply wp_conseq; [eapply (wp_part_join m (LFC L) s rGB); [exact H|apply part_GB]|]. intros [] m1 [H1 O1].
      eapply wp_conseq; [eapply (wp_part_join m1 (LFC L) _ rGW); [exact H1|apply part_GW]|]. intros [] m2 [H2 O2]. split.
      + eapply layer_at_ext; [exact H2|]. intros r t i _ _. unfold set_role.
        repeat (match goal with |- context [role_eq_dec ?a ?b] => destruct (role_eq_dec a b); try congruence end).
      + eapply only_trans; eapply only_weaken; [|exact O1| |exact O2]; cbn; auto. }
  apply wp_elim in E as ([] & m1 & E & H1 & O1). exists m1. split; auto. split; auto. intros o.
  unfold fc_update. fold tGB tGW. erewrite bind_eq by exact E. unfold rng. rewrite SB, W1, size_GB, size_GW. reflexivity.
Qed.
(** the same with GradDescent, to the end *)
Definition fc_after_gd (lr alpha : T) s : contents T :=
  let gb := fun j => mul (scaled alpha (s rGB j)) lr in
  let gw := fun o => mul (scaled alpha (s rGW o)) lr in
  set_role (set_role (set_role (set_role s rGB gb) rGW gw) RB (fun j => sub (s RB j) (gb j))) (RW 0) (fun o => sub (s (RW 0) o) (gw o)).
Lemma wp_fc_update_gd addr alpha m s o : layer_at m (LFC L) s -> o_kind o = GradDescent ->
  wp (fc_update addr L o alpha) m (fun o' m' => o' = o /\ layer_at m' (LFC L) (fc_after_gd (o_lr o) alpha s) /\
    only (fun b _ => block_in (LFC L) b) m m').
Proof.
  intros H Ho. destruct roles_ne as (N1 & N2 & N3 & N4 & N5).
  destruct (fcd L n k D) as (Hn & Hk & SB & SV & SU & SG & SGs & MW & MG & MGs & SD & W1 & W2 & W3).
  destruct (fc_update_scaled addr alpha m s H) as (m1 & H1 & O1 & E). unfold wp. rewrite E. clear E.
  match goal with |- match ?c m1 with _ => _ end => change (wp c m1 (fun o' m' => o' = o /\ layer_at m' (LFC L) (fc_after_gd (o_lr o) alpha s) /\
    only (fun b _ => block_in (LFC L) b) m m')) end.
  apply wp_bind. unfold opt_update at 1. rewrite Ho. cbn [fst snd]. apply wp_bind. unfold r_join. cbn [fst snd].
  rewrite <- size_GB. eapply wp_conseq; [eapply (wp_part_join m1 (LFC L) _ rGB); [exact H1|apply part_GB]|]. intros [] m2 [H2 O2].
  apply wp_bind. unfold r_op. cbn [fst snd]. rewrite size_GB.
  assert (P2 := part_holds' _ _ _ _ _ _ H2 part_GB size_GB).
  eapply wp_conseq.
  { eapply (wp_part_sets _ m2 (LFC L) _ RB (f_B L)); [exact H2|reflexivity|].
    rewrite SB. eapply wp_assign_src; [eapply (part_holds' _ _ _ RB); [exact H2|reflexivity|auto]|exact P2|].
    right. eapply (part_disj _ _ _ RB rGB); [exact H2|reflexivity|apply part_GB|auto]. }
  intros [] m3 [H3 O3]. apply wp_ret.
  unfold opt_update at 1. rewrite Ho. cbn [fst snd]. apply wp_bind. unfold r_join. cbn [fst snd].
  rewrite <- size_GW. eapply wp_conseq; [eapply (wp_part_join m3 (LFC L) _ rGW); [exact H3|apply part_GW]|]. intros [] m4 [H4 O4].
  apply wp_bind. unfold r_op. cbn [fst snd]. rewrite size_GW.
  assert (P4 := part_holds' _ _ _ _ _ _ H4 part_GW size_GW).
  eapply wp_conseq.
  { eapply (wp_part_sets _ m4 (LFC L) _ (RW 0) (f_W L)); [exact H4|reflexivity|].
    rewrite W1. eapply wp_assign_src; [eapply (part_holds' _ _ _ (RW 0)); [exact H4|reflexivity|auto]|exact P4|].
    right. eapply (part_disj _ _ _ (RW 0) rGW); [exact H4|reflexivity|apply part_GW|auto]. }
  intros [] m5 [H5 O5]. apply wp_ret. split; [reflexivity|]. split.
  - eapply layer_at_ext; [exact H5|]. intros r t i _ _. unfold fc_after_gd, fc_scaled, op_val, set_role; cbv beta zeta.
    repeat (match goal with |- context [role_eq_dec ?a ?b] => destruct (role_eq_dec a b); try congruence end).
  - eapply only_trans; [|eapply only_trans; [|eapply only_trans; [|eapply only_trans]]];
    (eapply only_weaken; [|eassumption]); cbn; intros; try (eapply block_at_in; eassumption).
    destruct H0; eapply block_at_in; eassumption.
Qed.
End Update.

(** construction *)
Section New.
Context {T : Type} `{NT : Num T}.
Implicit Types (m : mem T).
(** a freshly created tensor of zeros, number [length m] of the blocks *)
Definition zeros_made m (t : tensor) (n : Z) m' : Prop :=
  t_size t = n /\ made m n (fun _ => zero) (t_data t) m'.
Lemma wp_ten_zeros m s : s_size s = u64 (s_depth s * s_height s * s_width s) ->
  wp (ten_zeros tb_default s) m (fun t m' => zeros_made m t (s_size s) m' /\ t_shape t = shape3 (s_depth s) (s_height s) (s_width s)).
Proof.
  intros Hs. unfold ten_zeros, ten_resize_shape, ten_resize. cbn [t_data tb_default].
  apply wp_bind, wp_bind. unfold free. cbn [wp]. apply wp_bind, wp_alloc, wp_ret, wp_bind.
  assert (H0 : 0 <= s_size (shape3 (s_depth s) (s_height s) (s_width s))) by (apply Z.mod_pos_bound; reflexivity).
  eapply wp_conseq; [apply wp_alloc_fill; exact H0|]. intros [] m' H. apply wp_ret. rewrite Hs. split; [split; [reflexivity|exact H]|reflexivity].
Qed.
Lemma wp_vec_zeros m w : 0 <= w < 2 ^ 64 ->
  wp (vec_zeros tb_default w) m (fun t m' => zeros_made m t w m' /\ t_shape t = shape3 1 w 1).
Proof.
  intros Hw. unfold vec_zeros, vec_resize. cbn [t_data tb_default].
  apply wp_bind, wp_bind. unfold free. cbn [wp]. apply wp_bind, wp_alloc, wp_ret, wp_bind.
  assert (E : s_size (shape3 1 w 1) = w) by (cbn [s_size shape3]; rewrite u64_small; lia).
  unfold tb_fill, t_size. cbn [t_data t_shape]. rewrite E.
  eapply wp_conseq; [apply wp_alloc_fill; lia|]. intros [] m' H. apply wp_ret. split; [split; [exact E|exact H]|reflexivity].
Qed.
Lemma wp_mat_zeros m h w : 0 <= h -> 0 <= w -> h * w < 2 ^ 64 ->
  wp (mat_zeros tb_default h w) m (fun t m' => zeros_made m t (h * w) m' /\ mat_is t h w).
Proof.
  intros Hh Hw Hb. unfold mat_zeros, mat_resize. cbn [t_data tb_default].
  apply wp_bind, wp_bind. unfold free. cbn [wp]. apply wp_bind, wp_alloc, wp_ret, wp_bind.
  cbn [s_size]. unfold tb_fill, t_size. cbn [t_data t_shape s_size]. rewrite u64_small by nia.
  eapply wp_conseq; [apply wp_alloc_fill; nia|]. intros [] m' H. apply wp_ret.
  split; [split; [|exact H]; reflexivity|]. unfold mat_is, t_size. cbn. repeat split; auto; nia.
Qed.

(** a tensor created somewhere between [m0] and [m], as block [b] *)
Definition made_at (b : nat) (t : tensor) (n : Z) m : Prop :=
  t_size t = n /\ t_data t = Ptr b 0 /\ live m b n /\ holds m (t_data t) n (fun _ => zero).
Lemma zeros_made_at m t n m' : zeros_made m t n m' -> made_at (length m) t n m'.
Proof. intros (A & B & C & D & _). rewrite B in *. unfold made_at. rewrite B. auto. Qed.
Lemma keeps_live m m' b n : keeps (fun _ => False) m m' -> live m b n -> live m' b n.
Proof.
  intros [_ K] (l & A & B). exists l. split; auto. rewrite K; auto. apply nth_error_Some. congruence.
Qed.
Lemma made_at_keeps b t n m m' : keeps (fun _ => False) m m' -> made_at b t n m -> made_at b t n m'.
Proof.
  intros K (A & B & C & D). split; [auto|]. split; [auto|]. split; [eapply keeps_live; eauto|].
  rewrite B in *. intros i Hi. specialize (D i Hi). cbn in *. eapply keeps_cell; eauto.
Qed.
Lemma made_keeps m t n m' : zeros_made m t n m' -> keeps (fun _ => False) m m' /\ length m' = S (length m).
Proof. intros (_ & _ & _ & _ & K & E). auto. Qed.
Lemma made_at_owner b t n m : made_at b t n m -> owner m t (t_size t) /\ holds m (t_data t) (t_size t) (fun _ => zero) /\ block_of t = b.
Proof. intros (A & B & C & D). rewrite A. repeat split; auto. - exists b. auto. - unfold block_of. now rewrite B. Qed.

Definition fresh_blocks m L : Prop := forall b, block_in L b -> (length m <= b)%nat.

Lemma wp_fc_prepare m L n k : 0 <= n < 2 ^ 64 -> 0 <= k < 2 ^ 64 -> n * k < 2 ^ 64 ->
  f_isize L = shape3 1 1 n -> f_osize L = shape3 1 1 k ->
  f_value L = tb_default -> f_buff L = tb_default -> f_gradB L = tb_default -> f_gradW L = tb_default ->
  f_gradBs L = tb_default -> f_gradWs L = tb_default -> f_delta L = tb_default ->
  wp (fc_prepare L) m (fun L' m' =>
    f_B L' = f_B L /\ f_W L' = f_W L /\ f_act L' = f_act L /\ f_isize L' = f_isize L /\ f_osize L' = f_osize L /\ f_acc L' = false /\
    keeps (fun _ => False) m m' /\
    made_at (length m) (f_value L') k m' /\ made_at (1 + length m) (f_buff L') k m' /\ made_at (2 + length m) (f_gradBs L') k m' /\
    made_at (3 + length m) (f_gradWs L') (n * k) m' /\ made_at (4 + length m) (f_gradB L') k m' /\
    made_at (5 + length m) (f_gradW L') (n * k) m' /\ made_at (6 + length m) (f_delta L') n m' /\
    mat_is (f_gradW L') n k /\ mat_is (f_gradWs L') n k).
Proof.
  intros Hn Hk Hnk Ei Eo E1 E2 E3 E4 E5 E6 E7. unfold fc_prepare. rewrite Ei, Eo, E1, E2, E3, E4, E5, E6, E7. cbn [shape3 s_width].
  assert (Sk : s_size (shape3 1 1 k) = k) by (cbn [s_size shape3]; rewrite u64_small; lia).
  assert (Sn : s_size (shape3 1 1 n) = n) by (cbn [s_size shape3]; rewrite u64_small; lia).
  apply wp_bind. eapply wp_conseq; [apply wp_ten_zeros; reflexivity|]. intros v m1 [V1 _]. fold (shape3 1 1 k) in V1. rewrite Sk in V1.
  apply wp_bind. eapply wp_conseq; [apply wp_vec_zeros; lia|]. intros bu m2 [V2 _].
  apply wp_bind. eapply wp_conseq; [apply wp_vec_zeros; lia|]. intros gbs m3 [V3 _].
  apply wp_bind. eapply wp_conseq; [apply wp_mat_zeros; lia|]. intros gws m4 [V4 M4].
  apply wp_bind. eapply wp_conseq; [apply wp_vec_zeros; lia|]. intros gb m5 [V5 _].
  apply wp_bind. eapply wp_conseq; [apply wp_mat_zeros; lia|]. intros gw m6 [V6 M6].
  apply wp_bind. eapply wp_conseq; [apply wp_ten_zeros; reflexivity|]. intros d m7 [V7 _]. fold (shape3 1 1 n) in V7. rewrite Sn in V7.
  apply wp_ret. cbn.
  destruct (made_keeps _ _ _ _ V1) as [K1 L1]. destruct (made_keeps _ _ _ _ V2) as [K2 L2]. destruct (made_keeps _ _ _ _ V3) as [K3 L3].
  destruct (made_keeps _ _ _ _ V4) as [K4 L4]. destruct (made_keeps _ _ _ _ V5) as [K5 L5]. destruct (made_keeps _ _ _ _ V6) as [K6 L6].
  destruct (made_keeps _ _ _ _ V7) as [K7 L7].
  apply zeros_made_at in V1. apply zeros_made_at in V2. apply zeros_made_at in V3. apply zeros_made_at in V4.
  apply zeros_made_at in V5. apply zeros_made_at in V6. apply zeros_made_at in V7.
  rewrite ?L6, ?L5, ?L4, ?L3, ?L2, ?L1 in *.
  repeat (split; [solve [auto | repeat (eassumption || (eapply LiqueProofs.keeps_trans; [eassumption|])) | repeat (eassumption || (eapply made_at_keeps; [eassumption|]))]|]).
  auto.
Qed.

(** assembling a layer from its created tensors *)
Lemma fc_assemble m L n k b1 b2 b3 b4 b5 b6 b7 b8 b9 :
  0 <= n < 2 ^ 64 -> 0 <= k < 2 ^ 64 -> n * k < 2 ^ 64 -> f_isize L = shape3 1 1 n -> f_osize L = shape3 1 1 k ->
  made_at b1 (f_B L) k m -> made_at b2 (f_W L) (n * k) m -> made_at b3 (f_value L) k m -> made_at b4 (f_buff L) k m ->
  made_at b5 (f_gradBs L) k m -> made_at b6 (f_gradWs L) (n * k) m -> made_at b7 (f_gradB L) k m -> made_at b8 (f_gradW L) (n * k) m ->
  made_at b9 (f_delta L) n m -> mat_is (f_W L) n k -> mat_is (f_gradW L) n k -> mat_is (f_gradWs L) n k ->
  NoDup [b1; b2; b3; b4; b5; b6; b7; b8; b9] ->
  fc_dims L n k /\ layer_at m (LFC L) (fun _ _ => zero) /\ (forall b, block_in (LFC L) b -> In b [b1; b2; b3; b4; b5; b6; b7; b8; b9]).
Proof.
  intros Hn Hk Hnk Ei Eo A1 A2 A3 A4 A5 A6 A7 A8 A9 M1 M2 M3 ND. split; [|split].
  - split; [auto|]. split; [auto|]. split; [auto|]. split; [auto|]. split; [auto|]. split; [|split].
    + cbn. intros t H. repeat destruct H as [<-|H]; try tauto; [apply A1|apply A3|apply A4|apply A7|apply A5].
    + cbn. intros t H. repeat destruct H as [<-|H]; try tauto; auto.
    + apply A9.
  - assert (P : forall r t, part (LFC L) r = Some t -> exists b sz, made_at b t sz m /\
        nth_error [b1; b2; b3; b4; b5; b6; b7; b8; b9] (match r with RB => 0 | RW _ => 1 | RValue => 2 | RBuff => 3 | RGradBs => 4 | RGradWs => 5 | RGradB => 6 | RGradW _ => 7 | _ => 8 end)%nat = Some b).
    { intros r t E. destruct r as [|[]| | | |[]| | | |]; cbn in E; try discriminate; injection E as <-; eauto 8. }
    split.
    + intros r t E. destruct (P r t E) as (b & sz & H & _). destruct (made_at_owner _ _ _ _ H) as (X & Y & _). auto.
    + intros r r' t t' E E' Hne Hb. destruct (P r t E) as (b & sz & H & I1). destruct (P r' t' E') as (b' & sz' & H' & I2).
      destruct (made_at_owner _ _ _ _ H) as (_ & _ & X). destruct (made_at_owner _ _ _ _ H') as (_ & _ & X').
      rewrite X, X' in Hb. subst b'. rewrite NoDup_nth_error in ND.
      assert (Hi := ND _ (match r' with RB => 0 | RW _ => 1 | RValue => 2 | RBuff => 3 | RGradBs => 4 | RGradWs => 5 | RGradB => 6 | RGradW _ => 7 | _ => 8 end)%nat ltac:(apply nth_error_Some; rewrite I1; discriminate) ltac:(rewrite I1, I2; congruence)).
      destruct r as [|[]| | | |[]| | | |]; cbn in E; try discriminate; destruct r' as [|[]| | | |[]| | | |]; cbn in E'; try discriminate; try discriminate Hi; congruence.
  - intros b (r & t & E & ->). destruct r as [|[]| | | |[]| | | |]; cbn in E; try discriminate; injection E as <-;
    match goal with H : made_at ?x (?f L) _ _ |- In (block_of (?f L)) _ => rewrite (proj2 (proj2 (made_at_owner _ _ _ _ H))) end; cbn; tauto.
Qed.

Lemma wp_fc_new m n k act : 0 <= n < 2 ^ 64 -> 0 <= k < 2 ^ 64 -> n * k < 2 ^ 64 ->
  wp (fc_new n k act) m (fun L m' => fc_dims L n k /\ f_act L = act /\ f_acc L = false /\
    layer_at m' (LFC L) (fun _ _ => zero) /\ keeps (fun _ => False) m m' /\ fresh_blocks m (LFC L)).
Proof.
  intros Hn Hk Hnk. unfold fc_new.
  apply wp_bind. eapply wp_conseq; [apply wp_vec_zeros; lia|]. intros B m1 [V1 _].
  apply wp_bind. eapply wp_conseq; [apply wp_mat_zeros; lia|]. intros W m2 [V2 M2].
  eapply wp_conseq; [apply (wp_fc_prepare _ _ n k); auto|].
  intros L m3 (EB & EW & Ea & Ei & Eo & Ec & K3 & P3 & P4 & P5 & P6 & P7 & P8 & P9 & MG & MGs). cbn [f_B f_W f_act f_isize f_osize] in *.
  destruct (made_keeps _ _ _ _ V1) as [K1 L1]. destruct (made_keeps _ _ _ _ V2) as [K2 L2].
  apply zeros_made_at in V1. apply zeros_made_at in V2. rewrite L2, L1 in *.
  eapply made_at_keeps in V1; [|exact K2]. eapply made_at_keeps in V1; [|exact K3]. eapply made_at_keeps in V2; [|exact K3].
  rewrite <- EB in V1. rewrite <- EW in V2, M2.
  destruct (fc_assemble m3 L n k _ _ _ _ _ _ _ _ _ Hn Hk Hnk Ei Eo V1 V2 P3 P4 P5 P6 P7 P8 P9 M2 MG MGs) as (A1 & A2 & A3).
  { repeat constructor; cbn; intuition lia. }
  repeat (split; [solve [auto|eapply LiqueProofs.keeps_trans; [exact K1|eapply LiqueProofs.keeps_trans; [exact K2|exact K3]]]|]).
  intros b Hb. apply A3 in Hb. cbn in Hb. intuition lia.
Qed.
End New.

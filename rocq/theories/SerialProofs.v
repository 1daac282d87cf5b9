(** * Proofs about serialization *)
From Verif Require Import Mem Scalar MemSpec MemLemmas Lique LiqueSpec LiqueProofs LiqueProofs2 Functions FunctionSpec Optimizer Layer LayerSpec FCProofs Cells
  ConvSpec ConvProofs ConvProofs2 PoolSpec Net NetPlan NetProofs Serial.
Open Scope Z_scope.

Section SerialProofs.
Context {T : Type} `{NT : Num T}.
Implicit Types (m : mem T).
Notation archive := (list (item T)).

(** ** the archive of a tensor with given contents *)
Fixpoint enc_elems (v : Z -> T) (i : Z) (n : nat) : archive := match n with O => [] | S n => INum (v i) :: enc_elems v (i + 1) n end.
Definition enc_tensor (s : shape) (v : Z -> T) : archive := save_shape s ++ IWord (s_size s) :: enc_elems v 0 (Z.to_nat (s_size s)).

Lemma save_elems_ok m p v n : forall i, (forall j, i <= j < i + Z.of_nat n -> elem m p j = Some (Some (v j))) -> save_elems p i n m = Ok (enc_elems v i n, m).
Proof.
  induction n as [|n IH]; intros i H; [reflexivity|]. cbn [save_elems enc_elems].
  assert (E : load p i m = Ok (v i, m)). { destruct (wp_elim _ _ _ _ (wp_load p i (v i) m (fun y m' => y = v i /\ m' = m) (H i ltac:(lia)) (conj eq_refl eq_refl))) as (a & m' & E & -> & ->). exact E. }
  unfold bind at 1. rewrite E. unfold bind. rewrite IH; [reflexivity|]. intros j Hj. apply H. lia.
Qed.
Lemma save_tensor_ok m t v : 0 <= t_size t -> holds m (t_data t) (t_size t) v -> save_tensor t m = Ok (enc_tensor (t_shape t) v, m).
Proof. intros Hn H. unfold save_tensor, bind. rewrite (save_elems_ok _ _ v); [reflexivity|]. intros j Hj. apply H. lia. Qed.

Lemma wp_load_elems p v a N : forall n i m, 0 <= i -> i + Z.of_nat n = N -> room m p N -> (forall j, 0 <= j < i -> elem m p j = Some (Some (v j))) ->
  wp (load_elems p i n (enc_elems v i n ++ a)) m (fun a' m' => a' = a /\ sets p N v m m').
Proof.
  induction n as [|n IH]; intros i m Hi E R H; cbn [load_elems enc_elems app].
  - apply wp_ret. split; [reflexivity|]. split; [|apply only_refl]. intros j Hj. apply H. lia.
  - apply wp_bind, wp_ret, wp_bind. apply wp_store; [apply R; lia|].
    eapply wp_conseq; [apply IH; [lia|lia| |]|].
    + eapply only_room; [|exact R]. apply (only_mset_in m p N). lia.
    + intros j Hj. destruct (Z.eq_dec j i) as [->|Ne]; [apply elem_mset_same; apply R; lia|].
      rewrite elem_mset_other; [apply H; lia|right; auto|]. intros b o b' o' -> Q Eb Eo. injection Q as -> ->. lia.
    + intros a' m' (-> & Hh & Ho). split; [reflexivity|]. split; [exact Hh|]. eapply only_trans; [|exact Ho]. apply (only_mset_in m p N). lia.
Qed.
Lemma wp_load_shape s a m (Q : shape * archive -> mem T -> Prop) : Q (s, a) m -> wp (load_shape (save_shape s ++ a)) m Q.
Proof. intros H. destruct s as [d h w n]. exact H. Qed.
Lemma wp_load_tensor s v a m : 0 <= s_size s ->
  wp (load_tensor tb_default (enc_tensor s v ++ a)) m (fun r m' => t_shape (fst r) = s /\ snd r = a /\ made m (s_size s) v (t_data (fst r)) m').
Proof.
  intros Hn. unfold load_tensor, enc_tensor. rewrite <- app_assoc. apply wp_bind, wp_load_shape. cbn [app].
  apply wp_bind. cbn [get_word]. apply wp_ret. cbn [t_data tb_default]. apply wp_bind, wp_alloc, wp_bind.
  eapply wp_conseq; [apply (wp_load_elems _ v a (s_size s)); [lia|lia|apply room_alloc|lia]|].
  intros a' m' (-> & S). apply wp_ret. cbn [fst snd t_shape t_data]. split; [destruct s; reflexivity|]. split; [reflexivity|]. now apply made_of_sets.
Qed.

(** a tensor in block [b] with contents [v] *)
Definition made_with (b : nat) (t : tensor) (n : Z) (v : Z -> T) m : Prop := t_size t = n /\ t_data t = Ptr b 0 /\ live m b n /\ holds m (t_data t) n v.
Lemma made_made_with m t v m' : made m (t_size t) v (t_data t) m' -> made_with (length m) t (t_size t) v m' /\ keeps (fun _ => False) m m' /\ length m' = S (length m).
Proof. intros (A & B & C & D & E). split; [|auto]. split; [auto|]. split; [auto|]. split; [exact B|exact C]. Qed.
Lemma made_at_with b t n m : made_at b t n m -> made_with b t n (fun _ => zero) m.
Proof. auto. Qed.
Lemma made_with_keeps b t n v m m' : keeps (fun _ => False) m m' -> made_with b t n v m -> made_with b t n v m'.
Proof.
  intros K (A & B & C & D). split; [auto|]. split; [auto|]. split; [eapply keeps_live; eauto|].
  rewrite B in *. intros i Hi. specialize (D i Hi). cbn in *. eapply keeps_cell; eauto.
Qed.
(** a layer from its tensors: [blk] numbers the roles *)
Lemma layer_at_blocks m L s (blk : role -> nat) : (forall r t, part L r = Some t -> exists n, made_with (blk r) t n (s r) m) ->
  (forall r r' t t', part L r = Some t -> part L r' = Some t' -> blk r = blk r' -> r = r') ->
  layer_at m L s /\ forall b, block_in L b -> exists r t, part L r = Some t /\ b = blk r.
Proof.
  intros H I. assert (B : forall r t, part L r = Some t -> block_of t = blk r).
  { intros r t E. destruct (H r t E) as (n & _ & P & _). unfold block_of. now rewrite P. }
  split; [split|].
  - intros r t E. destruct (H r t E) as (n & <- & P & Lv & Hv). split; [|exact Hv]. split; [reflexivity|]. eauto.
  - intros r r' t t' E E' Ne Q. apply Ne. eapply I; eauto. now rewrite <- (B r t E), <- (B r' t' E').
  - intros b (r & t & E & ->). exists r, t. split; [exact E|]. auto.
Qed.

(** the contents after loading: the parameters, all else zero *)
Definition loaded (s : contents T) : contents T := fun r => match r with RB | RW _ => s r | _ => fun _ => zero end.

(** ** archives of lists of tensors *)
Fixpoint enc_tensors (ts : list tensor) (v : Z -> Z -> T) (i : Z) : archive :=
  match ts with [] => [] | t :: ts => enc_tensor (t_shape t) (v i) ++ enc_tensors ts v (i + 1) end.
Lemma save_tensors_ok m v ts : forall i, (forall j t, nth_error ts j = Some t -> 0 <= t_size t /\ holds m (t_data t) (t_size t) (v (i + Z.of_nat j))) ->
  save_tensors ts m = Ok (enc_tensors ts v i, m).
Proof.
  induction ts as [|t ts IH]; intros i H; [reflexivity|]. cbn [save_tensors enc_tensors]. destruct (H 0%nat t eq_refl) as [Hn Hv].
  rewrite Z.add_0_r in Hv. unfold bind at 1. rewrite (save_tensor_ok m t (v i) Hn Hv). unfold bind. rewrite (IH (i + 1)); [reflexivity|].
  intros j t' E. specialize (H (S j) t' E). replace (i + 1 + Z.of_nat j) with (i + Z.of_nat (S j)) by lia. exact H.
Qed.
Lemma wp_load_tensors v a ts : forall i m, (forall t, In t ts -> 0 <= t_size t) ->
  wp (load_tensors (length ts) (enc_tensors ts v i ++ a)) m (fun r m' => snd r = a /\ length (fst r) = length ts /\
    keeps (fun _ => False) m m' /\ length m' = (length m + length ts)%nat /\
    forall j t, nth_error (fst r) j = Some t -> exists t0, nth_error ts j = Some t0 /\ t_shape t = t_shape t0 /\
      made_with (length m + j) t (t_size t) (v (i + Z.of_nat j)) m').
Proof.
  induction ts as [|t ts IH]; intros i m H; cbn [length load_tensors enc_tensors].
  - apply wp_ret. cbn. split; [reflexivity|]. split; [reflexivity|]. split; [split; auto|]. split; [lia|]. intros [|j] t E; discriminate.
  - apply wp_bind. rewrite <- app_assoc. eapply wp_conseq; [apply wp_load_tensor; apply (H t); now left|]. intros [t1 a1] m1 (Es & Ea & M1). cbn [fst snd] in *. subst a1.
    assert (M1' : made m (t_size t1) (v i) (t_data t1) m1) by (unfold t_size; rewrite Es; exact M1). apply made_made_with in M1' as (M1' & K1 & L1).
    apply wp_bind. eapply wp_conseq; [apply (IH (i + 1)); intros; apply H; now right|]. intros [ts' a2] m2 (Ea & El & K2 & L2 & P). cbn [fst snd] in *. subst a2.
    apply wp_ret. cbn [fst snd]. split; [reflexivity|]. split; [cbn; lia|]. split; [eapply LiqueProofs.keeps_trans; eauto|]. split; [lia|].
    intros [|j] t' E; cbn [nth_error] in E.
    + injection E as <-. exists t. split; [reflexivity|]. split; [exact Es|]. rewrite Nat.add_0_r, Z.add_0_r. eapply made_with_keeps; eauto.
    + destruct (P j t' E) as (t0 & E0 & Es0 & Mw). exists t0. split; [exact E0|]. split; [exact Es0|].
      rewrite L1 in Mw. replace (length m + S j)%nat with (S (length m) + j)%nat by lia. replace (i + Z.of_nat (S j)) with (i + 1 + Z.of_nat j) by lia. exact Mw.
Qed.

(** ** dense layers *)
Definition enc_dense (isize osize : shape) (B W : tensor) (act : option activation) (s : contents T) : archive :=
  save_shape isize ++ save_shape osize ++ enc_tensor (t_shape B) (s RB) ++ enc_tensor (t_shape W) (s (RW 0)) ++ [IAct act].
Lemma save_dense_ok m isize osize B W act s : 0 <= t_size B -> 0 <= t_size W -> holds m (t_data B) (t_size B) (s RB) -> holds m (t_data W) (t_size W) (s (RW 0)) ->
  save_dense isize osize B W act m = Ok (enc_dense isize osize B W act s, m).
Proof. intros N1 N2 H1 H2. unfold save_dense, bind. rewrite (save_tensor_ok m B (s RB)), (save_tensor_ok m W (s (RW 0))); auto. Qed.
Lemma wp_load_dense isize osize B W act s a m : 0 <= t_size B -> 0 <= t_size W ->
  wp (load_dense (enc_dense isize osize B W act s ++ a)) m (fun r m' => exists B' W', r = (isize, osize, B', W', act, a) /\
    t_shape B' = t_shape B /\ t_shape W' = t_shape W /\ keeps (fun _ => False) m m' /\ length m' = S (S (length m)) /\
    made_with (length m) B' (t_size B) (s RB) m' /\ made_with (S (length m)) W' (t_size W) (s (RW 0)) m').
Proof.
  intros N1 N2. unfold load_dense, enc_dense. rewrite <- !app_assoc.
  apply wp_bind, wp_load_shape, wp_bind, wp_load_shape, wp_bind.
  eapply wp_conseq; [apply wp_load_tensor; exact N1|]. intros [B' a1] m1 (E1 & Ea & M1). cbn [fst snd] in *. subst a1.
  apply wp_bind. eapply wp_conseq; [apply wp_load_tensor; exact N2|]. intros [W' a2] m2 (E2 & Ea & M2). cbn [fst snd] in *. subst a2.
  cbn [app get_act]. apply wp_bind, wp_ret, wp_ret. exists B', W'. split; [reflexivity|]. split; [exact E1|]. split; [exact E2|].
  assert (Q1 : t_size B' = t_size B) by (unfold t_size; now rewrite E1). assert (Q2 : t_size W' = t_size W) by (unfold t_size; now rewrite E2).
  fold (t_size B) in M1. fold (t_size W) in M2. rewrite <- Q1 in M1. rewrite <- Q2 in M2.
  apply made_made_with in M1 as (M1 & K1 & L1). apply made_made_with in M2 as (M2 & K2 & L2). rewrite L1 in *.
  split; [eapply LiqueProofs.keeps_trans; eauto|]. split; [lia|]. rewrite <- Q1, <- Q2. split; [eapply made_with_keeps; eauto|exact M2].
Qed.
Lemma mat_is_shape t t' h w : t_shape t' = t_shape t -> mat_is t h w -> mat_is t' h w.
Proof. unfold mat_is, t_size. now intros ->. Qed.
Lemma ten_is_shape' t t' d h w : t_shape t' = t_shape t -> ten_is t d h w -> ten_is t' d h w.
Proof. unfold ten_is, t_size. now intros ->. Qed.
Lemma wp_shape_zeros m s : s_size s = u64 (s_depth s * s_height s * s_width s) ->
  wp (ten_zeros tb_default s) m (fun t m' => made_with (length m) t (s_size s) (fun _ => zero) m' /\ t_shape t = s /\ keeps (fun _ => False) m m' /\ length m' = S (length m)).
Proof.
  intros E. eapply wp_conseq; [apply wp_ten_zeros; exact E|]. intros t m' [V S]. split; [now apply made_at_with, zeros_made_at|].
  split; [rewrite S; unfold shape3; rewrite <- E; destruct s; reflexivity|]. now apply (made_keeps _ t (s_size s)).
Qed.
Definition fc_blk (b : nat) (r : role) : nat := match r with
  | RB => 0 | RW _ => 1 | RValue => 2 | RBuff => 3 | RGradBs => 4 | RGradWs => 5 | RGradB => 6 | RGradW _ => 7 | _ => 8 end + b.

Definition load_post (p : plan) (tr : Prop) (s : contents T) a m (r : layer * archive) m' : Prop :=
  snd r = a /\ fits (fst r) p /\ (train_class (fst r) <-> tr) /\ layer_at m' (fst r) (loaded s) /\ keeps (fun _ => False) m m' /\ fresh_blocks m (fst r).

Lemma wp_load_fc L n k act s a m : fits (LFC L) (PDense act n k) ->
  wp (load_layer (IKind KFC :: enc_dense (f_isize L) (f_osize L) (f_B L) (f_W L) (f_act L) s ++ a)) m (load_post (PDense act n k) True s a m).
Proof.
  intros ((Hn & Hk & Hnk & Ei & Eo & Sk & Sm & Sd) & Ea & Hs & _).
  assert (SB : t_size (f_B L) = k) by (apply Sk; cbn; tauto). assert (SW : mat_is (f_W L) n k) by (apply Sm; cbn; tauto). pose proof SW as (_ & _ & SW' & _).
  unfold load_layer. apply wp_bind. cbn [get_kind]. apply wp_ret. apply wp_bind.
  eapply wp_conseq; [apply wp_load_dense; lia|]. intros r m1 (B & W & -> & EB & EW & K1 & L1 & MB & MW).
  assert (Zk : s_size (shape3 1 1 k) = k) by (cbn [s_size shape3]; rewrite u64_small; lia).
  assert (Zn : s_size (shape3 1 1 n) = n) by (cbn [s_size shape3]; rewrite u64_small; lia).
  apply wp_bind. unfold fc_prepare. rewrite Ei, Eo. cbn [f_isize f_osize f_B f_W f_act f_value f_buff f_gradB f_gradW f_gradBs f_gradWs f_delta].
  change (s_width (shape3 1 1 k)) with k. change (s_width (shape3 1 1 n)) with n.
  apply wp_bind. eapply wp_conseq; [apply wp_shape_zeros; reflexivity|]. intros v m2 (V2 & S2 & K2 & L2). rewrite Zk in V2.
  apply wp_bind. eapply wp_conseq; [apply wp_vec_zeros; lia|]. intros bu m3 [V3 _]. destruct (made_keeps _ _ _ _ V3) as [K3 L3]. apply zeros_made_at, made_at_with in V3.
  apply wp_bind. eapply wp_conseq; [apply wp_vec_zeros; lia|]. intros gbs m4 [V4 _]. destruct (made_keeps _ _ _ _ V4) as [K4 L4]. apply zeros_made_at, made_at_with in V4.
  apply wp_bind. eapply wp_conseq; [apply wp_mat_zeros; lia|]. intros gws m5 [V5 S5]. destruct (made_keeps _ _ _ _ V5) as [K5 L5]. apply zeros_made_at, made_at_with in V5.
  apply wp_bind. eapply wp_conseq; [apply wp_vec_zeros; lia|]. intros gb m6 [V6 _]. destruct (made_keeps _ _ _ _ V6) as [K6 L6]. apply zeros_made_at, made_at_with in V6.
  apply wp_bind. eapply wp_conseq; [apply wp_mat_zeros; lia|]. intros gw m7 [V7 S7]. destruct (made_keeps _ _ _ _ V7) as [K7 L7]. apply zeros_made_at, made_at_with in V7.
  apply wp_bind. eapply wp_conseq; [apply wp_shape_zeros; reflexivity|]. intros d m8 (V8 & S8 & K8 & L8). rewrite Zn in V8.
  apply wp_ret, wp_ret.
  assert (K78 : keeps (fun _ => False) m7 m8) by exact K8. assert (K68 : keeps (fun _ => False) m6 m8) by (eapply LiqueProofs.keeps_trans; eauto).
  assert (K58 : keeps (fun _ => False) m5 m8) by (eapply LiqueProofs.keeps_trans; eauto). assert (K48 : keeps (fun _ => False) m4 m8) by (eapply LiqueProofs.keeps_trans; eauto).
  assert (K38 : keeps (fun _ => False) m3 m8) by (eapply LiqueProofs.keeps_trans; eauto). assert (K28 : keeps (fun _ => False) m2 m8) by (eapply LiqueProofs.keeps_trans; eauto).
  assert (K18 : keeps (fun _ => False) m1 m8) by (eapply LiqueProofs.keeps_trans; eauto).
  eapply made_with_keeps in MB; [|exact K18]. eapply made_with_keeps in MW; [|exact K18]. eapply made_with_keeps in V2; [|exact K28].
  eapply made_with_keeps in V3; [|exact K38]. eapply made_with_keeps in V4; [|exact K48]. eapply made_with_keeps in V5; [|exact K58].
  eapply made_with_keeps in V6; [|exact K68]. eapply made_with_keeps in V7; [|exact K78].
  rewrite L7, L6, L5, L4, L3, L2, L1 in *.
  set (L' := mk_fc _ _ _ _ _ _ _ _ _ _ _ _ _). unfold load_post. cbn [fst snd].
  destruct (layer_at_blocks m8 (LFC L') (loaded s) (fc_blk (length m))) as [LA BI].
  { intros r t E. destruct r as [|[]| | | |[]| | | |]; cbn in E; try discriminate; injection E as <-; eexists; unfold fc_blk; cbn [loaded];
    cbn [Nat.add]; eassumption. }
  { intros r r' t t' E E'. destruct r as [|[]| | | |[]| | | |]; cbn in E; try discriminate; destruct r' as [|[]| | | |[]| | | |]; cbn in E'; try discriminate; unfold fc_blk; try reflexivity; lia. }
  split; [reflexivity|]. split; [|split; [cbn; tauto|split; [exact LA|split; [eapply LiqueProofs.keeps_trans; eauto|]]]].
  - cbn [fits]. split; [|split; [exact Ea|split; [exact Hs|split; [exact S2|exact S8]]]].
    split; [exact Hn|]. split; [exact Hk|]. split; [exact Hnk|]. split; [reflexivity|]. split; [reflexivity|].
    cbn [L' f_B f_value f_buff f_gradB f_gradBs f_W f_gradW f_gradWs f_delta]. split; [|split].
    + intros t Ht. cbn in Ht. repeat destruct Ht as [<-|Ht]; try tauto; [destruct MB; lia|apply V2|apply V3|apply V6|apply V4].
    + intros t Ht. cbn in Ht. repeat destruct Ht as [<-|Ht]; try tauto. now apply (mat_is_shape (f_W L)).
    + apply V8.
  - intros b Hb. destruct (BI b Hb) as (r & t & _ & ->). unfold fc_blk. lia.
Qed.
Definition xfc_blk (b : nat) (r : role) : nat := match r with RB => 0 | RW _ => 1 | _ => 2 end + b.
Lemma wp_load_xfc L n k act s a m : fits (LXFC L) (PDense act n k) ->
  wp (load_layer (IKind KXFC :: enc_dense (xf_isize L) (xf_osize L) (xf_B L) (xf_W L) (xf_act L) s ++ a)) m (load_post (PDense act n k) False s a m).
Proof.
  intros ((Hn & Hk & Hnk & Ei & Eo & Sk & Sm) & Ea & Hs & _).
  assert (SB : t_size (xf_B L) = k) by (apply Sk; cbn; tauto). pose proof Sm as (_ & _ & SW' & _).
  unfold load_layer. apply wp_bind. cbn [get_kind]. apply wp_ret. apply wp_bind.
  eapply wp_conseq; [apply wp_load_dense; nia|]. intros r m1 (B & W & -> & EB & EW & K1 & L1 & MB & MW).
  assert (Zk : s_size (shape3 1 1 k) = k) by (cbn [s_size shape3]; rewrite u64_small; lia).
  apply wp_bind. unfold xfc_prepare. rewrite Ei, Eo. cbn [xf_isize xf_osize xf_B xf_W xf_act xf_value].
  apply wp_bind. eapply wp_conseq; [apply wp_shape_zeros; reflexivity|]. intros v m2 (V2 & S2 & K2 & L2). rewrite Zk in V2.
  apply wp_ret, wp_ret. eapply made_with_keeps in MB; [|exact K2]. eapply made_with_keeps in MW; [|exact K2]. rewrite L1 in *.
  set (L' := mk_xfc _ _ _ _ _ _). unfold load_post. cbn [fst snd].
  destruct (layer_at_blocks m2 (LXFC L') (loaded s) (xfc_blk (length m))) as [LA BI].
  { intros r t E. destruct r as [|[]| | | |[]| | | |]; cbn in E; try discriminate; injection E as <-; eexists; unfold xfc_blk; cbn [loaded];
    cbn [Nat.add]; eassumption. }
  { intros r r' t t' E E'. destruct r as [|[]| | | |[]| | | |]; cbn in E; try discriminate; destruct r' as [|[]| | | |[]| | | |]; cbn in E'; try discriminate; unfold xfc_blk; try reflexivity; lia. }
  split; [reflexivity|]. split; [|split; [cbn; tauto|split; [exact LA|split; [eapply LiqueProofs.keeps_trans; eauto|]]]].
  - cbn [fits]. split; [|split; [exact Ea|split; [exact Hs|exact S2]]].
    split; [exact Hn|]. split; [exact Hk|]. split; [exact Hnk|]. split; [reflexivity|]. split; [reflexivity|].
    cbn [L' xf_B xf_value xf_W]. split.
    + intros t Ht. cbn in Ht. repeat destruct Ht as [<-|Ht]; try tauto; [destruct MB; lia|apply V2].
    + now apply (mat_is_shape (xf_W L)).
  - intros b Hb. destruct (BI b Hb) as (r & t & _ & ->). unfold xfc_blk. lia.
Qed.

(** ** convolutions *)
Definition enc_conv (isize osize : shape) (pad vs hs : Z) (B : tensor) (Ws : list tensor) (s : contents T) : archive :=
  save_shape isize ++ save_shape osize ++ IWord pad :: IWord vs :: IWord hs :: enc_tensor (t_shape B) (s RB) ++
  IWord (Z.of_nat (length Ws)) :: enc_tensors Ws (fun f => s (RW f)) 0.
Lemma save_convolution_ok m isize osize pad vs hs B Ws s : 0 <= t_size B -> holds m (t_data B) (t_size B) (s RB) ->
  (forall f t, znth Ws f = Some t -> 0 <= t_size t /\ holds m (t_data t) (t_size t) (s (RW f))) ->
  save_convolution isize osize pad vs hs B Ws m = Ok (enc_conv isize osize pad vs hs B Ws s, m).
Proof.
  intros N1 H1 H2. unfold save_convolution, bind. rewrite (save_tensor_ok m B (s RB)); auto. unfold save_container, bind.
  rewrite (save_tensors_ok m (fun f => s (RW f)) Ws 0); [reflexivity|]. intros j t E. apply H2. unfold znth. rewrite Z.add_0_l, Nat2Z.id. destruct (Z.leb_spec 0 (Z.of_nat j)); [exact E|lia].
Qed.
Lemma wp_load_convolution isize osize pad vs hs B Ws s a m : 0 <= t_size B -> (forall t, In t Ws -> 0 <= t_size t) ->
  wp (load_convolution (enc_conv isize osize pad vs hs B Ws s ++ a)) m (fun r m' => exists B' Ws', r = (isize, osize, pad, vs, hs, B', Ws', a) /\
    t_shape B' = t_shape B /\ length Ws' = length Ws /\ keeps (fun _ => False) m m' /\ length m' = (S (length m) + length Ws)%nat /\
    made_with (length m) B' (t_size B) (s RB) m' /\
    forall j t, nth_error Ws' j = Some t -> exists t0, nth_error Ws j = Some t0 /\ t_shape t = t_shape t0 /\ made_with (S (length m) + j) t (t_size t) (s (RW (Z.of_nat j))) m').
Proof.
  intros N1 N2. unfold load_convolution, enc_conv. rewrite <- !app_assoc.
  apply wp_bind, wp_load_shape, wp_bind, wp_load_shape. cbn [app].
  apply wp_bind, wp_ret, wp_bind, wp_ret, wp_bind, wp_ret, wp_bind. rewrite <- !app_assoc.
  eapply wp_conseq; [apply wp_load_tensor; exact N1|]. intros [B' a1] m1 (E1 & Ea & M1). cbn [fst snd] in *. subst a1.
  apply wp_bind. unfold load_container. apply wp_bind. cbn [app get_word]. apply wp_ret. rewrite Nat2Z.id.
  eapply wp_conseq; [apply wp_load_tensors; exact N2|]. intros [Ws' a2] m2 (Ea & El & K2 & L2 & P). cbn [fst snd] in *. subst a2.
  apply wp_ret. exists B', Ws'. split; [reflexivity|]. split; [exact E1|]. split; [exact El|].
  assert (Q1 : t_size B' = t_size B) by (unfold t_size; now rewrite E1). fold (t_size B) in M1. rewrite <- Q1 in M1.
  apply made_made_with in M1 as (M1 & K1 & L1). rewrite L1 in *. split; [eapply LiqueProofs.keeps_trans; eauto|]. split; [exact L2|].
  split; [rewrite <- Q1; eapply made_with_keeps; eauto|]. exact P.
Qed.
Lemma wp_mmap_zeros' m sh k : s_size sh = u64 (s_depth sh * s_height sh * s_width sh) ->
  wp (mmap (fun t => ten_zeros t sh) (repeat tb_default k)) m (fun l m' =>
    length l = k /\ keeps (fun _ => False) m m' /\ length m' = (length m + k)%nat /\
    forall i t, nth_error l i = Some t -> made_with (length m + i) t (s_size sh) (fun _ => zero) m' /\ t_shape t = sh).
Proof.
  intros E. eapply wp_conseq; [apply wp_mmap_zeros; exact E|]. intros l m' (A & B & C & D). split; [exact A|]. split; [exact B|]. split; [exact C|].
  intros i t Ht. destruct (D i t Ht) as [D1 D2]. split; [exact D1|]. rewrite D2. unfold shape3. rewrite <- E. destruct sh; reflexivity.
Qed.
Lemma wp_load_conv L g s a m : fits (LConv L) (PConv g) ->
  wp (load_layer (IKind KConv :: enc_conv (c_isize L) (c_osize L) (c_pad L) (c_vs L) (c_hs L) (c_B L) (c_Ws L) s ++ a)) m (load_post (PConv g) True s a m).
Proof.
  intros (G & Ei & Eo & Ep & Evs & Ehs & Efc & Efs & LW & LG & Tw & SB & _).
  pose proof (out_h_pos g G) as OH. pose proof (out_w_pos g G) as OW. pose proof (spread_h_pos g G) as SH. pose proof (spread_w_pos g G) as SW.
  pose proof G as (Gf&Gd&Gh&Gw&Gfh&Gfw&Gp&Gvs&Ghs&_&_&Bh&Bw&Bf&Bi&Bk&Bo&Bs).
  unfold load_layer. apply wp_bind. cbn [get_kind]. apply wp_ret. apply wp_bind.
  eapply wp_conseq; [apply wp_load_convolution; [lia|]|].
  { intros t Ht. destruct (Tw t) as (_ & _ & _ & -> & ? & ? & ? & _); [apply in_or_app; now left|]. apply Z.mul_nonneg_nonneg; auto. apply Z.mul_nonneg_nonneg; auto. }
  intros r m1 (B & Ws & -> & EB & ELW & K1 & L1 & MB & PW). rewrite Ei, Eo, Ep, Evs, Ehs.
  apply wp_bind. unfold conv_prepare. cbn [c_isize c_osize c_pad c_vs c_hs c_B c_Ws c_value c_gradB c_delta c_buff].
  assert (TW : forall t, In t Ws -> ten_is t (g_d g) (g_fh g) (g_fw g)).
  { intros t Ht. apply In_nth_error in Ht as [j Hj]. destruct (PW j t Hj) as (t0 & E0 & Es & _). eapply ten_is_shape'; [exact Es|]. apply Tw. apply in_or_app. left. eapply nth_error_In; eauto. }
  assert (exists W0, znth Ws 0 = Some W0) as [W0 E0] by (apply znth_some; lia).
  apply wp_bind. unfold nth_of. rewrite E0. apply wp_ret. apply znth_nth in E0 as [_ E0]. rewrite (ten_is_shape W0 _ _ _ (TW W0 (nth_error_In _ _ E0))). clear W0 E0.
  apply wp_bind. eapply wp_conseq; [apply wp_shape_zeros; reflexivity|]. intros V m2 (VV & ShV & K2 & L2).
  apply wp_bind. eapply wp_conseq; [apply wp_mmap_zeros'; reflexivity|]. intros Gs m3 (LGs & K3 & L3 & PG).
  apply wp_bind. eapply wp_conseq; [apply wp_vec_zeros; lia|]. intros GB m4 [VGB _]. destruct (made_keeps _ _ _ _ VGB) as [K4 L4]. apply zeros_made_at, made_at_with in VGB.
  apply wp_bind. eapply wp_conseq; [apply wp_shape_zeros; reflexivity|]. intros D m5 (VD & ShD & K5 & L5).
  apply wp_bind. eapply wp_conseq; [apply wp_shape_zeros; reflexivity|]. intros U m6 (VU & ShU & K6 & L6).
  apply wp_ret, wp_ret.
  pose proof (spread_h_le g G). pose proof (spread_w_le g G). cbn [shape3 s_depth s_height s_width] in ShU.
  assert (E1 : u64 (g_vs g * (out_h g - 1) + 1) = spread_h g). { apply u64_small. change (0 <= spread_h g < 2 ^ 64). split; [lia|]. rewrite <- (Z.mul_1_l (spread_h g)). nia. }
  assert (E2 : u64 (g_hs g * (out_w g - 1) + 1) = spread_w g). { apply u64_small. change (0 <= spread_w g < 2 ^ 64). split; [lia|]. assert (1 <= g_f g * spread_h g) by nia. nia. }
  assert (ShU' : t_shape U = shape3 (g_f g) (spread_h g) (spread_w g)). { rewrite <- E1, <- E2. exact ShU. }
  assert (K56 : keeps (fun _ => False) m5 m6) by exact K6.
  assert (K46 : keeps (fun _ => False) m4 m6) by (eapply LiqueProofs.keeps_trans; eauto).
  assert (K36 : keeps (fun _ => False) m3 m6) by (eapply LiqueProofs.keeps_trans; eauto).
  assert (K26 : keeps (fun _ => False) m2 m6) by (eapply LiqueProofs.keeps_trans; eauto).
  assert (K16 : keeps (fun _ => False) m1 m6) by (eapply LiqueProofs.keeps_trans; eauto).
  eapply made_with_keeps in MB; [|exact K16]. eapply made_with_keeps in VV; [|exact K26].
  eapply made_with_keeps in VGB; [|exact K46]. eapply made_with_keeps in VD; [|exact K56].
  set (k := length (c_Ws L)) in *. rewrite ELW in L3, LGs. rewrite L5, L4, L3, L2, L1 in *.
  set (L' := mk_conv _ _ _ _ _ _ _ _ _ _ _ _ _ _). unfold load_post. cbn [fst snd].
  assert (NW : Z.of_nat (length Ws) = g_f g) by lia. assert (NG : Z.of_nat (length Gs) = g_f g) by lia.
  assert (TG : forall t, In t Gs -> t_shape t = shape3 (g_d g) (g_fh g) (g_fw g)).
  { intros t Ht. apply In_nth_error in Ht as [i Hi]. apply (PG i t Hi). }
  assert (Rg : forall r t, part (LConv L') r = Some t -> match r with RW f | RGradW f => 0 <= f < g_f g | _ => True end).
  { intros r t E. destruct r as [|f| | | |f| | | |]; cbn [part L' c_B c_Ws c_value c_buff c_gradB c_gradWs c_delta] in E; auto; pose proof (znth_bound _ _ _ _ E); lia. }
  destruct (layer_at_blocks m6 (LConv L') (loaded s) (conv_blk (length m) k)) as [LA BI].
  { intros r t E. destruct r as [|f| | | |f| | | |]; cbn [part L' c_B c_Ws c_value c_buff c_gradB c_gradWs c_delta] in E; try discriminate; try (injection E as <-); cbn [conv_blk loaded].
    - eexists; exact MB.
    - apply znth_nth in E as [F0 E]. destruct (PW _ _ E) as (t0 & _ & _ & A). rewrite Z2Nat.id in A by lia. eexists; eapply made_with_keeps; [exact K16|].
      replace (length m + 1 + Z.to_nat f)%nat with (S (length m) + Z.to_nat f)%nat by lia. exact A.
    - eexists. replace (length m + 1 + k)%nat with (S (length m) + k)%nat by lia. exact VV.
    - eexists. replace (length m + 4 + k + k)%nat with (S (S (S (S (length m) + k) + k)))%nat by lia. exact VU.
    - eexists. replace (length m + 2 + k + k)%nat with (S (S (length m) + k) + k)%nat by lia. exact VGB.
    - apply znth_nth in E as [F0 E]. destruct (PG _ _ E) as [A _]. eexists; eapply made_with_keeps; [exact K36|].
      replace (length m + 2 + k + Z.to_nat f)%nat with (S (S (length m) + k) + Z.to_nat f)%nat by lia. exact A.
    - eexists. replace (length m + 3 + k + k)%nat with (S (S (S (length m) + k) + k))%nat by lia. exact VD. }
  { intros r r' t t' E E'. pose proof (Rg r t E) as R1. pose proof (Rg r' t' E') as R2.
    destruct r as [|f| | | |f| | | |]; try discriminate E; destruct r' as [|f'| | | |f'| | | |]; try discriminate E'; cbn [conv_blk]; intros Q; try reflexivity; try lia; f_equal; lia. }
  split; [reflexivity|]. split; [|split; [cbn; tauto|split; [exact LA|split; [eapply LiqueProofs.keeps_trans; eauto|]]]].
  - cbn [fits]. split; [exact G|]. cbn [L' c_isize c_osize c_pad c_vs c_hs c_fcount c_fsize c_Ws c_gradWs c_B c_gradB c_value c_delta c_buff].
    do 5 (split; [reflexivity|]). split; [exact NW|]. split; [reflexivity|]. split; [exact NW|]. split; [exact NG|].
    split. { intros t Ht. apply in_app_or in Ht as [Ht|Ht]; auto. apply shape_ten_is; auto; lia. }
    split; [destruct MB; lia|]. split; [rewrite <- NW; apply VGB|].
    split; [apply shape_ten_is; auto; lia|]. split; [apply shape_ten_is; auto; lia|apply shape_ten_is; auto; lia].
  - intros b Hb. destruct (BI b Hb) as (r & t & E & ->). destruct r; try discriminate E; cbn [conv_blk]; lia.
Qed.
Lemma wp_load_xconv L g s a m : fits (LXConv L) (PConv g) ->
  wp (load_layer (IKind KXConv :: enc_conv (xc_isize L) (xc_osize L) (xc_pad L) (xc_vs L) (xc_hs L) (xc_B L) (xc_Ws L) s ++ a)) m (load_post (PConv g) False s a m).
Proof.
  intros (G & Ei & Eo & Ep & Evs & Ehs & Efc & Efs & LW & Tw & SB & _).
  pose proof (out_h_pos g G) as OH. pose proof (out_w_pos g G) as OW.
  pose proof G as (Gf&Gd&Gh&Gw&Gfh&Gfw&Gp&Gvs&Ghs&_&_&Bh&Bw&Bf&Bi&Bk&Bo&Bs).
  unfold load_layer. apply wp_bind. cbn [get_kind]. apply wp_ret. apply wp_bind.
  eapply wp_conseq; [apply wp_load_convolution; [lia|]|].
  { intros t Ht. destruct (Tw t) as (_ & _ & _ & -> & ? & ? & ? & _); [exact Ht|]. apply Z.mul_nonneg_nonneg; auto. apply Z.mul_nonneg_nonneg; auto. }
  intros r m1 (B & Ws & -> & EB & ELW & K1 & L1 & MB & PW). rewrite Ei, Eo, Ep, Evs, Ehs.
  apply wp_bind. unfold xconv_prepare. cbn [xc_isize xc_osize xc_pad xc_vs xc_hs xc_B xc_Ws xc_value].
  assert (TW : forall t, In t Ws -> ten_is t (g_d g) (g_fh g) (g_fw g)).
  { intros t Ht. apply In_nth_error in Ht as [j Hj]. destruct (PW j t Hj) as (t0 & E0 & Es & _). eapply ten_is_shape'; [exact Es|]. apply Tw. eapply nth_error_In; eauto. }
  assert (exists W0, znth Ws 0 = Some W0) as [W0 E0] by (apply znth_some; lia).
  apply wp_bind. unfold nth_of. rewrite E0. apply wp_ret. apply znth_nth in E0 as [_ E0]. rewrite (ten_is_shape W0 _ _ _ (TW W0 (nth_error_In _ _ E0))). clear W0 E0.
  apply wp_bind. eapply wp_conseq; [apply wp_shape_zeros; reflexivity|]. intros V m2 (VV & ShV & K2 & L2).
  apply wp_ret, wp_ret. eapply made_with_keeps in MB; [|exact K2].
  set (k := length (xc_Ws L)) in *. rewrite L1 in *.
  set (L' := mk_xconv _ _ _ _ _ _ _ _ _ _). unfold load_post. cbn [fst snd].
  assert (NW : Z.of_nat (length Ws) = g_f g) by lia.
  assert (Rg : forall r t, part (LXConv L') r = Some t -> match r with RW f => 0 <= f < g_f g | _ => True end).
  { intros r t E. destruct r as [|f| | | |f| | | |]; cbn [part L' xc_B xc_Ws xc_value] in E; auto; pose proof (znth_bound _ _ _ _ E); lia. }
  destruct (layer_at_blocks m2 (LXConv L') (loaded s) (xconv_blk (length m) k)) as [LA BI].
  { intros r t E. destruct r as [|f| | | |f| | | |]; cbn [part L' xc_B xc_Ws xc_value] in E; try discriminate; try (injection E as <-); cbn [xconv_blk loaded].
    - eexists; exact MB.
    - apply znth_nth in E as [F0 E]. destruct (PW _ _ E) as (t0 & _ & _ & A). rewrite Z2Nat.id in A by lia. eexists; eapply made_with_keeps; [exact K2|].
      replace (length m + 1 + Z.to_nat f)%nat with (S (length m) + Z.to_nat f)%nat by lia. exact A.
    - eexists. replace (length m + 1 + k)%nat with (S (length m) + k)%nat by lia. exact VV. }
  { intros r r' t t' E E'. pose proof (Rg r t E) as R1. pose proof (Rg r' t' E') as R2.
    destruct r as [|f| | | |f| | | |]; try discriminate E; destruct r' as [|f'| | | |f'| | | |]; try discriminate E'; cbn [xconv_blk]; intros Q; try reflexivity; try lia; f_equal; lia. }
  split; [reflexivity|]. split; [|split; [cbn; tauto|split; [exact LA|split; [eapply LiqueProofs.keeps_trans; eauto|]]]].
  - cbn [fits]. split; [exact G|]. cbn [L' xc_isize xc_osize xc_pad xc_vs xc_hs xc_fcount xc_fsize xc_Ws xc_B xc_value].
    do 5 (split; [reflexivity|]). split; [exact NW|]. split; [reflexivity|]. split; [exact NW|]. split; [exact TW|].
    split; [destruct MB; lia|]. apply shape_ten_is; auto; lia.
  - intros b Hb. destruct (BI b Hb) as (r & t & E & ->). destruct r; try discriminate E; cbn [xconv_blk]; lia.
Qed.
End SerialProofs.

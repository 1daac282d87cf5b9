(** * Properties C59-C62: max pooling *)
From Coq Require Import Reals Lra.
From Verif Require Import Mem Scalar MemSpec MemLemmas Lique LiqueSpec LiqueProofs LiqueProofs2 Linear LinearProofs RSum Functions FunctionSpec FunctionProofs
  RealSpec ActivationProofs Layer LayerSpec FCProofs PropFC Cells ConvSpec ConvProofs ConvProofs2 PropConv PoolSpec PoolProofs PoolProofs2.
Open Scope Z_scope.

Section Any.
Context {T : Type} `{NT : Num T}.
Implicit Types (m : mem T) (s : contents T).

(** ** C59 *)
Theorem C59_construction m D OH OW VS HS act :
  let q := mk_tiling D OH OW VS HS in tiling_ok q ->
  (exists L m', xpool_new D (OH * VS) (OW * HS) VS HS act m = Ok (L, m') /\
    xp_osize L = shape3 D OH OW /\ xpool_dims L q /\ xp_act L = act /\ layer_at m' (LXPool L) (fun _ _ => zero) /\ preserves m m' /\
    forall b, block_in (LXPool L) b -> (length m <= b)%nat) /\
  (exists L m', pool_new D (OH * VS) (OW * HS) VS HS act m = Ok (L, m') /\
    p_osize L = shape3 D OH OW /\ pool_dims L q /\ p_act L = act /\ layer_at m' (LPool L) (fun _ _ => zero) /\ preserves m m' /\
    forall b, block_in (LPool L) b -> (length m <= b)%nat).
Proof.
  intros q Q. split.
  - destruct (wp_elim _ _ _ _ (wp_xpool_new m q act Q)) as (L & m' & E & A & B & K & F & G). exists L, m'. split; [exact E|]. split; [apply A|]. auto 10.
  - destruct (wp_elim _ _ _ _ (wp_pool_new m q act Q)) as (L & m' & E & A & B & K & F & G). exists L, m'. split; [exact E|]. split; [apply A|]. auto 10.
Qed.
Lemma xpool_forward_run (L : xpool) q a m s x xv :
  xpool_dims L q -> xp_act L = Some a -> (a = SoftMax -> 0 < q_d q * q_oh q * q_ow q) -> layer_at m (LXPool L) s ->
  argument3 m (LXPool L) x (q_d q) (q_h q) (q_w q) xv ->
  exists m', xpool_forward L x m = Ok (tt, m') /\ layer_at m' (LXPool L) (xpool_after q a xv s) /\ only (fun b _ => block_in (LXPool L) b) m m'.
Proof.
  intros D Ea Hs H (Sx & Hx & Ho). destruct (wp_elim _ _ _ _ (wp_xpool_forward L q D a m s x xv Ea Hs H Sx Hx Ho)) as ([] & m' & E & A & O). eauto.
Qed.
Lemma pool_forward_run (L : pool) q a m s x xv :
  pool_dims L q -> p_act L = Some a -> (a = SoftMax -> 0 < q_d q * q_oh q * q_ow q) -> layer_at m (LPool L) s ->
  argument3 m (LPool L) x (q_d q) (q_h q) (q_w q) xv ->
  exists m', pool_forward L x m = Ok (tt, m') /\ layer_at m' (LPool L) (pool_after_forward q a xv s) /\ only (fun b _ => block_in (LPool L) b) m m'.
Proof.
  intros D Ea Hs H (Sx & Hx & Ho). destruct (wp_elim _ _ _ _ (wp_pool_forward L q D a m s x xv Ea Hs H Sx Hx Ho)) as ([] & m' & E & A & O). eauto.
Qed.
Lemma pool_backward_run (L : pool) q a m s dt d :
  pool_dims L q -> p_act L = Some a -> layer_at m (LPool L) s ->
  holds m (t_data dt) (q_d q * q_oh q * q_ow q) d -> outside (LPool L) (t_data dt) ->
  exists m', pool_backward L dt m = Ok (tt, m') /\ layer_at m' (LPool L) (pool_after_backward q a d s) /\ only (fun b _ => block_in (LPool L) b) m m'.
Proof.
  intros D Ea H Hd Ho. destruct (wp_elim _ _ _ _ (wp_pool_backward L q D a m s dt d Ea H Hd Ho)) as ([] & m' & E & A & O). eauto.
Qed.
(** Every output is the activation of the scanned maxima; nothing else is written. *)
Theorem C59_raw_value (L : xpool) q a m s x xv :
  xpool_dims L q -> xp_act L = Some a -> (a = SoftMax -> 0 < q_d q * q_oh q * q_ow q) -> layer_at m (LXPool L) s ->
  argument3 m (LXPool L) x (q_d q) (q_h q) (q_w q) xv ->
  exists m' s' p, xpool_forward L x m = Ok (tt, m') /\ layer_at m' (LXPool L) s' /\
    (forall c y z, 0 <= c < q_d q -> 0 <= y < q_oh q -> 0 <= z < q_ow q -> p (at3 (q_oh q) (q_ow q) c y z) = window_max q xv c y z) /\
    (forall o, 0 <= o < q_d q * q_oh q * q_ow q -> s' RValue o = act_val a (q_d q * q_oh q * q_ow q) p o) /\
    only (fun b _ => block_in (LXPool L) b) m m'.
Proof.
  intros D Ea Hs H X. destruct (xpool_forward_run L q a m s x xv D Ea Hs H X) as (m' & E & A & O).
  exists m', (xpool_after q a xv s), (pooled q xv). split; [exact E|]. split; [exact A|]. split; [|split; [|exact O]].
  - intros. unfold pooled. now apply flat3_at.
  - intros o Ho. unfold xpool_after. now rewrite set_role_same.
Qed.

(** ** C60 *)
Theorem C60_any_stride_constructs m d h w vs hs act : 0 < vs -> 0 < hs ->
  (exists L m', xpool_new d h w vs hs act m = Ok (L, m') /\ xp_isize L = shape3 d h w /\ xp_vs L = vs /\ xp_hs L = hs) /\
  (exists L m', pool_new d h w vs hs act m = Ok (L, m') /\ p_isize L = shape3 d h w /\ p_vs L = vs /\ p_hs L = hs).
Proof.
  intros Hv Hs. split.
  - assert (W : wp (xpool_new d h w vs hs act) m (fun L _ => xp_isize L = shape3 d h w /\ xp_vs L = vs /\ xp_hs L = hs)).
    { unfold xpool_new. replace (vs =? 0) with false by (symmetry; apply Z.eqb_neq; lia). replace (hs =? 0) with false by (symmetry; apply Z.eqb_neq; lia). cbn [orb].
      apply wp_bind. eapply wp_conseq; [apply wp_ten_zeros; reflexivity|]. intros. apply wp_ret. auto. }
    apply wp_elim in W as (L & m' & E & P). eauto.
  - assert (W : wp (pool_new d h w vs hs act) m (fun L _ => p_isize L = shape3 d h w /\ p_vs L = vs /\ p_hs L = hs)).
    { unfold pool_new. replace (vs =? 0) with false by (symmetry; apply Z.eqb_neq; lia). replace (hs =? 0) with false by (symmetry; apply Z.eqb_neq; lia). cbn [orb].
      apply wp_bind. eapply wp_conseq; [apply wp_ten_zeros; reflexivity|]. intros. unfold pool_prepare. cbn.
      apply wp_bind. eapply wp_conseq; [apply wp_ten_zeros; reflexivity|]. intros.
      apply wp_bind. eapply wp_conseq; [apply wp_ten_zeros; reflexivity|]. intros.
      apply wp_bind. eapply wp_conseq; [apply wp_ten_zeros; reflexivity|]. intros. apply wp_ret. auto. }
    apply wp_elim in W as (L & m' & E & P). eauto.
Qed.
(** For every layer with a stride that does not divide the input and every input tensor of the right
    shape that owns exactly its elements, forward ends in an out-of-range access. *)
Theorem C60_non_dividing_stride_refuted d h w vs hs m x :
  0 < d -> 0 < h -> 0 < w -> 0 < vs -> 0 < hs -> h mod vs <> 0 \/ w mod hs <> 0 -> (d * h + vs) * w + hs < 2 ^ 64 ->
  ten_is x d h w -> owner m x (d * h * w) ->
  (forall L, xp_isize L = shape3 d h w -> xp_vs L = vs -> xp_hs L = hs -> exists e, xpool_forward L x m = UB e) /\
  (forall L, p_isize L = shape3 d h w -> p_vs L = vs -> p_hs L = hs -> exists e, pool_forward L x m = UB e).
Proof.
  intros Pd Ph Pw Pv Ps Nd Fit Sx (Sz & b & Ed & Lv). split; intros L Ei Ev Eh.
  - destruct (xpool_forward L x m) as [r|e] eqn:E; [|eauto]. exfalso. revert E. refine (xpool_stuck _ _ _ _ _ Pd Ph Pw Pv Ps Nd Fit _ _ _ _ L _ _ _ _ _ _); eassumption.
  - destruct (pool_forward L x m) as [r|e] eqn:E; [|eauto]. exfalso. revert E. refine (pool_stuck _ _ _ _ _ Pd Ph Pw Pv Ps Nd Fit _ _ _ _ L _ _ _ _ _ _); eassumption.
Qed.
Theorem C60_dividing_stride_safe_partial q a :
  (forall (L : xpool) m s x xv, xpool_dims L q -> xp_act L = Some a -> (a = SoftMax -> 0 < q_d q * q_oh q * q_ow q) -> layer_at m (LXPool L) s ->
    argument3 m (LXPool L) x (q_d q) (q_h q) (q_w q) xv ->
    exists m', xpool_forward L x m = Ok (tt, m') /\ only (fun b _ => block_in (LXPool L) b) m m') /\
  (forall (L : pool) m s x xv, pool_dims L q -> p_act L = Some a -> (a = SoftMax -> 0 < q_d q * q_oh q * q_ow q) -> layer_at m (LPool L) s ->
    argument3 m (LPool L) x (q_d q) (q_h q) (q_w q) xv ->
    exists m', pool_forward L x m = Ok (tt, m') /\ only (fun b _ => block_in (LPool L) b) m m') /\
  (forall (L : pool) m s dt d, pool_dims L q -> p_act L = Some a -> layer_at m (LPool L) s ->
    argument m (LPool L) dt (q_d q * q_oh q * q_ow q) d ->
    exists m', pool_backward L dt m = Ok (tt, m') /\ only (fun b _ => block_in (LPool L) b) m m').
Proof.
  split; [|split].
  - intros L m s x xv D Ea Hs H X. destruct (xpool_forward_run L q a m s x xv D Ea Hs H X) as (m' & E & _ & O). eauto.
  - intros L m s x xv D Ea Hs H X. destruct (pool_forward_run L q a m s x xv D Ea Hs H X) as (m' & E & _ & O). eauto.
  - intros L m s dt d D Ea H (_ & Hd & Ho). destruct (pool_backward_run L q a m s dt d D Ea H Hd Ho) as (m' & E & _ & O). eauto.
Qed.

(** ** C61: in training mode the value is the activation of an internal buffer, whatever the input *)
Theorem C61_train_ignores_input_refuted (L : pool) q a m s x xv :
  pool_dims L q -> p_act L = Some a -> (a = SoftMax -> 0 < q_d q * q_oh q * q_ow q) -> layer_at m (LPool L) s ->
  argument3 m (LPool L) x (q_d q) (q_h q) (q_w q) xv ->
  exists m' s', pool_forward L x m = Ok (tt, m') /\ layer_at m' (LPool L) s' /\ s' RBuff = s RBuff /\
    forall o, 0 <= o < q_d q * q_oh q * q_ow q -> s' RValue o = act_val a (q_d q * q_oh q * q_ow q) (s RBuff) o.
Proof.
  intros D Ea Hs H X. destruct (pool_forward_run L q a m s x xv D Ea Hs H X) as (m' & E & A & O).
  eexists m', _. split; [exact E|]. split; [exact A|]. unfold pool_after_forward. split.
  - now rewrite !set_role_other by discriminate.
  - intros o _. now rewrite set_role_same.
Qed.
(** New layers with the identity activation and the same input: zero in one mode, the maxima in the other. *)
Theorem C61_new_layers_differ_refuted (Lt : pool) (Lr : xpool) q mt mr xt xr xv :
  pool_dims Lt q -> p_act Lt = Some (Scalar Identity) -> layer_at mt (LPool Lt) (fun _ _ => zero) ->
  argument3 mt (LPool Lt) xt (q_d q) (q_h q) (q_w q) xv ->
  xpool_dims Lr q -> xp_act Lr = Some (Scalar Identity) -> layer_at mr (LXPool Lr) (fun _ _ => zero) ->
  argument3 mr (LXPool Lr) xr (q_d q) (q_h q) (q_w q) xv ->
  exists mt' mr', pool_forward Lt xt mt = Ok (tt, mt') /\ xpool_forward Lr xr mr = Ok (tt, mr') /\
    forall c y z, 0 <= c < q_d q -> 0 <= y < q_oh q -> 0 <= z < q_ow q ->
      elem mt' (t_data (p_value Lt)) (at3 (q_oh q) (q_ow q) c y z) = Some (Some zero) /\
      elem mr' (t_data (xp_value Lr)) (at3 (q_oh q) (q_ow q) c y z) = Some (Some (window_max q xv c y z)).
Proof.
  intros Dt At Ht Xt Dr Ar Hr Xr.
  destruct (pool_forward_run Lt q _ mt _ xt xv Dt At ltac:(discriminate) Ht Xt) as (mt' & Et & A & _).
  destruct (xpool_forward_run Lr q _ mr _ xr xv Dr Ar ltac:(discriminate) Hr Xr) as (mr' & Er & B & _).
  exists mt', mr'. split; [exact Et|]. split; [exact Er|]. intros c y z Hc Hy Hz.
  assert (S1 : t_size (p_value Lt) = q_d q * q_oh q * q_ow q) by apply Dt.
  assert (S2 : t_size (xp_value Lr) = q_d q * q_oh q * q_ow q) by apply Dr.
  pose proof (part_holds' _ _ _ RValue _ _ A eq_refl S1) as P1. pose proof (part_holds' _ _ _ RValue _ _ B eq_refl S2) as P2.
  pose proof (off3_range (q_d q) (q_oh q) (q_ow q) c y z Hc Hy Hz) as R. change ((c * q_oh q + y) * q_ow q + z) with (at3 (q_oh q) (q_ow q) c y z) in R.
  rewrite (P1 _ R), (P2 _ R). unfold pool_after_forward, xpool_after. rewrite !set_role_same. cbn [act_val scalar_f].
  split; [reflexivity|]. do 2 f_equal. unfold pooled. now apply flat3_at.
Qed.
(** What does hold: the two modes agree exactly when the activation of the window maxima happens to equal
    the activation of the buffer's old contents (zero in a new layer). *)
Theorem C61_agree_iff_partial (Lt : pool) (Lr : xpool) q a mt mr st sr xt xr xv :
  (a = SoftMax -> 0 < q_d q * q_oh q * q_ow q) ->
  pool_dims Lt q -> p_act Lt = Some a -> layer_at mt (LPool Lt) st -> argument3 mt (LPool Lt) xt (q_d q) (q_h q) (q_w q) xv ->
  xpool_dims Lr q -> xp_act Lr = Some a -> layer_at mr (LXPool Lr) sr -> argument3 mr (LXPool Lr) xr (q_d q) (q_h q) (q_w q) xv ->
  exists mt' mr', pool_forward Lt xt mt = Ok (tt, mt') /\ xpool_forward Lr xr mr = Ok (tt, mr') /\
    forall o, 0 <= o < q_d q * q_oh q * q_ow q ->
      (elem mt' (t_data (p_value Lt)) o = elem mr' (t_data (xp_value Lr)) o <->
       act_val a (q_d q * q_oh q * q_ow q) (st RBuff) o = act_val a (q_d q * q_oh q * q_ow q) (flat3 (q_oh q) (q_ow q) (window_max q xv)) o).
Proof.
  intros Hs Dt At Ht Xt Dr Ar Hr Xr.
  destruct (pool_forward_run Lt q _ mt _ xt xv Dt At Hs Ht Xt) as (mt' & Et & A & _).
  destruct (xpool_forward_run Lr q _ mr _ xr xv Dr Ar Hs Hr Xr) as (mr' & Er & B & _).
  exists mt', mr'. split; [exact Et|]. split; [exact Er|]. intros o Ho.
  assert (S1 : t_size (p_value Lt) = q_d q * q_oh q * q_ow q) by apply Dt.
  assert (S2 : t_size (xp_value Lr) = q_d q * q_oh q * q_ow q) by apply Dr.
  pose proof (part_holds' _ _ _ RValue _ _ A eq_refl S1) as P1. pose proof (part_holds' _ _ _ RValue _ _ B eq_refl S2) as P2.
  rewrite (P1 _ Ho), (P2 _ Ho). unfold pool_after_forward, xpool_after. rewrite !set_role_same.
  split; intros Q; [now injection Q|now rewrite Q].
Qed.
End Any.

(** ** exact arithmetic *)
Section Real.
Local Open Scope R_scope.
Implicit Types (m : mem R) (s : contents R).
(** [v] is the greatest of the elements of window (y, z) of channel [c] *)
Definition greatest_in_window (q : tiling) (x : Z -> R) (c y z : Z) (v : R) : Prop :=
  (exists i j, (y * q_vs q <= i < (y + 1) * q_vs q)%Z /\ (z * q_hs q <= j < (z + 1) * q_hs q)%Z /\ v = x (at3 (q_h q) (q_w q) c i j)) /\
  forall i j, (y * q_vs q <= i < (y + 1) * q_vs q)%Z -> (z * q_hs q <= j < (z + 1) * q_hs q)%Z -> x (at3 (q_h q) (q_w q) c i j) <= v.
(** (i, j) is the first position of the maximum of its window, in row-major order *)
Definition first_max (q : tiling) (x : Z -> R) (c i j : Z) : Prop :=
  forall i' j', (i' / q_vs q = i / q_vs q)%Z -> (j' / q_hs q = j / q_hs q)%Z ->
    x (at3 (q_h q) (q_w q) c i' j') <= x (at3 (q_h q) (q_w q) c i j) /\
    ((i' < i \/ i' = i /\ j' < j)%Z -> x (at3 (q_h q) (q_w q) c i' j') < x (at3 (q_h q) (q_w q) c i j)).
Lemma window_max_greatest q (x : Z -> R) c y z : tiling_ok q -> greatest_in_window q x c y z (window_max q x c y z).
Proof.
  intros Q. destruct (scan_R q x c y z Q) as (i & j & Hi & Hj & E & K). unfold window_max. rewrite E. cbn [fst]. split.
  - exists (y * q_vs q + i)%Z, (z * q_hs q + j)%Z. split; [lia|]. split; [lia|reflexivity].
  - intros i' j' Hi' Hj'. replace i' with (y * q_vs q + (i' - y * q_vs q))%Z by lia. replace j' with (z * q_hs q + (j' - z * q_hs q))%Z by lia.
    apply K; lia.
Qed.
Theorem C59_raw_value_is_maximum (L : xpool) q a m s x xv :
  xpool_dims L q -> xp_act L = Some a -> (a = SoftMax -> (0 < q_d q * q_oh q * q_ow q)%Z) -> layer_at m (LXPool L) s ->
  argument3 m (LXPool L) x (q_d q) (q_h q) (q_w q) xv ->
  exists m' s' p, xpool_forward L x m = Ok (tt, m') /\ layer_at m' (LXPool L) s' /\
    (forall c y z, (0 <= c < q_d q)%Z -> (0 <= y < q_oh q)%Z -> (0 <= z < q_ow q)%Z ->
       greatest_in_window q xv c y z (p (at3 (q_oh q) (q_ow q) c y z))) /\
    (forall o, (0 <= o < q_d q * q_oh q * q_ow q)%Z -> s' RValue o = act_val a (q_d q * q_oh q * q_ow q) p o).
Proof.
  intros D Ea Hs H X. destruct (C59_raw_value L q a m s x xv D Ea Hs H X) as (m' & s' & p & E & A & P & V & _).
  exists m', s', p. do 2 (split; [assumption|]). split; [|exact V]. intros c y z Hc Hy Hz. rewrite P by auto. apply window_max_greatest, D.
Qed.
Lemma window_mask_first q (x : Z -> R) c i j : tiling_ok q ->
  (first_max q x c i j -> window_mask q x c i j = 1) /\ (~ first_max q x c i j -> window_mask q x c i j = 0).
Proof.
  intros Q. assert (Hv : (0 < q_vs q)%Z) by apply Q. assert (Hh : (0 < q_hs q)%Z) by apply Q.
  unfold window_mask. cbv zeta. destruct (scan_R q x c (i / q_vs q) (j / q_hs q) Q) as (a & b & Ha & Hb & -> & K). cbn [fst snd].
  pose proof (Z.div_mod i (q_vs q) ltac:(lia)) as Ei. pose proof (Z.mod_pos_bound i (q_vs q) Hv) as Bi.
  pose proof (Z.div_mod j (q_hs q) ltac:(lia)) as Ej. pose proof (Z.mod_pos_bound j (q_hs q) Hh) as Bj.
  set (y := (i / q_vs q)%Z) in *. set (z := (j / q_hs q)%Z) in *.
  assert (W1 : ((y * q_vs q + a) / q_vs q = y)%Z) by (rewrite Z.div_add_l, Z.div_small by lia; lia).
  assert (W2 : ((z * q_hs q + b) / q_hs q = z)%Z) by (rewrite Z.div_add_l, Z.div_small by lia; lia).
  destruct (Z.eqb_spec i (y * q_vs q + a)) as [E1|N1]; [destruct (Z.eqb_spec j (z * q_hs q + b)) as [E2|N2]|]; cbn [andb one zero Num_R].
  - split; [reflexivity|]. intros N. exfalso. apply N. intros i' j' Hi' Hj'. fold y z in Hi', Hj'.
    pose proof (Z.div_mod i' (q_vs q) ltac:(lia)) as Ei'. pose proof (Z.mod_pos_bound i' (q_vs q) Hv) as Bi'.
    pose proof (Z.div_mod j' (q_hs q) ltac:(lia)) as Ej'. pose proof (Z.mod_pos_bound j' (q_hs q) Hh) as Bj'.
    destruct (K (i' mod q_vs q) (j' mod q_hs q) Bi' Bj')%Z as [K1 K2].
    replace (y * q_vs q + i' mod q_vs q)%Z with i' in * by lia. replace (z * q_hs q + j' mod q_hs q)%Z with j' in * by lia.
    rewrite <- E1, <- E2 in *. split; [exact K1|]. intros C. apply K2. lia.
  - split; [|reflexivity]. intros F. exfalso.
    destruct (F (y * q_vs q + a)%Z (z * q_hs q + b)%Z W1 W2) as [F1 F2]. destruct (K (i mod q_vs q) (j mod q_hs q) Bi Bj)%Z as [K1 K2].
    replace (y * q_vs q + i mod q_vs q)%Z with i in * by lia. replace (z * q_hs q + j mod q_hs q)%Z with j in * by lia.
    destruct (Z.lt_trichotomy j (z * q_hs q + b)) as [C|[C|C]]; [|congruence|]; [assert (x (at3 (q_h q) (q_w q) c i j) < x (at3 (q_h q) (q_w q) c (y * q_vs q + a) (z * q_hs q + b))) by (apply K2; lia)|assert (x (at3 (q_h q) (q_w q) c (y * q_vs q + a) (z * q_hs q + b)) < x (at3 (q_h q) (q_w q) c i j)) by (apply F2; lia)]; lra.
  - split; [|reflexivity]. intros F. exfalso.
    destruct (F (y * q_vs q + a)%Z (z * q_hs q + b)%Z W1 W2) as [F1 F2]. destruct (K (i mod q_vs q) (j mod q_hs q) Bi Bj)%Z as [K1 K2].
    replace (y * q_vs q + i mod q_vs q)%Z with i in * by lia. replace (z * q_hs q + j mod q_hs q)%Z with j in * by lia.
    destruct (Z.lt_trichotomy i (y * q_vs q + a)) as [C|[C|C]]; [|congruence|]; [assert (x (at3 (q_h q) (q_w q) c i j) < x (at3 (q_h q) (q_w q) c (y * q_vs q + a) (z * q_hs q + b))) by (apply K2; lia)|assert (x (at3 (q_h q) (q_w q) c (y * q_vs q + a) (z * q_hs q + b)) < x (at3 (q_h q) (q_w q) c i j)) by (apply F2; lia)]; lra.
Qed.
(** every window has one *)
Lemma first_max_exists q (x : Z -> R) c y z : tiling_ok q -> exists i j, (i / q_vs q = y)%Z /\ (j / q_hs q = z)%Z /\ first_max q x c i j.
Proof.
  intros Q. assert (Hv : (0 < q_vs q)%Z) by apply Q. assert (Hh : (0 < q_hs q)%Z) by apply Q.
  destruct (scan_R q x c y z Q) as (a & b & Ha & Hb & _ & K). exists (y * q_vs q + a)%Z, (z * q_hs q + b)%Z.
  assert (W1 : ((y * q_vs q + a) / q_vs q = y)%Z) by (rewrite Z.div_add_l, Z.div_small by lia; lia).
  assert (W2 : ((z * q_hs q + b) / q_hs q = z)%Z) by (rewrite Z.div_add_l, Z.div_small by lia; lia).
  split; [exact W1|]. split; [exact W2|]. intros i' j' Hi' Hj'. rewrite W1 in Hi'. rewrite W2 in Hj'.
  pose proof (Z.div_mod i' (q_vs q) ltac:(lia)) as Ei'. pose proof (Z.mod_pos_bound i' (q_vs q) Hv) as Bi'.
  pose proof (Z.div_mod j' (q_hs q) ltac:(lia)) as Ej'. pose proof (Z.mod_pos_bound j' (q_hs q) Hh) as Bj'.
  destruct (K (i' mod q_vs q) (j' mod q_hs q) Bi' Bj')%Z as [K1 K2].
  replace (y * q_vs q + i' mod q_vs q)%Z with i' in * by lia. replace (z * q_hs q + j' mod q_hs q)%Z with j' in * by lia.
  split; [exact K1|]. intros C. apply K2. lia.
Qed.

(** ** C62 *)
Theorem C62_backward_routes_to_maximum (L : pool) q m s x xv m1 m2 dt d :
  pool_dims L q -> p_act L = Some (Scalar Identity) -> layer_at m (LPool L) s ->
  argument3 m (LPool L) x (q_d q) (q_h q) (q_w q) xv -> pool_forward L x m = Ok (tt, m1) -> client (LPool L) m1 m2 ->
  argument m2 (LPool L) dt (q_d q * q_oh q * q_ow q) d ->
  exists m3 s3, l_backward (LPool L) x dt true m2 = Ok (tt, m3) /\ layer_at m3 (LPool L) s3 /\
    forall c i j, (0 <= c < q_d q)%Z -> (0 <= i < q_h q)%Z -> (0 <= j < q_w q)%Z ->
      (first_max q xv c i j -> s3 RDelta (at3 (q_h q) (q_w q) c i j) = d (at3 (q_oh q) (q_ow q) c (i / q_vs q) (j / q_hs q))) /\
      (~ first_max q xv c i j -> s3 RDelta (at3 (q_h q) (q_w q) c i j) = 0).
Proof.
  intros D Ea H X E1 C (Sd & Hd & Hod).
  destruct (pool_forward_run L q _ m s x xv D Ea ltac:(discriminate) H X) as (m1' & E1' & A1 & _). rewrite E1 in E1'. injection E1' as <-.
  apply (client_layer _ m2) in A1; [|exact C].
  destruct (pool_backward_run L q _ m2 _ dt d D Ea A1 Hd Hod) as (m3 & E3 & A3 & _).
  eexists m3, _. split; [exact E3|]. split; [exact A3|]. intros c i j Hc Hi Hj.
  unfold pool_after_backward. rewrite set_role_same, flat3_at by auto. unfold pool_delta, pool_buff, pool_after_forward.
  rewrite (set_role_other _ RValue _ RMask), set_role_same by discriminate. unfold pool_mask. rewrite flat3_at by auto.
  cbn [act_dval scalar_df identity_derived mul one Num_R].
  destruct (window_mask_first q xv c i j (proj1 D)) as [F1 F2]. split; intros F.
  - rewrite F1 by auto. lra.
  - rewrite F2 by auto. lra.
Qed.
End Real.

Module Examples.
Local Open Scope R_scope.
(** one channel, 2x4 input, 2x2 windows *)
Definition q0 : tiling := mk_tiling 1 1 2 2 2.
Definition xs : list R := [1; 5; 2; 7; 5; 3; 7; 0].
Definition ds : list R := [3; 4].
Definition m0 : mem R := [Some (map Some xs); Some (map Some ds)].
Definition tx : tensor := mk_tensor (Ptr 0 0) (shape3 1 2 4).
Definition td : tensor := mk_tensor (Ptr 1 0) (shape3 1 1 2).
Definition xv (i : Z) : R := nth (Z.to_nat i) xs 0.
Definition dv (i : Z) : R := nth (Z.to_nat i) ds 0.
Lemma q0_ok : tiling_ok q0.
Proof. unfold tiling_ok, q_h, q_w. cbn. repeat split; lia. Qed.
Lemma situation : exists L m, pool_dims L q0 /\ p_act L = Some (Scalar Identity) /\ layer_at m (LPool L) (fun _ _ => 0) /\
  argument3 m (LPool L) tx 1 2 4 xv /\ argument m (LPool L) td 2 dv.
Proof.
  destruct (C59_construction m0 1 1 2 2 2 (Some (Scalar Identity)) q0_ok) as [_ (L & m & E & Eo & D & Ea & A & P & F)].
  exists L, m. split; [exact D|]. split; [exact Ea|]. split; [exact A|].
  assert (K : forall b n f, (b < 2)%nat -> holds m0 (Ptr b 0) n f -> holds m (Ptr b 0) n f).
  { intros b n f Hb Hh i Hi. eapply keeps_cell; [exact P|intros []|]. exact (Hh i Hi). }
  assert (O : forall b, (b < 2)%nat -> outside (LPool L) (Ptr b 0)).
  { intros b Hb Q. apply F in Q. cbn in Q. lia. }
  split.
  - split; [split; [reflexivity|]; cbn; repeat split; lia|]. split; [|apply O; lia]. apply (K 0%nat); [lia|]. apply (holds_list m0 0 xs 0). reflexivity.
  - split; [reflexivity|]. split; [|apply O; lia]. apply (K 1%nat); [lia|]. apply (holds_list m0 1 ds 0). reflexivity.
Qed.
(** the delta 3 of the first window goes to its first 5, at (0, 1) *)
Lemma first_max_01 : first_max q0 xv 0 0 1.
Proof.
  intros i' j' Hi Hj. change (i' / 2 = 0)%Z in Hi. change (j' / 2 = 0)%Z in Hj.
  pose proof (Z.div_mod i' 2 ltac:(lia)). pose proof (Z.mod_pos_bound i' 2 ltac:(lia)). pose proof (Z.div_mod j' 2 ltac:(lia)). pose proof (Z.mod_pos_bound j' 2 ltac:(lia)).
  assert (Ci : (i' = 0 \/ i' = 1)%Z) by lia. assert (Cj : (j' = 0 \/ j' = 1)%Z) by lia.
  destruct Ci as [-> | ->]; destruct Cj as [-> | ->].
  - change (1 <= 5 /\ ((0 < 0)%Z \/ 0%Z = 0%Z /\ (0 < 1)%Z -> 1 < 5)). split; lra.
  - change (5 <= 5 /\ ((0 < 0)%Z \/ 0%Z = 0%Z /\ (1 < 1)%Z -> 5 < 5)). split; [lra|lia].
  - change (5 <= 5 /\ ((1 < 0)%Z \/ 1%Z = 0%Z /\ (0 < 1)%Z -> 5 < 5)). split; [lra|lia].
  - change (3 <= 5 /\ ((1 < 0)%Z \/ 1%Z = 0%Z /\ (1 < 1)%Z -> 3 < 5)). split; [lra|lia].
Qed.
Example C62_applies : exists (L : pool) m3 s3, layer_at m3 (LPool L) s3 /\ s3 RDelta 1%Z = 3 /\ s3 RDelta 4%Z = 0.
Proof.
  destruct situation as (L & m & D & Ea & A & X & (Sd & Hd & Hod)).
  destruct (pool_forward_run L q0 _ m _ tx xv D Ea ltac:(discriminate) A X) as (m1 & E1 & A1 & O1).
  assert (Hd1 := outside_holds _ _ (LPool L) _ _ _ _ O1 (fun b i h => h) Hod Hd).
  destruct (C62_backward_routes_to_maximum L q0 m _ tx xv m1 m1 td dv D Ea A X E1) as (m3 & s3 & E3 & A3 & P).
  { intros b Hb. reflexivity. } { repeat split; auto. }
  exists L, m3, s3. split; [exact A3|]. split.
  - apply (P 0%Z 0%Z 1%Z); [cbn; lia|cbn; lia|cbn; lia|]. exact first_max_01.
  - apply (P 0%Z 1%Z 0%Z); [cbn; lia|cbn; lia|cbn; lia|]. intros F. destruct (F 0%Z 1%Z eq_refl eq_refl) as [_ F2].
    assert (Q : 5 < 5) by (apply F2; left; lia). lra.
Qed.
(** hypotheses of C60: a 1x2x3 input with stride 2 in a memory that holds just it *)
Example C60_applies : exists e, xpool_forward (mk_xpool (shape3 1 2 3) (shape3 1 1 1) 2 2 (Some (Scalar Identity)) tb_default)
  (mk_tensor (Ptr 0 0) (shape3 1 2 3)) [Some (map Some [1; 2; 3; 4; 5; 6])] = UB e.
Proof.
  apply (C60_non_dividing_stride_refuted 1 2 3 2 2); try lia; try reflexivity.
  - right. discriminate.
  - split; [reflexivity|]. cbn. repeat split; lia.
  - split; [reflexivity|]. exists 0%nat. split; [reflexivity|]. eexists. split; reflexivity.
Qed.
(** hypotheses of C61: the maxima are 5 and 7, the training value 0 *)
Example C61_applies : window_max q0 xv 0 0 0 <> 0.
Proof.
  destruct (window_max_greatest q0 xv 0 0 0 q0_ok) as [_ G]. assert (Q : 5 <= window_max q0 xv 0 0 0) by (apply (G 0 1)%Z; cbn; lia). lra.
Qed.
End Examples.

Print Assumptions C59_construction.
Print Assumptions C59_raw_value.
Print Assumptions C59_raw_value_is_maximum.
Print Assumptions C60_any_stride_constructs.
Print Assumptions C60_non_dividing_stride_refuted.
Print Assumptions C60_dividing_stride_safe_partial.
Print Assumptions C61_train_ignores_input_refuted.
Print Assumptions C61_new_layers_differ_refuted.
Print Assumptions C62_backward_routes_to_maximum.
Print Assumptions C61_agree_iff_partial.

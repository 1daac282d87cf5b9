(** * Properties C55-C58, C85: the convolutional layer *)
From Coq Require Import QArith Reals Lra.
From Coquelicot Require Import Coquelicot.
From Verif Require Import Mem Scalar MemSpec MemLemmas Lique LiqueSpec LiqueProofs LiqueProofs2 Linear LinearProofs RSum Functions FunctionSpec FunctionProofs
  Optimizer Layer LayerSpec FCProofs RealSpec NetSpec ActivationProofs LossProofs Vjp PropFunctions PropFC Cells ConvSpec ConvProofs ConvProofs2 ConvVjp.
Open Scope Z_scope.

Section Any.
Context {T : Type} `{NT : Num T}.
Implicit Types (m : mem T) (s : contents T).

(** A tensor argument of shape (d, h, w) with values [v], not in the layer's own memory. *)
Definition argument3 m (L : layer) (x : tensor) (d h w : Z) (v : Z -> T) : Prop :=
  ten_is x d h w /\ holds m (t_data x) (d * h * w) v /\ outside L (t_data x).
(** the layer's internal buffer is zero off the grid of the strides *)
Definition off_grid_zero (g : geometry) s : Prop := forall f r q,
  0 <= f < g_f g -> 0 <= r < spread_h g -> 0 <= q < spread_w g -> r mod g_vs g <> 0 \/ q mod g_hs g <> 0 ->
  s RBuff (at3 (spread_h g) (spread_w g) f r q) = zero.

(** ** C55 *)
Theorem C55_construction m D H W F FH FW P VS HS :
  let g := mk_geometry D H W F FH FW P VS HS in geometry_ok g ->
  exists L m', conv_new (shape3 D H W) F FH FW P VS HS m = Ok (L, m') /\
    c_osize L = shape3 F ((H - FH + 2 * P) / VS + 1) ((W - FW + 2 * P) / HS + 1) /\
    conv_dims L g /\ layer_at m' (LConv L) (fun _ _ => zero) /\ off_grid_zero g (fun _ _ => zero) /\ preserves m m' /\
    forall b, block_in (LConv L) b -> (length m <= b)%nat.
Proof.
  intros g G. destruct (wp_elim _ _ _ _ (wp_conv_new m g G)) as (L & m' & E & A & B & K & F').
  exists L, m'. split; [exact E|]. split; [apply A|]. split; [exact A|]. split; [exact B|]. split; [intros f r q; reflexivity|]. split; [|exact F'].
  exact K.
Qed.
Theorem C55_raw_construction m D H W F FH FW P VS HS :
  let g := mk_geometry D H W F FH FW P VS HS in geometry_ok g ->
  exists L m', xconv_new (shape3 D H W) F FH FW P VS HS m = Ok (L, m') /\
    xc_osize L = shape3 F ((H - FH + 2 * P) / VS + 1) ((W - FW + 2 * P) / HS + 1) /\
    xconv_dims L g /\ layer_at m' (LXConv L) (fun _ _ => zero) /\ preserves m m' /\
    forall b, block_in (LXConv L) b -> (length m <= b)%nat.
Proof.
  intros g G. destruct (wp_elim _ _ _ _ (wp_xconv_new m g G)) as (L & m' & E & A & B & K & F').
  exists L, m'. split; [exact E|]. split; [apply A|]. split; [exact A|]. split; [exact B|]. split; [exact K|exact F'].
Qed.
Lemma conv_forward_run (L : conv) g m s x xv :
  conv_dims L g -> layer_at m (LConv L) s -> argument3 m (LConv L) x (g_d g) (g_h g) (g_w g) xv ->
  exists m', conv_forward L x m = Ok (tt, m') /\
    layer_at m' (LConv L) (set_role s RValue (conv_flat g (s RB) (fun f => s (RW f)) xv)) /\ only (fun b _ => block_in (LConv L) b) m m'.
Proof.
  intros D H (Sx & Hx & Ho). pose proof D as (G & E1 & E2 & E3 & E4 & E5 & E6 & E7 & L1 & L2 & Sw & SB & SG & SV & _).
  destruct (wp_elim _ _ _ _ (wp_conv_forward (LConv L) g G (c_B L) (c_value L) (c_Ws L) eq_refl (fun f => eq_refl) eq_refl SB L1
    (fun t Ht => Sw t (in_or_app _ _ _ (or_introl Ht))) SV m s x xv H Sx Hx Ho)) as ([] & m' & E & A & O).
  exists m'. split; [|auto]. unfold conv_forward. rewrite E1, E2, E3, E4, E5, E6, E7. exact E.
Qed.
Lemma xconv_forward_run (L : xconv) g m s x xv :
  xconv_dims L g -> layer_at m (LXConv L) s -> argument3 m (LXConv L) x (g_d g) (g_h g) (g_w g) xv ->
  exists m', xconv_forward L x m = Ok (tt, m') /\
    layer_at m' (LXConv L) (set_role s RValue (conv_flat g (s RB) (fun f => s (RW f)) xv)) /\ only (fun b _ => block_in (LXConv L) b) m m'.
Proof.
  intros D H (Sx & Hx & Ho). pose proof D as (G & E1 & E2 & E3 & E4 & E5 & E6 & E7 & L1 & Sw & SB & SV).
  destruct (wp_elim _ _ _ _ (wp_conv_forward (LXConv L) g G (xc_B L) (xc_value L) (xc_Ws L) eq_refl (fun f => eq_refl) eq_refl SB L1
    Sw SV m s x xv H Sx Hx Ho)) as ([] & m' & E & A & O).
  exists m'. split; [|auto]. unfold xconv_forward. rewrite E1, E2, E3, E4, E5, E6, E7. exact E.
Qed.
Lemma conv_backward_run (L : conv) g m s x xv dt d :
  conv_dims L g -> layer_at m (LConv L) s -> argument3 m (LConv L) x (g_d g) (g_h g) (g_w g) xv ->
  argument3 m (LConv L) dt (g_f g) (out_h g) (out_w g) d ->
  exists m', conv_backward L x dt m = Ok (tt, m') /\ layer_at m' (LConv L) (conv_after_backward g xv d s) /\ only (fun b _ => block_in (LConv L) b) m m'.
Proof.
  intros D H (Sx & Hx & Ho) (Sd & Hd & Hod).
  destruct (wp_elim _ _ _ _ (wp_conv_backward L g D m s x xv dt d H Sx Hx Ho Sd Hd Hod)) as ([] & m' & E & A & O). eauto.
Qed.
(** No call reads or writes outside the tensors (the model stops with an error there), and only
    the layer's own memory is written. *)
Theorem C55_memory_safe (L : conv) g m s x xv dt d :
  conv_dims L g -> layer_at m (LConv L) s -> argument3 m (LConv L) x (g_d g) (g_h g) (g_w g) xv ->
  (exists m', conv_forward L x m = Ok (tt, m') /\ only (fun b _ => block_in (LConv L) b) m m') /\
  (argument3 m (LConv L) dt (g_f g) (out_h g) (out_w g) d ->
   exists m', conv_backward L x dt m = Ok (tt, m') /\ only (fun b _ => block_in (LConv L) b) m m').
Proof.
  intros D H X. split.
  - destruct (conv_forward_run L g m s x xv D H X) as (m' & E & _ & O). eauto.
  - intros X'. destruct (conv_backward_run L g m s x xv dt d D H X X') as (m' & E & _ & O). eauto.
Qed.
Theorem C55_raw_memory_safe (L : xconv) g m s x xv :
  xconv_dims L g -> layer_at m (LXConv L) s -> argument3 m (LXConv L) x (g_d g) (g_h g) (g_w g) xv ->
  exists m', xconv_forward L x m = Ok (tt, m') /\ only (fun b _ => block_in (LXConv L) b) m m'.
Proof. intros D H X. destruct (xconv_forward_run L g m s x xv D H X) as (m' & E & _ & O). eauto. Qed.

(** ** C56, any arithmetic *)
Theorem C56_forward_value (L : conv) g m s x xv :
  conv_dims L g -> layer_at m (LConv L) s -> argument3 m (LConv L) x (g_d g) (g_h g) (g_w g) xv ->
  exists m' s', conv_forward L x m = Ok (tt, m') /\ layer_at m' (LConv L) s' /\
    (forall f y z, 0 <= f < g_f g -> 0 <= y < out_h g -> 0 <= z < out_w g ->
       s' RValue (at3 (out_h g) (out_w g) f y z) = conv_val g (s RB) (fun f => s (RW f)) xv f y z) /\
    (forall r, r <> RValue -> s' r = s r).
Proof.
  intros D H X. destruct (conv_forward_run L g m s x xv D H X) as (m' & E & A & O). eexists m', _. split; [exact E|]. split; [exact A|]. split.
  - intros f y z Hf Hy Hz. rewrite set_role_same. now apply conv_flat_at.
  - intros r Hr. now apply set_role_other.
Qed.
Theorem C56_raw_and_train_agree (L : conv) (L' : xconv) g m s m' s' x x' xv m1 m1' v v' :
  conv_dims L g -> xconv_dims L' g -> layer_at m (LConv L) s -> layer_at m' (LXConv L') s' ->
  s' RB = s RB -> (forall f, s' (RW f) = s (RW f)) ->
  argument3 m (LConv L) x (g_d g) (g_h g) (g_w g) xv -> argument3 m' (LXConv L') x' (g_d g) (g_h g) (g_w g) xv ->
  conv_forward L x m = Ok (tt, m1) -> xconv_forward L' x' m' = Ok (tt, m1') ->
  holds m1 (t_data (c_value L)) (g_f g * out_h g * out_w g) v -> holds m1' (t_data (xc_value L')) (g_f g * out_h g * out_w g) v' ->
  forall o, 0 <= o < g_f g * out_h g * out_w g -> v o = v' o.
Proof.
  intros D D' H H' EB EW X X' E E' Hv Hv' o Ho.
  destruct (conv_forward_run L g m s x xv D H X) as (m2 & E2 & A2 & _). rewrite E in E2. injection E2 as <-.
  destruct (xconv_forward_run L' g m' s' x' xv D' H' X') as (m3 & E3 & A3 & _). rewrite E' in E3. injection E3 as <-.
  assert (S : t_size (c_value L) = g_f g * out_h g * out_w g) by apply D.
  assert (S' : t_size (xc_value L') = g_f g * out_h g * out_w g) by apply D'.
  pose proof (part_holds' _ _ _ RValue _ _ A2 eq_refl S) as P1. pose proof (part_holds' _ _ _ RValue _ _ A3 eq_refl S') as P3.
  rewrite set_role_same in P1, P3.
  rewrite (holds_unique _ _ _ _ _ o Hv P1 Ho), (holds_unique _ _ _ _ _ o Hv' P3 Ho). rewrite EB. unfold conv_flat.
  generalize (o / out_w g / out_h g) ((o / out_w g) mod out_h g) (o mod out_w g). intros f y z.
  unfold conv_val. now rewrite EW.
Qed.

(** *** the buffer stays zero off the grid *)
Lemma off_grid_role g s s' : s' RBuff = s RBuff -> off_grid_zero g s -> off_grid_zero g s'.
Proof. intros E H f r q Hf Hr Hq Hg. rewrite E. now apply H. Qed.
Lemma buff_backward g s x d : geometry_ok g -> forall f r q, 0 <= r < spread_h g -> 0 <= q < spread_w g ->
  conv_after_backward g x d s RBuff (at3 (spread_h g) (spread_w g) f r q) = spread_val g d (s RBuff) f r q.
Proof.
  intros G f r q Hr Hq. unfold conv_after_backward. cbv zeta. rewrite set_role_other by discriminate. cbn [conv_after_grads].
  rewrite set_role_same. unfold spread_flat. now apply flat3_at.
Qed.
Lemma off_grid_backward g s x d : geometry_ok g -> off_grid_zero g s -> off_grid_zero g (conv_after_backward g x d s).
Proof.
  intros G H f r q Hf Hr Hq Hg. rewrite buff_backward by auto. unfold spread_val.
  replace ((r mod g_vs g =? 0) && (q mod g_hs g =? 0)) with false; [now apply H|].
  symmetry. apply Bool.andb_false_iff. destruct Hg as [Hg|Hg]; [left|right]; now apply Z.eqb_neq.
Qed.
End Any.

(** ** C56-C58, exact arithmetic *)
Section Real.
Local Open Scope R_scope.
Implicit Types (m : mem R) (s : contents R).

Theorem C56_forward_is_correlation (L : conv) g m s x xv :
  conv_dims L g -> layer_at m (LConv L) s -> argument3 m (LConv L) x (g_d g) (g_h g) (g_w g) xv ->
  exists m' s', conv_forward L x m = Ok (tt, m') /\ layer_at m' (LConv L) s' /\
    (forall f y z, (0 <= f < g_f g)%Z -> (0 <= y < out_h g)%Z -> (0 <= z < out_w g)%Z ->
       s' RValue (at3 (out_h g) (out_w g) f y z) =
       s RB f + rsum (g_fh g) (fun i => rsum (g_fw g) (fun j => rsum (g_d g) (fun c =>
         padded (g_h g) (g_w g) xv c (g_vs g * y + i - g_p g) (g_hs g * z + j - g_p g) * s (RW f) (at3 (g_fh g) (g_fw g) c i j))))) /\
    (forall r, r <> RValue -> s' r = s r).
Proof.
  intros D H X. destruct (C56_forward_value L g m s x xv D H X) as (m' & s' & E & A & V & F). exists m', s'. do 2 (split; [assumption|]).
  split; [|exact F]. intros f y z Hf Hy Hz. rewrite V by auto. rewrite conv_val_R. reflexivity.
Qed.
(** the gradient of one sample [p] = (input, delta) *)
Definition sample_gradb (g : geometry) (p : (Z -> R) * (Z -> R)) (f : Z) : R :=
  rsum (out_h g) (fun y => rsum (out_w g) (fun z => snd p (at3 (out_h g) (out_w g) f y z))).
Definition sample_gradw (g : geometry) (p : (Z -> R) * (Z -> R)) (f c i j : Z) : R :=
  rsum (out_h g) (fun y => rsum (out_w g) (fun z =>
    snd p (at3 (out_h g) (out_w g) f y z) * padded (g_h g) (g_w g) (fst p) c (g_vs g * y + i - g_p g) (g_hs g * z + j - g_p g))).
Section Step.
Context (g : geometry) (G : geometry_ok g) (s : contents R) (Z0 : off_grid_zero g s) (x d : Z -> R).
Let s' := conv_after_backward g x d s.
Let d3 (f y z : Z) : R := d (at3 (out_h g) (out_w g) f y z).
Let b3 (f r q : Z) : R := s' RBuff (at3 (spread_h g) (spread_w g) f r q).
Lemma b3_spread f r q : (0 <= f < g_f g)%Z -> (0 <= r < spread_h g)%Z -> (0 <= q < spread_w g)%Z ->
  b3 f r q = if ((r mod g_vs g =? 0) && (q mod g_hs g =? 0))%Z then d3 f (r / g_vs g)%Z (q / g_hs g)%Z else 0.
Proof.
  intros Hf Hr Hq. unfold b3, s'. rewrite buff_backward by auto. unfold spread_val.
  destruct ((r mod g_vs g =? 0) && (q mod g_hs g =? 0))%Z eqn:E; [reflexivity|]. apply Z0; auto.
  apply Bool.andb_false_iff in E as [E|E]; apply Z.eqb_neq in E; auto.
Qed.
Lemma step_B f : (0 <= f < g_f g)%Z -> s' RGradB f = s RGradB f + rsum (spread_h g) (fun r => rsum (spread_w g) (fun q => b3 f r q)).
Proof.
  intros Hf. unfold s', conv_after_backward. cbv zeta. rewrite set_role_other by discriminate. cbn [conv_after_grads].
  rewrite gradb_val_R. rewrite set_role_other by discriminate. f_equal.
Qed.
Lemma step_W f c i j : (0 <= f < g_f g)%Z -> (0 <= c < g_d g)%Z -> (0 <= i < g_fh g)%Z -> (0 <= j < g_fw g)%Z ->
  s' (RGradW f) (at3 (g_fh g) (g_fw g) c i j) = s (RGradW f) (at3 (g_fh g) (g_fw g) c i j) +
    rsum (spread_h g) (fun r => rsum (spread_w g) (fun q => b3 f r q * padded (g_h g) (g_w g) x c (i + r - g_p g) (j + q - g_p g))).
Proof.
  intros Hf Hc Hi Hj. unfold s', conv_after_backward. cbv zeta. rewrite set_role_other by discriminate. cbn [conv_after_grads].
  rewrite gradw_val_R. rewrite (set_role_other s RBuff _ (RGradW f)) by discriminate.
  destruct (at3_flat (g_fh g) (g_fw g) c i j Hi Hj) as (-> & -> & ->). f_equal.
Qed.
Lemma step_D c y z : (0 <= c < g_d g)%Z -> (0 <= y < g_h g)%Z -> (0 <= z < g_w g)%Z ->
  s' RDelta (at3 (g_h g) (g_w g) c y z) = sum3 (g_fh g) (g_fw g) (g_f g) (fun i j f =>
    s (RW f) (at3 (g_fh g) (g_fw g) c i j) * boxed (spread_h g) (spread_w g) b3 f (y - (i - g_p g)) (z - (j - g_p g))).
Proof.
  intros Hc Hy Hz. unfold s', conv_after_backward. cbv zeta. rewrite set_role_same. unfold cdelta_flat. rewrite flat3_at by auto.
  rewrite cdelta_val_R. reflexivity.
Qed.
Lemma step_other r : ~ In r [RBuff; RGradB; RDelta] -> (forall f, r <> RGradW f) -> s' r = s r.
Proof.
  intros N Nw. cbn in N. unfold s', conv_after_backward. cbv zeta. rewrite set_role_other by (intros ->; tauto).
  transitivity (set_role s RBuff (spread_flat g d s) r).
  - unfold conv_after_grads. destruct r; try reflexivity; exfalso; [tauto|apply (Nw f); reflexivity].
  - apply set_role_other. intros ->; tauto.
Qed.
(** the added gradients as plain sums over the outputs *)
Lemma step_gradb f : (0 <= f < g_f g)%Z -> s' RGradB f = s RGradB f + sample_gradb g (x, d) f.
Proof.
  intros Hf. rewrite step_B by auto. f_equal. unfold sample_gradb. cbn [snd].
  pose proof (spread_sum g G d3 b3 b3_spread f (fun _ _ => 1) Hf) as E.
  rewrite (rsum_ext (spread_h g) _ (fun r => rsum (spread_w g) (fun q => b3 f r q * 1))) by (intros; apply rsum_ext; intros; lra).
  rewrite E. apply rsum_ext. intros y _. apply rsum_ext. intros z _. unfold d3. lra.
Qed.
Lemma step_gradw f c i j : (0 <= f < g_f g)%Z -> (0 <= c < g_d g)%Z -> (0 <= i < g_fh g)%Z -> (0 <= j < g_fw g)%Z ->
  s' (RGradW f) (at3 (g_fh g) (g_fw g) c i j) = s (RGradW f) (at3 (g_fh g) (g_fw g) c i j) + sample_gradw g (x, d) f c i j.
Proof.
  intros Hf Hc Hi Hj. rewrite step_W by auto. f_equal. unfold sample_gradw. cbn [fst snd].
  rewrite (spread_sum g G d3 b3 b3_spread f (fun r q => padded (g_h g) (g_w g) x c (i + r - g_p g) (j + q - g_p g)) Hf).
  apply rsum_ext. intros y _. apply rsum_ext. intros z _. unfold d3. f_equal. f_equal; lia.
Qed.
(** moving the parameters and the input along a curve moves the weighted output by these gradients *)
Lemma step_curve (cB : R -> Z -> R) (cW : R -> Z -> Z -> R) (cx : R -> Z -> R) B' W' x' t0 :
  (forall f o, (0 <= f < g_f g)%Z -> (0 <= o < g_d g * g_fh g * g_fw g)%Z -> cW t0 f o = s (RW f) o) ->
  (forall o, (0 <= o < g_d g * g_h g * g_w g)%Z -> cx t0 o = x o) ->
  (forall f, (0 <= f < g_f g)%Z -> is_derive (fun t => cB t f) t0 (B' f)) ->
  (forall f o, (0 <= f < g_f g)%Z -> (0 <= o < g_d g * g_fh g * g_fw g)%Z -> is_derive (fun t => cW t f o) t0 (W' f o)) ->
  (forall o, (0 <= o < g_d g * g_h g * g_w g)%Z -> is_derive (fun t => cx t o) t0 (x' o)) ->
  is_derive (fun t => weighted (g_f g * out_h g * out_w g) d (correlate g (cB t) (cW t) (cx t))) t0
    (rsum (g_f g) (fun f => (s' RGradB f - s RGradB f) * B' f) +
     rsum (g_f g) (fun f => rsum (g_d g * g_fh g * g_fw g) (fun o => (s' (RGradW f) o - s (RGradW f) o) * W' f o)) +
     rsum (g_d g * g_h g * g_w g) (fun o => s' RDelta o * x' o)).
Proof.
  intros CW CX dB dW dx.
  apply (conv_weighted_curve g G d3 b3 b3_spread (fun f => s' RGradB f - s RGradB f) (fun f o => s' (RGradW f) o - s (RGradW f) o) (s' RDelta)
    (s RB) (fun f => s (RW f)) x); auto.
  - intros f Hf. rewrite step_B by auto. lra.
  - intros f c i j Hf Hc Hi Hj. rewrite step_W by auto. lra.
  - intros c y z Hc Hy Hz. now apply step_D.
Qed.
End Step.

(** filter [f0] replaced by [Wf] *)
Definition with_filter (W : Z -> Z -> R) (f0 : Z) (Wf : Z -> R) : Z -> Z -> R := fun f => if (f =? f0)%Z then Wf else W f.
Lemma step_partial g s xv d : geometry_ok g -> off_grid_zero g s ->
  let W := fun f => s (RW f) in let n := (g_f g * out_h g * out_w g)%Z in let s' := conv_after_backward g xv d s in
    (forall f, (0 <= f < g_f g)%Z -> partial (fun B => weighted n d (correlate g B W xv)) (s RB) f (s' RGradB f - s RGradB f)) /\
    (forall f o, (0 <= f < g_f g)%Z -> (0 <= o < g_d g * g_fh g * g_fw g)%Z ->
       partial (fun Wf => weighted n d (correlate g (s RB) (with_filter W f Wf) xv)) (W f) o (s' (RGradW f) o - s (RGradW f) o)) /\
    (forall o, (0 <= o < g_d g * g_h g * g_w g)%Z -> partial (fun x => weighted n d (correlate g (s RB) W x)) xv o (s' RDelta o)).
Proof.
  intros G Z0 W n s'. subst s'. cbv zeta. split; [|split].
  - intros f Hf. apply is_derive_Reals. evar_last.
    { apply (step_curve g G s Z0 xv d (fun t => upd (s RB) f t) (fun _ => W) (fun _ => xv) (unit_at f) (fun _ _ => 0) (fun _ => 0)); intros;
      auto using upd_id, upd_curve. 1: apply (const_curve (W f0)). apply const_curve. }
    cbv beta. rewrite rsum_unit, rsum_zero by auto. rewrite (rsum_all0 (g_f g)) by (intros; apply rsum_zero). lra.
  - intros f o Hf Ho. apply is_derive_Reals. evar_last.
    { apply (step_curve g G s Z0 xv d (fun _ => s RB) (fun t => with_filter W f (upd (W f) o t)) (fun _ => xv) (fun _ => 0)
        (fun f' o' => if (f' =? f)%Z then unit_at o o' else 0) (fun _ => 0)).
      - intros f' o' _ _. unfold with_filter. destruct (Z.eqb_spec f' f) as [->|]; [apply upd_id|reflexivity].
      - auto.
      - intros. apply const_curve.
      - intros f' o' _ _. unfold with_filter. destruct (Z.eqb_spec f' f) as [->|]; [apply upd_curve|apply (const_curve (W f'))].
      - intros. apply const_curve. }
    cbv beta. rewrite !rsum_zero.
    rewrite (rsum_ext (g_f g) _ (fun f' => if (f' =? f)%Z then conv_after_backward g xv d s (RGradW f') o - s (RGradW f') o else 0)).
    + rewrite rsum_delta by auto. lra.
    + intros f' _. destruct (Z.eqb_spec f' f) as [->|]; [rewrite rsum_unit by auto; reflexivity|apply rsum_zero].
  - intros o Ho. apply is_derive_Reals. evar_last.
    { apply (step_curve g G s Z0 xv d (fun _ => s RB) (fun _ => W) (fun t => upd xv o t) (fun _ => 0) (fun _ _ => 0) (unit_at o)); intros;
      auto using upd_id, upd_curve. 1: apply const_curve. apply (const_curve (W f)). }
    cbv beta. rewrite rsum_unit, rsum_zero by auto. rewrite (rsum_all0 (g_f g)) by (intros; apply rsum_zero). lra.
Qed.
(** Backward adds the partial derivatives of the weighted output to the gradients and stores those
    with respect to the input in delta; whatever the gradients were, and whether or not forward
    was called. *)
Theorem C57_backward_adds_gradient (L : conv) g m s x xv dt d :
  conv_dims L g -> layer_at m (LConv L) s -> off_grid_zero g s ->
  argument3 m (LConv L) x (g_d g) (g_h g) (g_w g) xv -> argument3 m (LConv L) dt (g_f g) (out_h g) (out_w g) d ->
  let W := fun f => s (RW f) in let n := (g_f g * out_h g * out_w g)%Z in
  exists m' s', conv_backward L x dt m = Ok (tt, m') /\ layer_at m' (LConv L) s' /\ off_grid_zero g s' /\
    (forall f, (0 <= f < g_f g)%Z -> partial (fun B => weighted n d (correlate g B W xv)) (s RB) f (s' RGradB f - s RGradB f)) /\
    (forall f o, (0 <= f < g_f g)%Z -> (0 <= o < g_d g * g_fh g * g_fw g)%Z ->
       partial (fun Wf => weighted n d (correlate g (s RB) (with_filter W f Wf) xv)) (W f) o (s' (RGradW f) o - s (RGradW f) o)) /\
    (forall o, (0 <= o < g_d g * g_h g * g_w g)%Z -> partial (fun x => weighted n d (correlate g (s RB) W x)) xv o (s' RDelta o)) /\
    (forall r, ~ In r [RBuff; RGradB; RDelta] -> (forall f, r <> RGradW f) -> s' r = s r).
Proof.
  intros D H Z0 X Xd W n. destruct (conv_backward_run L g m s x xv dt d D H X Xd) as (m' & E & A & _).
  pose proof (proj1 D) as G. exists m', (conv_after_backward g xv d s). do 2 (split; [assumption|]). split; [now apply off_grid_backward|].
  destruct (step_partial g s xv d G Z0) as (P1 & P2 & P3). split; [exact P1|]. split; [exact P2|]. split; [exact P3|].
  intros r N Nw. now apply step_other.
Qed.
Theorem C57_backward_gradient (L : conv) g m s x xv dt d :
  conv_dims L g -> layer_at m (LConv L) s -> off_grid_zero g s ->
  argument3 m (LConv L) x (g_d g) (g_h g) (g_w g) xv -> argument3 m (LConv L) dt (g_f g) (out_h g) (out_w g) d ->
  (forall f, (0 <= f < g_f g)%Z -> s RGradB f = 0) ->
  (forall f o, (0 <= f < g_f g)%Z -> (0 <= o < g_d g * g_fh g * g_fw g)%Z -> s (RGradW f) o = 0) ->
  let W := fun f => s (RW f) in let n := (g_f g * out_h g * out_w g)%Z in
  exists m' s', conv_backward L x dt m = Ok (tt, m') /\ layer_at m' (LConv L) s' /\ off_grid_zero g s' /\
    (forall f, (0 <= f < g_f g)%Z -> partial (fun B => weighted n d (correlate g B W xv)) (s RB) f (s' RGradB f)) /\
    (forall f o, (0 <= f < g_f g)%Z -> (0 <= o < g_d g * g_fh g * g_fw g)%Z ->
       partial (fun Wf => weighted n d (correlate g (s RB) (with_filter W f Wf) xv)) (W f) o (s' (RGradW f) o)) /\
    (forall o, (0 <= o < g_d g * g_h g * g_w g)%Z -> partial (fun x => weighted n d (correlate g (s RB) W x)) xv o (s' RDelta o)).
Proof.
  intros D H Z0 X Xd HB HW W n.
  destruct (C57_backward_adds_gradient L g m s x xv dt d D H Z0 X Xd) as (m' & s' & E & A & Z1 & GB & GW & GD & _).
  exists m', s'. do 3 (split; [assumption|]). split; [|split; [|exact GD]].
  - intros f Hf. pose proof (GB f Hf) as P. rewrite HB, Rminus_0_r in P by auto. exact P.
  - intros f o Hf Ho. pose proof (GW f o Hf Ho) as P. rewrite HW, Rminus_0_r in P by auto. exact P.
Qed.
End Real.

(** ** C58: batches *)
Section Batches.
Local Open Scope R_scope.
Implicit Types (m : mem R) (s : contents R).
(** [conv_rounds g L m l m']: from memory [m], rounds of forward and backward on layer [L] for the
    samples [l = (x, d), ...] have led to [m'] *)
Inductive conv_rounds (g : geometry) (L : conv) m : list ((Z -> R) * (Z -> R)) -> mem R -> Prop :=
| crounds_start : conv_rounds g L m [] m
| crounds_client l m1 m2 : conv_rounds g L m l m1 -> client (LConv L) m1 m2 -> conv_rounds g L m l m2
| crounds_forward l m1 x xv m2 : conv_rounds g L m l m1 -> argument3 m1 (LConv L) x (g_d g) (g_h g) (g_w g) xv ->
    conv_forward L x m1 = Ok (tt, m2) -> conv_rounds g L m l m2
| crounds_backward l m1 x xv dt d m2 : conv_rounds g L m l m1 -> argument3 m1 (LConv L) x (g_d g) (g_h g) (g_w g) xv ->
    argument3 m1 (LConv L) dt (g_f g) (out_h g) (out_w g) d -> conv_backward L x dt m1 = Ok (tt, m2) ->
    conv_rounds g L m (l ++ [(xv, d)]) m2.
Lemma conv_rounds_inv g L m s l m' : conv_dims L g -> layer_at m (LConv L) s -> off_grid_zero g s -> conv_rounds g L m l m' ->
  exists s', layer_at m' (LConv L) s' /\ off_grid_zero g s' /\ s' RB = s RB /\ (forall f, s' (RW f) = s (RW f)) /\
    (forall f, (0 <= f < g_f g)%Z -> s' RGradB f = s RGradB f + sum_over (fun p => sample_gradb g p f) l) /\
    (forall f c i j, (0 <= f < g_f g)%Z -> (0 <= c < g_d g)%Z -> (0 <= i < g_fh g)%Z -> (0 <= j < g_fw g)%Z ->
       s' (RGradW f) (at3 (g_fh g) (g_fw g) c i j) = s (RGradW f) (at3 (g_fh g) (g_fw g) c i j) + sum_over (fun p => sample_gradw g p f c i j) l).
Proof.
  intros D H Z0 R. induction R as [|l m1 m2 R IH C|l m1 x xv m2 R IH X E|l m1 x xv dt d m2 R IH X Xd E].
  - exists s. do 2 (split; [assumption|]). do 2 (split; [reflexivity|]). split; intros; cbn; lra.
  - destruct IH as (s' & A & B). exists s'. split; [eapply client_layer; eauto|exact B].
  - destruct IH as (s' & A & Z1 & B1 & B2 & B3 & B4).
    destruct (conv_forward_run L g m1 s' x xv D A X) as (m3 & E3 & A3 & _). rewrite E in E3. injection E3 as <-.
    eexists. split; [exact A3|]. split; [eapply off_grid_role; [|exact Z1]; apply set_role_other; discriminate|].
    rewrite (set_role_other s' RValue _ RB) by discriminate. split; [exact B1|].
    split; [intros f; rewrite set_role_other by discriminate; apply B2|].
    split; [intros f Hf; rewrite set_role_other by discriminate; now apply B3|].
    intros. rewrite set_role_other by discriminate. now apply B4.
  - destruct IH as (s' & A & Z1 & B1 & B2 & B3 & B4). pose proof (proj1 D) as G.
    destruct (conv_backward_run L g m1 s' x xv dt d D A X Xd) as (m3 & E3 & A3 & _). rewrite E in E3. injection E3 as <-.
    eexists. split; [exact A3|]. split; [now apply off_grid_backward|].
    split. { rewrite step_other; auto; cbn; intuition discriminate. }
    split. { intros f. rewrite step_other; auto; [cbn; intuition discriminate|discriminate]. }
    split.
    + intros f Hf. rewrite step_gradb, B3, sum_over_app by auto. cbn [add Num_R]. lra.
    + intros f c i j Hf Hc Hi Hj. rewrite step_gradw, B4, sum_over_app by auto. cbn [add Num_R]. lra.
Qed.
(** From zero gradients (a new layer), [update(opt, alpha)] is the optimizer's update of each filter
    in order, then of B, with [alpha] times the sum over the samples presented. *)
Theorem C58_first_batch_partial addr (L : conv) g m s l m' alpha :
  conv_dims L g -> layer_at m (LConv L) s -> off_grid_zero g s -> conv_rounds g L m l m' ->
  (forall f, (0 <= f < g_f g)%Z -> s RGradB f = 0) ->
  (forall f o, (0 <= f < g_f g)%Z -> (0 <= o < g_d g * g_fh g * g_fw g)%Z -> s (RGradW f) o = 0) ->
  exists m1 s1, layer_at m1 (LConv L) s1 /\ s1 RB = s RB /\ (forall f, s1 (RW f) = s (RW f)) /\
    (forall f, (0 <= f < g_f g)%Z -> s1 RGradB f = sum_over (fun p => sample_gradb g p f) l * alpha) /\
    (forall f c i j, (0 <= f < g_f g)%Z -> (0 <= c < g_d g)%Z -> (0 <= i < g_fh g)%Z -> (0 <= j < g_fw g)%Z ->
       s1 (RGradW f) (at3 (g_fh g) (g_fw g) c i j) = sum_over (fun p => sample_gradw g p f c i j) l * alpha) /\
    forall o, l_update addr (LConv L) o alpha m' =
      (let* o1 := mfold 0 (g_f g) (fun i o =>
         let* W := nth_of (c_Ws L) i in let* G := nth_of (c_gradWs L) i in opt_update addr o (t_data W, t_size W) (t_data G, t_size G)) o in
       opt_update addr o1 (t_data (c_B L), t_size (c_B L)) (t_data (c_gradB L), t_size (c_gradB L))) m1.
Proof.
  intros D H Z0 R HB HW. destruct (conv_rounds_inv g L m s l m' D H Z0 R) as (s' & A & Z1 & B1 & B2 & B3 & B4).
  destruct (conv_update_scaled L g D addr alpha m' s' A) as (m1 & A1 & _ & E). exists m1, (conv_scaled alpha s'). split; [exact A1|].
  split; [exact B1|]. split; [exact B2|]. split; [|split; [|exact E]].
  - intros f Hf. cbn [conv_scaled mul Num_R]. rewrite B3, HB by auto. lra.
  - intros f c i j Hf Hc Hi Hj. cbn [conv_scaled mul Num_R]. rewrite B4 by auto. rewrite HW by (auto; now apply off3_range). lra.
Qed.
(** reset() leaves the gradients of a convolution as they were; whatever samples are presented
    afterwards, what was there is still part of the gradient. *)
Theorem C58_reset_refuted (L : conv) g m s l m' :
  conv_dims L g -> layer_at m (LConv L) s -> off_grid_zero g s ->
  l_reset (LConv L) m = Ok (LConv L, m) /\
  (conv_rounds g L m l m' ->
   (forall f, (0 <= f < g_f g)%Z -> elem m' (t_data (c_gradB L)) f = Some (Some (s RGradB f + sum_over (fun p => sample_gradb g p f) l))) /\
   (forall f, (0 <= f < g_f g)%Z -> s RGradB f <> 0 -> elem m' (t_data (c_gradB L)) f <> Some (Some (sum_over (fun p => sample_gradb g p f) l)))).
Proof.
  intros D H Z0. split; [reflexivity|]. intros R. destruct (conv_rounds_inv g L m s l m' D H Z0 R) as (s' & A & Z1 & B1 & B2 & B3 & B4).
  assert (S : t_size (c_gradB L) = g_f g) by apply D. pose proof (part_holds' _ _ _ RGradB _ _ A eq_refl S) as P.
  assert (Q : forall f, (0 <= f < g_f g)%Z -> elem m' (t_data (c_gradB L)) f = Some (Some (s RGradB f + sum_over (fun p => sample_gradb g p f) l))).
  { intros f Hf. rewrite (P f Hf). now rewrite B3. }
  split; [exact Q|]. intros f Hf Hn Q'. rewrite Q in Q' by auto. injection Q' as Q'. lra.
Qed.
(** Two batches with plain gradient descent: the second update of B moves it by the gradient of
    the second batch plus alpha * rate times that of the first. *)
Theorem C58_second_batch_refuted addr (L : conv) g m s l1 m1 o alpha m2 l2 m3 :
  conv_dims L g -> layer_at m (LConv L) s -> off_grid_zero g s -> (forall f, (0 <= f < g_f g)%Z -> s RGradB f = 0) ->
  o_kind o = GradDescent ->
  conv_rounds g L m l1 m1 -> l_update addr (LConv L) o alpha m1 = Ok (o, m2) ->
  l_reset (LConv L) m2 = Ok (LConv L, m2) /\
  (conv_rounds g L m2 l2 m3 ->
   exists m4, l_update addr (LConv L) o alpha m3 = Ok (o, m4) /\
   forall f, (0 <= f < g_f g)%Z ->
     let g1 := sum_over (fun p => sample_gradb g p f) l1 in let g2 := sum_over (fun p => sample_gradb g p f) l2 in
     elem m2 (t_data (c_B L)) f = Some (Some (s RB f - o_lr o * alpha * g1)) /\
     elem m4 (t_data (c_B L)) f = Some (Some (s RB f - o_lr o * alpha * g1 - o_lr o * alpha * (g2 + alpha * o_lr o * g1)))).
Proof.
  intros D H Z0 HB Ho R1 E2. split; [reflexivity|]. intros R3.
  destruct (conv_rounds_inv g L m s l1 m1 D H Z0 R1) as (s1 & A1 & Z1 & B1 & _ & B3 & _).
  destruct (wp_elim _ _ _ _ (wp_conv_update_gd L g D addr alpha m1 s1 o A1 Ho)) as (o' & m2' & E2' & -> & A2 & _).
  cbn [l_update] in E2. rewrite E2 in E2'. injection E2' as <-.
  assert (Z2 : off_grid_zero g (conv_after_gd (o_lr o) alpha s1)) by (eapply off_grid_role; [|exact Z1]; reflexivity).
  destruct (conv_rounds_inv g L m2 _ l2 m3 D A2 Z2 R3) as (s3 & A3 & Z3 & B1' & _ & B3' & _).
  destruct (wp_elim _ _ _ _ (wp_conv_update_gd L g D addr alpha m3 s3 o A3 Ho)) as (o' & m4 & E4 & -> & A4 & _).
  exists m4. split; [exact E4|]. intros f Hf g1 g2.
  assert (S : t_size (c_B L) = g_f g) by apply D.
  pose proof (part_holds' _ _ _ RB _ _ A2 eq_refl S) as P2. pose proof (part_holds' _ _ _ RB _ _ A4 eq_refl S) as P4.
  rewrite (P2 f Hf), (P4 f Hf). cbn [conv_after_gd sub mul Num_R]. rewrite B1', B3' by auto.
  cbn [conv_after_gd sub mul Num_R]. rewrite B3, HB, B1 by auto. fold g1 g2. split; do 2 f_equal; lra.
Qed.
End Batches.

(** ** C85: a convolution followed by a fully connected layer *)
Section Dense.
Context {T : Type} `{NT : Num T}.
Implicit Types (m : mem T) (s : contents T).
Lemma store_live p i (v : T) m m' b n : store p i v m = Ok (tt, m') -> live m b n -> live m' b n.
Proof.
  unfold store. destruct p as [|b' o]; [discriminate|]. destruct (nth_error m b') as [[l|]|] eqn:E; try discriminate.
  destruct (znth l (o + i)); [|discriminate]. intros Q. injection Q as <-. intros (l' & A & B).
  destruct (Nat.eq_dec b' b) as [->|Ne].
  - rewrite E in A. injection A as <-. eexists. split; [apply nth_set_nth_same; apply nth_error_Some; congruence|]. now rewrite set_nth_length.
  - exists l'. split; auto. now rewrite nth_set_nth_other.
Qed.
(** if a loop ends well, so did each of its iterations, in memories satisfying the invariant *)
Lemma mfor_ok_inv lo hi (body : Z -> M T unit) (I : mem T -> Prop) m m' :
  (forall i m1 m2, lo <= i < hi -> I m1 -> body i m1 = Ok (tt, m2) -> I m2) -> I m -> mfor lo hi body m = Ok (tt, m') ->
  I m' /\ forall k, lo <= k < hi -> exists m1 m2, I m1 /\ body k m1 = Ok (tt, m2).
Proof.
  unfold mfor, mfold. intros Hb. destruct (Z.le_gt_cases hi lo) as [Hle|Hgt].
  { replace (Z.to_nat (hi - lo)) with O by lia. cbn. intros Hm E. injection E as <-. split; [auto|lia]. }
  remember (Z.to_nat (hi - lo)) as n. assert (Hn : hi = lo + Z.of_nat n) by lia. clear Heqn Hgt.
  revert lo m Hn Hb. induction n as [|n IH]; intros lo m Hn Hb Hm; cbn [mfold_n].
  - intros E. injection E as <-. split; [auto|lia].
  - unfold bind. destruct (body lo m) as [[[] m1]|] eqn:E1; [|discriminate]. intros E.
    assert (Hm1 : I m1) by (eapply Hb; [|exact Hm|exact E1]; lia).
    destruct (IH (lo + 1) m1) as [Hm' Hk]; auto; [lia| |].
    { intros i m2 m3 Hi. apply Hb. lia. }
    split; [exact Hm'|]. intros k Hk'. destruct (Z.eq_dec k lo) as [->|]; [eauto|apply Hk; lia].
Qed.
(** The delta of a fully connected layer with [n] inputs has shape (1, 1, n). *)
Theorem C85_dense_delta_shape m n k act L m' :
  0 <= n < 2 ^ 64 -> 0 <= k < 2 ^ 64 -> n * k < 2 ^ 64 -> fc_new n k act m = Ok (L, m') -> t_shape (f_delta L) = shape3 1 1 n.
Proof.
  intros Hn Hk Hnk E. enough (W : wp (fc_new n k act) m (fun L m' => t_shape (f_delta L) = shape3 1 1 n)).
  { unfold wp in W. now rewrite E in W. }
  unfold fc_new. apply wp_bind. eapply wp_conseq; [apply wp_vec_zeros; lia|]. intros B m1 _.
  apply wp_bind. eapply wp_conseq; [apply wp_mat_zeros; lia|]. intros W m2 _.
  unfold fc_prepare. cbn [f_isize f_osize f_value f_buff f_gradBs f_gradWs f_gradB f_gradW f_delta].
  apply wp_bind. eapply wp_conseq; [apply wp_ten_zeros; reflexivity|]. intros ? ? _. cbn [shape3 s_width].
  apply wp_bind. eapply wp_conseq; [apply wp_vec_zeros; lia|]. intros ? ? _.
  apply wp_bind. eapply wp_conseq; [apply wp_vec_zeros; lia|]. intros ? ? _.
  apply wp_bind. eapply wp_conseq; [apply wp_mat_zeros; lia|]. intros ? ? _.
  apply wp_bind. eapply wp_conseq; [apply wp_vec_zeros; lia|]. intros ? ? _.
  apply wp_bind. eapply wp_conseq; [apply wp_mat_zeros; lia|]. intros ? ? _.
  apply wp_bind. eapply wp_conseq; [apply wp_ten_zeros; reflexivity|]. intros t ? [_ Sh]. apply wp_ret. exact Sh.
Qed.
(** Backward with such a delta reads outside it as soon as the convolution has more than one
    filter or more than one output row. *)
Theorem C85_conv_before_dense_refuted (L : conv) g m x dt :
  conv_dims L g -> owner m dt (g_f g * out_h g * out_w g) -> t_shape dt = shape3 1 1 (g_f g * out_h g * out_w g) ->
  1 < g_f g \/ 1 < out_h g ->
  exists k, conv_backward L x dt m = UB k.
Proof.
  intros D (Sz & b & Ed & Lv) Sh Hm. unfold conv_backward.
  pose proof D as (G & _ & E2 & _). pose proof (out_h_pos g G) as OH. pose proof (out_w_pos g G) as OW. pose proof (proj1 G) as GF.
  assert (Eb : s_depth (t_shape (c_buff L)) = g_f g) by apply D.
  assert (Bn : g_f g * out_h g * out_w g < 2 ^ 64) by (unfold geometry_ok in G; tauto).
  set (n := g_f g * out_h g * out_w g) in *. assert (Hn : 1 <= n). { unfold n. assert (1 <= g_f g * out_h g) by nia. nia. }
  unfold bind at 1. destruct (conv_spread L dt m) as [[[] m']|k] eqn:E; [|eauto]. exfalso.
  unfold conv_spread in E. rewrite Eb, E2 in E. cbn [shape3 s_height s_width] in E.
  set (cell := (fun d i j => bind (T := T) (ten_get dt d i j) (fun x0 => ten_set (c_buff L) d (u64 (i * c_vs L)) (u64 (j * c_hs L)) x0)) : Z -> Z -> Z -> M T unit).
  assert (Kc : forall d i j m1 m2, live m1 b n -> cell d i j m1 = Ok (tt, m2) -> live m2 b n).
  { intros d i j m1 m2 H1. unfold cell, bind, ten_get, load. destruct (t_data dt) as [|b0 o0]; [discriminate|].
    destruct (nth_error m1 b0) as [[l|]|]; try discriminate. destruct (znth l _) as [[v|]|]; try discriminate.
    unfold ten_set. intros Q. eapply store_live; eauto. }
  change (mfor 0 (g_f g) (fun d => mfor 0 (out_h g) (fun i => mfor 0 (out_w g) (cell d i))) m = Ok (tt, m')) in E.
  assert (Kr : forall d i m1 m2, live m1 b n -> mfor 0 (out_w g) (cell d i) m1 = Ok (tt, m2) -> live m2 b n).
  { intros d i m1 m2 H1 Q. destruct (mfor_ok_inv 0 (out_w g) (cell d i) (fun m => live m b n) m1 m2) as [P _]; auto. intros; eapply Kc; eauto. }
  assert (Kd : forall d m1 m2, live m1 b n -> mfor 0 (out_h g) (fun i => mfor 0 (out_w g) (cell d i)) m1 = Ok (tt, m2) -> live m2 b n).
  { intros d m1 m2 H1 Q. destruct (mfor_ok_inv 0 (out_h g) (fun i => mfor 0 (out_w g) (cell d i)) (fun m => live m b n) m1 m2) as [P _]; auto. intros; eapply Kr; eauto. }
  assert (exists d i, 0 <= d < g_f g /\ 0 <= i < out_h g /\ d + i = 1) as (d0 & i0 & Hd0 & Hi0 & Hs).
  { destruct Hm; [exists 1, 0|exists 0, 1]; lia. }
  destruct (mfor_ok_inv 0 (g_f g) _ (fun m => live m b n) m m' (fun i m1 m2 _ => Kd i m1 m2) Lv E) as [_ P].
  destruct (P d0 Hd0) as (m1 & m2 & L1 & E1).
  destruct (mfor_ok_inv 0 (out_h g) _ (fun m => live m b n) m1 m2 (fun i m1 m2 _ => Kr d0 i m1 m2) L1 E1) as [_ P1].
  destruct (P1 i0 Hi0) as (m3 & m4 & L3 & E3).
  destruct (mfor_ok_inv 0 (out_w g) _ (fun m => live m b n) m3 m4 (fun j m1 m2 _ => Kc d0 i0 j m1 m2) L3 E3) as [_ P3].
  destruct (P3 0 ltac:(lia)) as (m5 & m6 & (l & El & Ll) & E5). unfold cell, bind, ten_get in E5. rewrite Ed, Sh in E5.
  unfold ten_at in E5. cbn [shape3 s_height s_width load] in E5. rewrite El in E5.
  replace (0 + (u64 ((d0 * 1 + i0) * n) + 0)) with n in E5.
  2: { replace ((d0 * 1 + i0) * n) with n by nia. rewrite u64_small by lia. lia. }
  unfold znth in E5. replace (0 <=? n) with true in E5 by (symmetry; apply Z.leb_le; lia).
  rewrite (proj2 (nth_error_None l (Z.to_nat n))) in E5 by lia. discriminate.
Qed.
(** With one filter and one output row the shapes agree and backward succeeds. *)
Theorem C85_conv_before_dense_partial (L : conv) g m s x xv dt d :
  conv_dims L g -> layer_at m (LConv L) s -> argument3 m (LConv L) x (g_d g) (g_h g) (g_w g) xv ->
  g_f g = 1 -> out_h g = 1 ->
  t_shape dt = shape3 1 1 (g_f g * out_h g * out_w g) -> holds m (t_data dt) (g_f g * out_h g * out_w g) d -> outside (LConv L) (t_data dt) ->
  exists m', conv_backward L x dt m = Ok (tt, m').
Proof.
  intros D H X Ef Eh Sh Hd Ho. pose proof (proj1 D) as G. pose proof (out_w_pos g G) as OW.
  assert (Bn : g_f g * out_h g * out_w g < 2 ^ 64) by (unfold geometry_ok in G; tauto).
  destruct (conv_backward_run L g m s x xv dt d D H X) as (m' & E & _); [|eauto].
  split; [|split; auto]. unfold ten_is, t_size. rewrite Sh, Ef, Eh in *. cbn [shape3 s_depth s_height s_width s_size].
  rewrite u64_small by lia. repeat split; lia.
Qed.
End Dense.

Module Examples.
Local Open Scope R_scope.
(** 1x3x3 input, two 2x2 filters, padding 1, stride 2: outputs 2x2x2 *)
Definition g0 : geometry := mk_geometry 1 3 3 2 2 2 1 2 2.
Definition xs : list R := [1; 2; 3; 4; 5; 6; 7; 8; 9].
Definition ds : list R := [1; 0; 0; 2; 3; 0; 0; 4].
Definition m0 : mem R := [Some (map Some xs); Some (map Some ds)].
Definition tx : tensor := mk_tensor (Ptr 0 0) (shape3 1 3 3).
Definition td : tensor := mk_tensor (Ptr 1 0) (shape3 2 2 2).
Definition xv (i : Z) : R := nth (Z.to_nat i) xs 0.
Definition dv (i : Z) : R := nth (Z.to_nat i) ds 0.
Lemma g0_ok : geometry_ok g0.
Proof. unfold geometry_ok. cbn. repeat split; lia. Qed.
(** the hypotheses of the theorems hold together: a new layer, an input and a delta *)
Lemma situation : exists L m, conv_dims L g0 /\ layer_at m (LConv L) (fun _ _ => 0) /\ off_grid_zero g0 (fun _ _ => 0) /\
  argument3 m (LConv L) tx 1 3 3 xv /\ argument3 m (LConv L) td 2 2 2 dv.
Proof.
  destruct (C55_construction m0 1 3 3 2 2 2 1 2 2 g0_ok) as (L & m & E & Eo & D & A & Z & P & F).
  exists L, m. split; [exact D|]. split; [exact A|]. split; [exact Z|].
  assert (K : forall b n f, (b < 2)%nat -> holds m0 (Ptr b 0) n f -> holds m (Ptr b 0) n f).
  { intros b n f Hb Hh i Hi. eapply keeps_cell; [exact P|intros []|]. exact (Hh i Hi). }
  assert (O : forall b, (b < 2)%nat -> outside (LConv L) (Ptr b 0)).
  { intros b Hb Q. apply F in Q. cbn in Q. lia. }
  split; (split; [split; [reflexivity|]; cbn; repeat split; lia|]); split; try (apply O; lia); apply K; try lia.
  - apply (holds_list m0 0 xs 0). reflexivity.
  - apply (holds_list m0 1 ds 0). reflexivity.
Qed.
Example C57_applies : exists L m' s', layer_at m' (LConv L) s' /\
  partial (fun B => weighted 8 dv (correlate g0 B (fun _ _ => 0) xv)) (fun _ => 0) 1 (s' RGradB 1%Z) /\
  partial (fun Wf => weighted 8 dv (correlate g0 (fun _ => 0) (with_filter (fun _ _ => 0) 1 Wf) xv)) (fun _ => 0) 3 (s' (RGradW 1) 3%Z).
Proof.
  destruct situation as (L & m & D & A & Z & X & Xd).
  destruct (C57_backward_gradient L g0 m _ tx xv td dv D A Z X Xd) as (m' & s' & E & A' & _ & GB & GW & _); auto.
  exists L, m', s'. split; [exact A'|]. split; [apply (GB 1%Z); cbn; lia|apply (GW 1%Z 3%Z); cbn; lia].
Qed.
(** the leftover of the reset is not zero after this sample: 3 + 0 + 0 + 4 on filter 1 *)
Example C58_applies : exists L m m' s', conv_dims L g0 /\ conv_rounds g0 L m [(xv, dv)] m' /\ layer_at m' (LConv L) s' /\ off_grid_zero g0 s' /\ s' RGradB 1%Z <> 0.
Proof.
  destruct situation as (L & m & D & A & Z & X & Xd).
  destruct (conv_backward_run L g0 m _ tx xv td dv D A X Xd) as (m' & E & _).
  assert (R : conv_rounds g0 L m [(xv, dv)] m') by (eapply (crounds_backward g0 L m []); [constructor|exact X|exact Xd|exact E]).
  destruct (conv_rounds_inv g0 L m _ _ _ D A Z R) as (s' & A' & Z' & _ & _ & B & _).
  exists L, m, m', s'. do 4 (split; [assumption|]). rewrite B by (cbn; lia).
  change (0 + (0 + (0 + (0 + 3 + 0) + (0 + 0 + 4))) <> 0). lra.
Qed.
End Examples.

Print Assumptions C55_construction.
Print Assumptions C55_raw_construction.
Print Assumptions C55_memory_safe.
Print Assumptions C55_raw_memory_safe.
Print Assumptions C56_forward_value.
Print Assumptions C56_raw_and_train_agree.
Print Assumptions C56_forward_is_correlation.
Print Assumptions C57_backward_adds_gradient.
Print Assumptions C57_backward_gradient.
Print Assumptions C58_first_batch_partial.
Print Assumptions C58_reset_refuted.
Print Assumptions C58_second_batch_refuted.
Print Assumptions C85_dense_delta_shape.
Print Assumptions C85_conv_before_dense_refuted.
Print Assumptions C85_conv_before_dense_partial.

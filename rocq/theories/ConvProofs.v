(** * Convolutional layer: proofs *)
From Verif Require Import Mem Scalar MemSpec MemLemmas Lique LiqueSpec LiqueProofs LiqueProofs2 Linear LinearProofs FunctionSpec FunctionProofs
  Layer LayerSpec FCProofs Cells ConvSpec.
Open Scope Z_scope.

Lemma u64_mod z : u64 z = z mod 2 ^ 64. Proof. reflexivity. Qed.
(** an unsigned comparison decides membership in [0, n) of the signed value *)
Lemma guard1 n z : 0 <= n -> n - 2 ^ 64 <= z < 2 ^ 64 -> (n <=? u64 z) = negb ((0 <=? z) && (z <? n)).
Proof.
  intros Hn Hz. rewrite u64_mod. destruct (Z.leb_spec 0 z) as [P|P].
  - rewrite Z.mod_small by lia. cbn. rewrite Z.leb_antisym. reflexivity.
  - cbn. apply Z.leb_le. rewrite <- (Z.mod_add z 1) by lia. rewrite Z.mod_small by lia. lia.
Qed.
Lemma guard2 h w a b : 0 <= h -> 0 <= w -> h - 2 ^ 64 <= a < 2 ^ 64 -> w - 2 ^ 64 <= b < 2 ^ 64 ->
  ((h <=? u64 a) || (w <=? u64 b)) = negb (in_box h w a b).
Proof. intros. rewrite !guard1 by auto. unfold in_box. symmetry. apply Bool.negb_andb. Qed.
Lemma in_box_spec h w i j : in_box h w i j = true <-> 0 <= i < h /\ 0 <= j < w.
Proof. unfold in_box. rewrite !Bool.andb_true_iff, !Z.leb_le, !Z.ltb_lt. tauto. Qed.

Section Geometry.
Context (g : geometry) (G : geometry_ok g).
Lemma out_h_pos : 1 <= out_h g.
Proof. destruct G as (?&?&?&?&?&?&?&?&?&?&?&_). unfold out_h. pose proof (Z.div_pos (g_h g - g_fh g + 2 * g_p g) (g_vs g)). lia. Qed.
Lemma out_w_pos : 1 <= out_w g.
Proof. destruct G as (?&?&?&?&?&?&?&?&?&?&?&_). unfold out_w. pose proof (Z.div_pos (g_w g - g_fw g + 2 * g_p g) (g_hs g)). lia. Qed.
Lemma spread_h_pos : 1 <= spread_h g.
Proof. pose proof out_h_pos. destruct G as (?&?&?&?&?&?&?&?&?&?&?&_). unfold spread_h. nia. Qed.
Lemma spread_w_pos : 1 <= spread_w g.
Proof. pose proof out_w_pos. destruct G as (?&?&?&?&?&?&?&?&?&?&?&_). unfold spread_w. nia. Qed.
Lemma spread_h_le : spread_h g <= g_h g - g_fh g + 2 * g_p g + 1.
Proof. destruct G as (?&?&?&?&?&?&?&?&?&?&?&_). unfold spread_h, out_h. pose proof (Z.mul_div_le (g_h g - g_fh g + 2 * g_p g) (g_vs g)). lia. Qed.
Lemma spread_w_le : spread_w g <= g_w g - g_fw g + 2 * g_p g + 1.
Proof. destruct G as (?&?&?&?&?&?&?&?&?&?&?&_). unfold spread_w, out_w. pose proof (Z.mul_div_le (g_w g - g_fw g + 2 * g_p g) (g_hs g)). lia. Qed.
Lemma row_lt y : 0 <= y < out_h g -> 0 <= g_vs g * y < spread_h g.
Proof. intros. destruct G as (?&?&?&?&?&?&?&?&?&?&?&_). unfold spread_h. nia. Qed.
Lemma col_lt y : 0 <= y < out_w g -> 0 <= g_hs g * y < spread_w g.
Proof. intros. destruct G as (?&?&?&?&?&?&?&?&?&?&?&_). unfold spread_w. nia. Qed.
Lemma row_div r : 0 <= r < spread_h g -> 0 <= r / g_vs g < out_h g.
Proof.
  intros Hr. destruct G as (?&?&?&?&?&?&?&?&?&?&?&_). split; [apply Z.div_pos; lia|]. apply Z.div_lt_upper_bound; auto. unfold spread_h in Hr. nia.
Qed.
Lemma col_div r : 0 <= r < spread_w g -> 0 <= r / g_hs g < out_w g.
Proof.
  intros Hr. destruct G as (?&?&?&?&?&?&?&?&?&?&?&_). split; [apply Z.div_pos; lia|]. apply Z.div_lt_upper_bound; auto. unfold spread_w in Hr. nia.
Qed.
End Geometry.

Section Conv.
Context {T : Type} `{NT : Num T}.
Implicit Types (m : mem T) (s : contents T).

(** a triple loop of single stores: one store per cell *)
Lemma zfold3_store (r : role) (h w : Z) (val : Z -> Z -> Z -> T) D H W v c i j :
  0 <= c < D -> 0 <= i < H -> 0 <= j < W -> H <= h -> W <= w ->
  zfold D (fun c' => zfold H (fun i' => zfold W (fun j' old => if is_cell r (at3 h w c' i' j') r (at3 h w c i j) then val c' i' j' else old))) v = val c i j.
Proof.
  intros Hc Hi Hj LH LW.
  rewrite (zfold_hit D c); [|auto|]. 2:{ intros c' v' Hc' Ne. apply zfold_miss. intros i' v2 Hi'. apply zfold_miss. intros j' v3 Hj'.
    unfold at3. rewrite is_cell_off3; auto; try lia. congruence. }
  rewrite (zfold_hit H i); [|auto|]. 2:{ intros i' v' Hi' Ne. apply zfold_miss. intros j' v3 Hj'.
    unfold at3. rewrite is_cell_off3; auto; try lia. congruence. }
  rewrite (zfold_hit W j); [|auto|]. 2:{ intros j' v' Hj' Ne. unfold at3. rewrite is_cell_off3; auto; try lia. congruence. }
  now rewrite is_cell_true.
Qed.
Lemma zfold3_other (r r' : role) o (pos : Z -> Z -> Z -> Z) (val : Z -> Z -> Z -> T) D H W v : r' <> r ->
  zfold D (fun c' => zfold H (fun i' => zfold W (fun j' old => if is_cell r (pos c' i' j') r' o then val c' i' j' else old))) v = v.
Proof.
  intros Hr. apply zfold_miss. intros c' v' _. apply zfold_miss. intros i' v2 _. apply zfold_miss. intros j' v3 _. now rewrite is_cell_role.
Qed.

Lemma znth_in A (l : list A) i x : znth l i = Some x -> In x l.
Proof. unfold znth. destruct (0 <=? i); [|discriminate]. apply nth_error_In. Qed.
Lemma nth_of_ok A (l : list A) i x m : znth l i = Some x -> nth_of (T := T) l i m = Ok (x, m).
Proof. unfold nth_of. now intros ->. Qed.

(** ** Forward *)
Section Forward.
Context (L : layer) (g : geometry) (G : geometry_ok g) (B value : tensor) (Ws : list tensor)
  (PB : part L RB = Some B) (PW : forall f, part L (RW f) = znth Ws f) (PV : part L RValue = Some value)
  (SB : t_size B = g_f g) (LW : Z.of_nat (length Ws) = g_f g) (SW : forall t, In t Ws -> ten_is t (g_d g) (g_fh g) (g_fw g))
  (SV : ten_is value (g_f g) (out_h g) (out_w g)).
Definition conv_flat (B : Z -> T) (W : Z -> Z -> T) (x : Z -> T) (o : Z) : T :=
  conv_val g B W x (o / out_w g / out_h g) ((o / out_w g) mod out_h g) (o mod out_w g).
Lemma conv_flat_at Bv W x f y z : 0 <= y < out_h g -> 0 <= z < out_w g ->
  conv_flat Bv W x (at3 (out_h g) (out_w g) f y z) = conv_val g Bv W x f y z.
Proof using.
  clear Ws PW LW SW.
  intros Hy Hz. unfold conv_flat, at3. rewrite Z.div_add_l, (Z.div_small z), Z.add_0_r by lia.
  rewrite Z.div_add_l, (Z.div_small y), Z.add_0_r by lia.
  replace ((f * out_h g + y) mod out_h g) with y by (rewrite Z.add_comm, Z.mod_add, Z.mod_small; lia).
  replace (((f * out_h g + y) * out_w g + z) mod out_w g) with z by (rewrite Z.add_comm, Z.mod_add, Z.mod_small; lia). reflexivity.
Qed.
Lemma wp_conv_forward m s x xv :
  layer_at m L s -> ten_is x (g_d g) (g_h g) (g_w g) -> holds m (t_data x) (g_d g * g_h g * g_w g) xv -> outside L (t_data x) ->
  wp (conv_forward_loop (shape3 (g_d g) (g_h g) (g_w g)) (shape3 (g_f g) (out_h g) (out_w g)) (g_p g) (g_vs g) (g_hs g) B Ws (g_f g)
       (shape3 (g_d g) (g_fh g) (g_fw g)) value x) m
    (fun _ m' => layer_at m' L (set_role s RValue (conv_flat (s RB) (fun f => s (RW f)) xv)) /\ only (fun b _ => block_in L b) m m').
Proof.
  intros H Sx Hx Ho.
  pose proof (out_h_pos g G) as OH. pose proof (out_w_pos g G) as OW. pose proof (proj1 G) as GF.
  set (I := fun m' : mem T => holds m' (t_data x) (g_d g * g_h g * g_w g) xv).
  assert (St : forall m m', only (mine L) m m' -> I m -> I m').
  { intros m1 m2 O. unfold I. intros Q. exact (outside_holds _ _ L _ _ _ _ O (fun b i h => h) Ho Q). }
  set (fixed := fun r => r <> RValue).
  assert (C : cw L fixed s I (conv_forward_loop (shape3 (g_d g) (g_h g) (g_w g)) (shape3 (g_f g) (out_h g) (out_w g)) (g_p g) (g_vs g) (g_hs g) B Ws (g_f g)
       (shape3 (g_d g) (g_fh g) (g_fw g)) value x)
     (fun r o v => zfold (g_f g) (fun f => zfold (out_h g) (fun y => zfold (out_w g) (fun z old =>
        if is_cell RValue (at3 (out_h g) (out_w g) f y z) r o then conv_val g (s RB) (fun f => s (RW f)) xv f y z else old))) v)).
  { unfold conv_forward_loop. cbn [shape3 s_height s_width s_depth].
    apply (cw_for L fixed s I St (g_f g) _ (fun f r o v => zfold (out_h g) (fun y => zfold (out_w g) (fun z old =>
        if is_cell RValue (at3 (out_h g) (out_w g) f y z) r o then conv_val g (s RB) (fun f => s (RW f)) xv f y z else old)) v)).
    intros f Hf.
    apply (cw_for L fixed s I St (out_h g) _ (fun y r o v => zfold (out_w g) (fun z old =>
        if is_cell RValue (at3 (out_h g) (out_w g) f y z) r o then conv_val g (s RB) (fun f => s (RW f)) xv f y z else old) v)).
    intros y Hy.
    apply (cw_for L fixed s I St (out_w g) _ (fun z r o old => 
        if is_cell RValue (at3 (out_h g) (out_w g) f y z) r o then conv_val g (s RB) (fun f => s (RW f)) xv f y z else old)).
    intros z Hz.
    eapply cw_read. { intros m1 s1 J. unfold tb_get. eapply inv_load; [exact J| |exact PB|lia]. unfold fixed. discriminate. }
    eapply (cw_read _ _ _ _ _ _ (conv_val g (s RB) (fun f => s (RW f)) xv f y z)).
    { intros m1 s1 J. unfold conv_val. apply mfold_pure. intros i a Hi. apply mfold_pure. intros j b Hj. cbv zeta.
      destruct G as (?&?&?&?&?&?&?&?&?&?&?&?&?&_). pose proof (row_lt g G y Hy). pose proof (spread_h_le g G). pose proof (col_lt g G z Hz). pose proof (spread_w_le g G).
      rewrite guard2 by lia.
      destruct (in_box (g_h g) (g_w g) (g_vs g * y + i - g_p g) (g_hs g * z + j - g_p g)) eqn:Eb; cbn [negb]; [|reflexivity].
      apply in_box_spec in Eb as [Br Bc].
      apply mfold_pure. intros c acc Hc. rewrite !u64_small by lia.
      assert (exists W, znth Ws f = Some W) as [W EW] by (apply znth_some; lia).
      erewrite bind_eq by (eapply ten_get_ok; [exact Sx|apply J|lia..]).
      erewrite bind_eq by (eapply nth_of_ok; exact EW).
      erewrite bind_eq. 2:{ eapply (inv_get L fixed s I (RW f) W (g_d g) (g_fh g) (g_fw g)); [exact J|unfold fixed; discriminate|rewrite PW; exact EW| |lia..]. apply SW. eapply znth_in; exact EW. }
      reflexivity. }
    apply cw_ten_set with (d := g_f g); auto. }
  destruct C as [_ C]. eapply wp_conseq; [apply (C m s)|].
  { split; [exact H|]. split; [exact Hx|reflexivity]. }
  intros [] m' [A O]. split; [|exact O].
  eapply layer_at_ext; [exact A|]. intros r t o Pr Hr. cbv beta. unfold set_role. destruct (role_eq_dec r RValue) as [->|Ne].
  - rewrite PV in Pr. injection Pr as <-. pose proof SV as (_ & _ & _ & Es & _). rewrite Es in Hr.
    destruct (off3_split (g_f g) (out_h g) (out_w g) o ltac:(lia) ltac:(lia) ltac:(lia) Hr) as (f & y & z & Hf & Hy & Hz & ->).
    change ((f * out_h g + y) * out_w g + z) with (at3 (out_h g) (out_w g) f y z). rewrite conv_flat_at by auto.
    apply (zfold3_store RValue (out_h g) (out_w g) (fun f y z => conv_val g (s RB) (fun f => s (RW f)) xv f y z)); auto; try lia.
  - apply (zfold3_other RValue r o (fun f y z => at3 (out_h g) (out_w g) f y z) (fun f y z => conv_val g (s RB) (fun f => s (RW f)) xv f y z)); auto.
Qed.
End Forward.

(** ** Backward *)
Section Backward.
Context (L : conv) (g : geometry) (CD : conv_dims L g).
Notation LL := (LConv L).
Lemma cdim : geometry_ok g. Proof. apply CD. Qed.
Lemma c_parts f : 0 <= f < g_f g -> exists W GW, znth (c_Ws L) f = Some W /\ znth (c_gradWs L) f = Some GW /\
  ten_is W (g_d g) (g_fh g) (g_fw g) /\ ten_is GW (g_d g) (g_fh g) (g_fw g).
Proof.
  intros Hf. destruct CD as (_ & _ & _ & _ & _ & _ & _ & _ & L1 & L2 & Sw & _).
  destruct (znth_some _ (c_Ws L) f ltac:(lia)) as [W EW]. destruct (znth_some _ (c_gradWs L) f ltac:(lia)) as [GW EG].
  exists W, GW. split; auto. split; auto. split; apply Sw, in_or_app; [left|right]; eapply znth_in; eauto.
Qed.

Lemma at3_flat h w c i j : 0 <= i < h -> 0 <= j < w ->
  at3 h w c i j / w / h = c /\ (at3 h w c i j / w) mod h = i /\ at3 h w c i j mod w = j.
Proof.
  intros Hi Hj. unfold at3. rewrite Z.div_add_l, (Z.div_small j), Z.add_0_r by lia.
  rewrite Z.div_add_l, (Z.div_small i), Z.add_0_r by lia.
  split; [reflexivity|]. split; rewrite Z.add_comm, Z.mod_add, Z.mod_small; lia.
Qed.
(** a function of three indices, read flat *)
Definition flat3 (h w : Z) (v : Z -> Z -> Z -> T) (o : Z) : T := v (o / w / h) ((o / w) mod h) (o mod w).
Lemma flat3_at h w v c i j : 0 <= i < h -> 0 <= j < w -> flat3 h w v (at3 h w c i j) = v c i j.
Proof. intros Hi Hj. unfold flat3. destruct (at3_flat h w c i j Hi Hj) as (-> & -> & ->). reflexivity. Qed.

Lemma conv_reads m m' x n (xv : Z -> T) : outside LL (t_data x) -> only (mine LL) m m' -> holds m (t_data x) n xv -> holds m' (t_data x) n xv.
Proof. intros Ho O Q. exact (outside_holds _ _ LL _ _ _ _ O (fun b i h => h) Ho Q). Qed.

Definition spread_flat (d : Z -> T) s : Z -> T := flat3 (spread_h g) (spread_w g) (spread_val g d (s RBuff)).
Lemma wp_conv_spread m s dt d :
  layer_at m LL s -> ten_is dt (g_f g) (out_h g) (out_w g) -> holds m (t_data dt) (g_f g * out_h g * out_w g) d -> outside LL (t_data dt) ->
  wp (conv_spread L dt) m (fun _ m' => layer_at m' LL (set_role s RBuff (spread_flat d s)) /\ only (fun b _ => block_in LL b) m m').
Proof.
  intros H Sx Hx Ho. pose proof cdim as G.
  pose proof (out_h_pos g G) as OH. pose proof (out_w_pos g G) as OW. pose proof (proj1 G) as GF.
  pose proof (spread_h_pos g G) as SH. pose proof (spread_w_pos g G) as SW.
  set (I := fun m' : mem T => holds m' (t_data dt) (g_f g * out_h g * out_w g) d).
  assert (St : forall m m', only (mine LL) m m' -> I m -> I m') by (intros m1 m2 O; apply conv_reads; auto).
  set (fixed := fun r => r <> RBuff).
  pose proof CD as (_ & _ & Eo & _ & Ev & Eh & _ & _ & _ & _ & _ & _ & _ & _ & _ & Sb).
  assert (C : cw LL fixed s I (conv_spread L dt)
     (fun r o v => zfold (g_f g) (fun f => zfold (out_h g) (fun y => zfold (out_w g) (fun z old =>
        if is_cell RBuff (at3 (spread_h g) (spread_w g) f (y * g_vs g) (z * g_hs g)) r o then d (at3 (out_h g) (out_w g) f y z) else old))) v)).
  { unfold conv_spread. rewrite Eo. cbn [shape3 s_height s_width s_depth]. pose proof Sb as (Ed & _). rewrite Ed.
    apply (cw_for LL fixed s I St (g_f g) _ (fun f r o v => zfold (out_h g) (fun y => zfold (out_w g) (fun z old =>
        if is_cell RBuff (at3 (spread_h g) (spread_w g) f (y * g_vs g) (z * g_hs g)) r o then d (at3 (out_h g) (out_w g) f y z) else old)) v)).
    intros f Hf.
    apply (cw_for LL fixed s I St (out_h g) _ (fun y r o v => zfold (out_w g) (fun z old =>
        if is_cell RBuff (at3 (spread_h g) (spread_w g) f (y * g_vs g) (z * g_hs g)) r o then d (at3 (out_h g) (out_w g) f y z) else old) v)).
    intros y Hy.
    apply (cw_for LL fixed s I St (out_w g) _ (fun z r o old =>
        if is_cell RBuff (at3 (spread_h g) (spread_w g) f (y * g_vs g) (z * g_hs g)) r o then d (at3 (out_h g) (out_w g) f y z) else old)).
    intros z Hz.
    eapply cw_read. { intros m1 s1 J. eapply ten_get_ok; [exact Sx|apply J|lia..]. }
    rewrite Ev, Eh. pose proof (row_lt g G y Hy). pose proof (col_lt g G z Hz). pose proof (spread_h_le g G). pose proof (spread_w_le g G).
    destruct G as (?&?&?&?&?&?&?&?&?&?&?&?&?&_). rewrite !u64_small by lia.
    apply cw_ten_set with (d := g_f g); auto; try lia. }
  destruct C as [_ C]. eapply wp_conseq; [apply (C m s)|].
  { split; [exact H|]. split; [exact Hx|reflexivity]. }
  intros [] m' [A O]. split; [|exact O].
  eapply layer_at_ext; [exact A|]. intros r t o Pr Hr. cbv beta. unfold set_role. destruct (role_eq_dec r RBuff) as [->|Ne].
  2:{ apply (zfold3_other RBuff r o (fun f y z => at3 (spread_h g) (spread_w g) f (y * g_vs g) (z * g_hs g)) (fun f y z => d (at3 (out_h g) (out_w g) f y z))); auto. }
  injection Pr as <-. pose proof Sb as (_ & _ & _ & Es & _). rewrite Es in Hr.
  destruct (off3_split (g_f g) (spread_h g) (spread_w g) o ltac:(lia) ltac:(lia) ltac:(lia) Hr) as (f & y & z & Hf & Hy & Hz & ->).
  change ((f * spread_h g + y) * spread_w g + z) with (at3 (spread_h g) (spread_w g) f y z). unfold spread_flat. rewrite flat3_at by auto.
  unfold spread_val. pose proof (row_div g G y Hy) as Ry. pose proof (col_div g G z Hz) as Rz.
  destruct G as (?&?&?&?&?&?&?&Hvs&Hhs&_).
  assert (Miss : forall f' y' z' v, 0 <= f' < g_f g -> 0 <= y' < out_h g -> 0 <= z' < out_w g -> (f', y' * g_vs g, z' * g_hs g) <> (f, y, z) ->
     (if is_cell RBuff (at3 (spread_h g) (spread_w g) f' (y' * g_vs g) (z' * g_hs g)) RBuff (at3 (spread_h g) (spread_w g) f y z) then d (at3 (out_h g) (out_w g) f' y' z') else v) = v).
  { intros f' y' z' v Hf' Hy' Hz' Ne. pose proof (row_lt g cdim y' Hy'). pose proof (col_lt g cdim z' Hz').
    unfold at3 at 1 2. rewrite is_cell_off3; auto; try lia. }
  destruct ((y mod g_vs g =? 0) && (z mod g_hs g =? 0)) eqn:Ez.
  - apply andb_prop in Ez as [E1 E2]. apply Z.eqb_eq in E1, E2.
    pose proof (Z.div_mod y (g_vs g) ltac:(lia)) as Dy. pose proof (Z.div_mod z (g_hs g) ltac:(lia)) as Dz.
    rewrite (zfold_hit _ f); [|auto|]. 2:{ intros f' v Hf' Nf. apply zfold_miss. intros y' v2 Hy'. apply zfold_miss. intros z' v3 Hz'. apply Miss; auto. congruence. }
    rewrite (zfold_hit _ (y / g_vs g)); [|auto|]. 2:{ intros y' v Hy' Nf. apply zfold_miss. intros z' v3 Hz'. apply Miss; auto. intros [= Q _]. apply Nf. rewrite <- Q. now rewrite Z.div_mul by lia. }
    rewrite (zfold_hit _ (z / g_hs g)); [|auto|]. 2:{ intros z' v Hz' Nf. apply Miss; auto. intros [= _ Q]. apply Nf. rewrite <- Q. now rewrite Z.div_mul by lia. }
    replace (y / g_vs g * g_vs g) with y by lia. replace (z / g_hs g * g_hs g) with z by lia. now rewrite is_cell_true.
  - apply zfold_miss. intros f' v Hf'. apply zfold_miss. intros y' v2 Hy'. apply zfold_miss. intros z' v3 Hz'. apply Miss; auto.
    intros [= _ Qy Qz]. rewrite <- Qy, <- Qz, !Z.mod_mul in Ez by lia. discriminate.
Qed.

Definition buff3 s (f r q : Z) : T := s RBuff (at3 (spread_h g) (spread_w g) f r q).
Definition conv_after_grads (x : Z -> T) s : contents T := fun r o =>
  match r with
  | RGradW f => gradw_val g (buff3 s) x f (o / g_fw g / g_fh g) ((o / g_fw g) mod g_fh g) (o mod g_fw g) (s (RGradW f) o)
  | RGradB => gradb_val g (buff3 s) o (s RGradB o)
  | _ => s r o
  end.
Lemma wp_conv_grads m s x xv :
  layer_at m LL s -> ten_is x (g_d g) (g_h g) (g_w g) -> holds m (t_data x) (g_d g * g_h g * g_w g) xv -> outside LL (t_data x) ->
  wp (conv_grads L x) m (fun _ m' => layer_at m' LL (conv_after_grads xv s) /\ only (fun b _ => block_in LL b) m m').
Proof.
  intros H Sx Hx Ho. pose proof cdim as G.
  pose proof (out_h_pos g G) as OH. pose proof (out_w_pos g G) as OW. pose proof (proj1 G) as GF.
  pose proof (spread_h_pos g G) as SH. pose proof (spread_w_pos g G) as SW.
  set (I := fun m' : mem T => holds m' (t_data x) (g_d g * g_h g * g_w g) xv).
  assert (St : forall m m', only (mine LL) m m' -> I m -> I m') by (intros m1 m2 O; apply conv_reads; auto).
  set (fixed := fun r => match r with RGradW _ | RGradB => False | _ => True end).
  pose proof CD as (_ & Ei & Eo & Ep & Ev & Eh & Ec & Ef & _ & _ & _ & _ & Sgb & _ & _ & Sb).
  set (Hw := fun f r q (ro : role) o v => zfold (g_fh g) (fun i => zfold (g_fw g) (fun j old =>
     if in_box (g_h g) (g_w g) (i + r - g_p g) (j + q - g_p g) then
       zfold (g_d g) (fun c old => if is_cell (RGradW f) (at3 (g_fh g) (g_fw g) c i j) ro o
          then add old (mul (buff3 s f r q) (xv (at3 (g_h g) (g_w g) c (i + r - g_p g) (j + q - g_p g)))) else old) old
     else old)) v).
  set (Hb := fun f r q (ro : role) o (v : T) => if is_cell RGradB f ro o then add v (buff3 s f r q) else v).
  assert (C : cw LL fixed s I (conv_grads L x)
     (fun ro o v => zfold (g_f g) (fun f => zfold (spread_h g) (fun r => zfold (spread_w g) (fun q v => Hb f r q ro o (Hw f r q ro o v)))) v)).
  { unfold conv_grads. cbv zeta. rewrite Ec, Ef, Ei, Ep. pose proof Sb as (_ & -> & -> & _). cbn [shape3 s_height s_width s_depth].
    apply (cw_for LL fixed s I St (g_f g) _ (fun f ro o v => zfold (spread_h g) (fun r => zfold (spread_w g) (fun q v => Hb f r q ro o (Hw f r q ro o v))) v)).
    intros f Hf.
    apply (cw_for LL fixed s I St (spread_h g) _ (fun r ro o v => zfold (spread_w g) (fun q v => Hb f r q ro o (Hw f r q ro o v)) v)).
    intros r Hr.
    apply (cw_for LL fixed s I St (spread_w g) _ (fun q ro o v => Hb f r q ro o (Hw f r q ro o v))).
    intros q Hq.
    eapply cw_read. { intros m1 s1 J. eapply (inv_get LL fixed s I RBuff (c_buff L) (g_f g) (spread_h g) (spread_w g)); [exact J|exact Logic.I|reflexivity|exact Sb|lia..]. }
    apply (cw_seq LL fixed s I St _ _ (Hw f r q) (Hb f r q)).
    - unfold Hw.
      apply (cw_for LL fixed s I St (g_fh g) _ (fun i ro o v => zfold (g_fw g) (fun j old =>
        if in_box (g_h g) (g_w g) (i + r - g_p g) (j + q - g_p g) then
         zfold (g_d g) (fun c old => if is_cell (RGradW f) (at3 (g_fh g) (g_fw g) c i j) ro o
          then add old (mul (buff3 s f r q) (xv (at3 (g_h g) (g_w g) c (i + r - g_p g) (j + q - g_p g)))) else old) old
        else old) v)).
      intros i Hi.
      apply (cw_for LL fixed s I St (g_fw g) _ (fun j ro o old =>
        if in_box (g_h g) (g_w g) (i + r - g_p g) (j + q - g_p g) then
         zfold (g_d g) (fun c old => if is_cell (RGradW f) (at3 (g_fh g) (g_fw g) c i j) ro o
          then add old (mul (buff3 s f r q) (xv (at3 (g_h g) (g_w g) c (i + r - g_p g) (j + q - g_p g)))) else old) old
        else old)).
      intros j Hj. cbv zeta.
      pose proof (spread_h_le g G) as LH. pose proof (spread_w_le g G) as LW.
      destruct G as (?&?&?&?&?&?&?&?&?&?&?&?&?&_). rewrite guard2 by lia.
      destruct (in_box (g_h g) (g_w g) (i + r - g_p g) (j + q - g_p g)) eqn:Eb; cbn [negb]; [|apply cw_ret].
      apply in_box_spec in Eb as [Br Bc].
      apply (cw_for LL fixed s I St (g_d g) _ (fun c ro o old => if is_cell (RGradW f) (at3 (g_fh g) (g_fw g) c i j) ro o
          then add old (mul (buff3 s f r q) (xv (at3 (g_h g) (g_w g) c (i + r - g_p g) (j + q - g_p g)))) else old)).
      intros c Hc. destruct (c_parts f Hf) as (W & GW & EW & EG & TW & TG).
      eapply cw_read. { intros m1 s1 J. eapply nth_of_ok. exact EG. }
      eapply cw_read. { intros m1 s1 J. rewrite !u64_small by lia. eapply ten_get_ok; [exact Sx|apply J|lia..]. }
      apply cw_ten_inc with (d := g_d g); auto.
    - unfold vec_inc, Hb, tb_get, tb_set. apply cw_inc; [reflexivity|auto|lia]. }
  destruct C as [_ C]. eapply wp_conseq; [apply (C m s)|].
  { split; [exact H|]. split; [exact Hx|reflexivity]. }
  intros [] m' [A O]. split; [|exact O].
  eapply layer_at_ext; [exact A|]. intros r t o Pr Hr. cbv beta.
  assert (Hw_other : forall f y z v, (forall f', r <> RGradW f') -> Hw f y z r o v = v).
  { intros f y z v Nr. unfold Hw. apply zfold_miss. intros i v1 _. apply zfold_miss. intros j v2 _. destruct in_box; auto.
    apply zfold_miss. intros c v3 _. rewrite is_cell_role; auto. }
  assert (Hb_other : forall f y z v, r <> RGradB -> Hb f y z r o v = v).
  { intros f y z v Nr. unfold Hb. rewrite is_cell_role; auto. }
  assert (Other : r <> RGradB -> (forall f', r <> RGradW f') ->
     zfold (g_f g) (fun f => zfold (spread_h g) (fun y => zfold (spread_w g) (fun z v => Hb f y z r o (Hw f y z r o v)))) (s r o) = s r o).
  { intros N1 N2. apply zfold_miss. intros f v _. apply zfold_miss. intros y v1 _. apply zfold_miss. intros z v2 _. rewrite Hw_other, Hb_other; auto. }
  destruct r as [| | | | |f| | | |]; try (apply Other; discriminate).
  - (* bias *)
    cbn [conv_after_grads]. injection Pr as <-. rewrite Sgb in Hr.
    rewrite (zfold_hit _ o); [|auto|].
    2:{ intros f v Hf Nf. apply zfold_miss. intros y v1 _. apply zfold_miss. intros z v2 _. rewrite Hw_other by discriminate. unfold Hb. rewrite is_cell_off; auto. }
    unfold gradb_val. apply zfold_ext. intros y v1 _. apply zfold_ext. intros z v2 _. rewrite Hw_other by discriminate. unfold Hb. now rewrite is_cell_true.
  - (* weights *)
    cbn [conv_after_grads]. cbn [part] in Pr. assert (Hf : 0 <= f < g_f g).
    { apply znth_bound in Pr. destruct CD as (_ & _ & _ & _ & _ & _ & _ & _ & _ & L2 & _). lia. }
    destruct (c_parts f Hf) as (W & GW & EW & EG & TW & TG). rewrite Pr in EG. injection EG as <-.
    pose proof TG as (_ & _ & _ & Es & Dd & Dh & Dw & _). rewrite Es in Hr.
    destruct (off3_split (g_d g) (g_fh g) (g_fw g) o ltac:(lia) ltac:(lia) ltac:(lia) Hr) as (c & i & j & Hc & Hi & Hj & Eo3).
    change ((c * g_fh g + i) * g_fw g + j) with (at3 (g_fh g) (g_fw g) c i j) in Eo3. subst o.
    destruct (at3_flat (g_fh g) (g_fw g) c i j Hi Hj) as (-> & -> & ->).
    rewrite (zfold_hit _ f); [|auto|].
    2:{ intros f' v Hf' Nf. apply zfold_miss. intros y v1 _. apply zfold_miss. intros z v2 _. rewrite Hb_other by discriminate.
        unfold Hw. apply zfold_miss. intros i' v3 _. apply zfold_miss. intros j' v4 _. destruct in_box; auto.
        apply zfold_miss. intros c' v5 _. rewrite is_cell_role; auto. congruence. }
    unfold gradw_val. apply zfold_ext. intros y v1 Hy. apply zfold_ext. intros z v2 Hz. rewrite Hb_other by discriminate.
    assert (Miss : forall c' i' j' (v w : T), 0 <= i' < g_fh g -> 0 <= j' < g_fw g -> (c', i', j') <> (c, i, j) ->
       (if is_cell (RGradW f) (at3 (g_fh g) (g_fw g) c' i' j') (RGradW f) (at3 (g_fh g) (g_fw g) c i j) then w else v) = v).
    { intros. unfold at3. rewrite is_cell_off3; auto. }
    unfold Hw. rewrite (zfold_hit _ i); [|auto|].
    2:{ intros i' v Hi' Ni. apply zfold_miss. intros j' v4 Hj'. destruct in_box; auto. apply zfold_miss. intros c' v5 _. apply Miss; auto. congruence. }
    rewrite (zfold_hit _ j); [|auto|].
    2:{ intros j' v Hj' Nj. destruct in_box; auto. apply zfold_miss. intros c' v5 _. apply Miss; auto. congruence. }
    destruct in_box; auto. rewrite (zfold_hit _ c); [|auto|].
    2:{ intros c' v Hc' Nc. apply Miss; auto. congruence. }
    now rewrite is_cell_true.
Qed.

Definition cdelta_flat s : Z -> T := flat3 (g_h g) (g_w g) (cdelta_val g (fun f => s (RW f)) (buff3 s)).
Lemma wp_conv_delta m s : layer_at m LL s ->
  wp (conv_delta L) m (fun _ m' => layer_at m' LL (set_role s RDelta (cdelta_flat s)) /\ only (fun b _ => block_in LL b) m m').
Proof.
  intros H. pose proof cdim as G.
  pose proof (out_h_pos g G) as OH. pose proof (out_w_pos g G) as OW. pose proof (proj1 G) as GF.
  pose proof (spread_h_pos g G) as SH. pose proof (spread_w_pos g G) as SW.
  set (I := fun m' : mem T => True).
  assert (St : forall m m', only (mine LL) m m' -> I m -> I m') by (intros; exact Logic.I).
  set (fixed := fun r => r <> RDelta).
  pose proof CD as (_ & Ei & Eo & Ep & Ev & Eh & Ec & Ef & _ & _ & _ & _ & _ & _ & Sd & Sb).
  assert (C : cw LL fixed s I (conv_delta L)
     (fun ro o v => zfold (g_h g) (fun y => zfold (g_w g) (fun z => zfold (g_d g) (fun c old =>
        if is_cell RDelta (at3 (g_h g) (g_w g) c y z) ro o then cdelta_val g (fun f => s (RW f)) (buff3 s) c y z else old))) v)).
  { unfold conv_delta. cbv zeta. rewrite Ec, Ef, Ei, Ep. pose proof Sb as (_ & -> & -> & _). cbn [shape3 s_height s_width s_depth].
    apply (cw_for LL fixed s I St (g_h g) _ (fun y ro o v => zfold (g_w g) (fun z => zfold (g_d g) (fun c old =>
        if is_cell RDelta (at3 (g_h g) (g_w g) c y z) ro o then cdelta_val g (fun f => s (RW f)) (buff3 s) c y z else old)) v)).
    intros y Hy.
    apply (cw_for LL fixed s I St (g_w g) _ (fun z ro o v => zfold (g_d g) (fun c old =>
        if is_cell RDelta (at3 (g_h g) (g_w g) c y z) ro o then cdelta_val g (fun f => s (RW f)) (buff3 s) c y z else old) v)).
    intros z Hz.
    apply (cw_for LL fixed s I St (g_d g) _ (fun c ro o old =>
        if is_cell RDelta (at3 (g_h g) (g_w g) c y z) ro o then cdelta_val g (fun f => s (RW f)) (buff3 s) c y z else old)).
    intros c Hc.
    eapply (cw_read _ _ _ _ _ _ (cdelta_val g (fun f => s (RW f)) (buff3 s) c y z)).
    { intros m1 s1 J. unfold cdelta_val. apply mfold_pure. intros i a Hi. apply mfold_pure. intros j b Hj. cbv zeta.
      pose proof (spread_h_le g G). pose proof (spread_w_le g G).
      destruct G as (?&?&?&?&?&?&?&?&?&?&?&?&?&_).
      assert (E1 : u64 (y + i - u64 (g_fh g - 1 - g_p g)) = u64 (y + i - (g_fh g - 1) + g_p g)).
      { rewrite !u64_mod. rewrite Zminus_mod_idemp_r. f_equal. lia. }
      assert (E2 : u64 (z + j - u64 (g_fw g - 1 - g_p g)) = u64 (z + j - (g_fw g - 1) + g_p g)).
      { rewrite !u64_mod. rewrite Zminus_mod_idemp_r. f_equal. lia. }
      rewrite E1, E2. rewrite guard2 by lia.
      destruct (in_box (spread_h g) (spread_w g) (y + i - (g_fh g - 1) + g_p g) (z + j - (g_fw g - 1) + g_p g)) eqn:Eb; cbn [negb]; [|reflexivity].
      apply in_box_spec in Eb as [Br Bc].
      apply mfold_pure. intros f acc Hf. rewrite !u64_small by lia. destruct (c_parts f Hf) as (W & GW & EW & EG & TW & TG).
      erewrite bind_eq by (eapply nth_of_ok; exact EW).
      erewrite bind_eq. 2:{ eapply (inv_get LL fixed s I (RW f) W (g_d g) (g_fh g) (g_fw g)); [exact J|unfold fixed; discriminate|exact EW|exact TW|lia..]. }
      erewrite bind_eq. 2:{ eapply (inv_get LL fixed s I RBuff (c_buff L) (g_f g) (spread_h g) (spread_w g)); [exact J|unfold fixed; discriminate|reflexivity|exact Sb|lia..]. }
      reflexivity. }
    apply cw_ten_set with (d := g_d g); auto. }
  destruct C as [_ C]. eapply wp_conseq; [apply (C m s)|].
  { split; [exact H|]. split; [exact Logic.I|reflexivity]. }
  intros [] m' [A O]. split; [|exact O].
  eapply layer_at_ext; [exact A|]. intros r t o Pr Hr. cbv beta. unfold set_role. destruct (role_eq_dec r RDelta) as [->|Ne].
  2:{ apply zfold_miss. intros y v _. apply zfold_miss. intros z v1 _. apply zfold_miss. intros c v2 _. now rewrite is_cell_role. }
  injection Pr as <-. pose proof Sd as (_ & _ & _ & Es & Dd & Dh & Dw & _). rewrite Es in Hr.
  destruct (off3_split (g_d g) (g_h g) (g_w g) o ltac:(lia) ltac:(lia) ltac:(lia) Hr) as (c & y & z & Hc & Hy & Hz & ->).
  change ((c * g_h g + y) * g_w g + z) with (at3 (g_h g) (g_w g) c y z). unfold cdelta_flat. rewrite flat3_at by auto.
  assert (Miss : forall c' i' j' (v w : T), 0 <= i' < g_h g -> 0 <= j' < g_w g -> (c', i', j') <> (c, y, z) ->
       (if is_cell RDelta (at3 (g_h g) (g_w g) c' i' j') RDelta (at3 (g_h g) (g_w g) c y z) then w else v) = v).
  { intros. unfold at3. rewrite is_cell_off3; auto. }
  rewrite (zfold_hit _ y); [|auto|].
  2:{ intros y' v Hy' Ny. apply zfold_miss. intros z' v1 Hz'. apply zfold_miss. intros c' v2 Hc'. apply Miss; auto. congruence. }
  rewrite (zfold_hit _ z); [|auto|].
  2:{ intros z' v Hz' Nz. apply zfold_miss. intros c' v2 Hc'. apply Miss; auto. congruence. }
  rewrite (zfold_hit _ c); [|auto|].
  2:{ intros c' v Hc' Nc. apply Miss; auto. congruence. }
  now rewrite is_cell_true.
Qed.

(** the three phases together *)
Definition conv_after_backward (x d : Z -> T) s : contents T :=
  let s1 := set_role s RBuff (spread_flat d s) in
  let s2 := conv_after_grads x s1 in
  set_role s2 RDelta (cdelta_flat s2).
Lemma wp_conv_backward m s x xv dt d :
  layer_at m LL s -> ten_is x (g_d g) (g_h g) (g_w g) -> holds m (t_data x) (g_d g * g_h g * g_w g) xv -> outside LL (t_data x) ->
  ten_is dt (g_f g) (out_h g) (out_w g) -> holds m (t_data dt) (g_f g * out_h g * out_w g) d -> outside LL (t_data dt) ->
  wp (conv_backward L x dt) m (fun _ m' => layer_at m' LL (conv_after_backward xv d s) /\ only (fun b _ => block_in LL b) m m').
Proof.
  intros H Sx Hx Ox Sd Hd Od. unfold conv_backward.
  apply wp_bind. eapply wp_conseq; [eapply wp_conv_spread; eauto|]. intros [] m1 [A1 O1].
  apply wp_bind. eapply wp_conseq; [eapply wp_conv_grads; [exact A1|exact Sx| |exact Ox]|]. { eapply conv_reads; eauto. }
  intros [] m2 [A2 O2]. eapply wp_conseq; [eapply wp_conv_delta; exact A2|]. intros [] m3 [A3 O3].
  split; [exact A3|]. eapply only_trans; [exact O1|]. eapply only_trans; [exact O2|exact O3].
Qed.
End Backward.
End Conv.

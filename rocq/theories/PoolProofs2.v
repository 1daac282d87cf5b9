(** * Max pooling (proofs): construction, windows in real arithmetic, out-of-range windows *)
From Coq Require Import Reals Lra.
From Verif Require Import Mem Scalar MemSpec MemLemmas Lique LiqueSpec LiqueProofs LiqueProofs2 Linear LinearProofs RSum Functions FunctionSpec FunctionProofs
  RealSpec ActivationProofs Layer LayerSpec FCProofs Cells ConvSpec ConvProofs ConvProofs2 PoolSpec PoolProofs.
Open Scope Z_scope.

Section New.
Context {T : Type} `{NT : Num T}.
Implicit Types (m : mem T).
Lemma wp_xpool_new m q act : tiling_ok q ->
  wp (xpool_new (q_d q) (q_h q) (q_w q) (q_vs q) (q_hs q) act) m (fun L m' =>
    xpool_dims L q /\ xp_act L = act /\ layer_at m' (LXPool L) (fun _ _ => zero) /\ keeps (fun _ => False) m m' /\ fresh_blocks m (LXPool L)).
Proof.
  intros Q. pose proof Q as (Qd & Qh & Qw & Qv & Qs & Bh & Bw & Bn). pose proof (out_fits q Q) as Bo. destruct (tiles_div q Q) as [Eh Ew].
  unfold xpool_new. replace (q_vs q =? 0) with false by (symmetry; apply Z.eqb_neq; lia). replace (q_hs q =? 0) with false by (symmetry; apply Z.eqb_neq; lia). cbn [orb].
  rewrite Eh, Ew.
  apply wp_bind. eapply wp_conseq; [apply wp_ten_zeros; reflexivity|]. intros V m1 [VV ShV]. destruct (made_keeps _ _ _ _ VV) as [K1 L1]. apply zeros_made_at in VV.
  apply wp_ret. cbn [shape3 s_depth s_height s_width] in *.
  assert (SV : ten_is V (q_d q) (q_oh q) (q_ow q)) by (eapply made_ten_is; eauto; lia).
  split; [|split; [reflexivity|split; [|split; [exact K1|]]]].
  - split; [exact Q|]. cbn. auto.
  - destruct (made_at_owner _ _ _ _ VV) as (X & Y & _). split.
    + intros r t E. destruct r; try discriminate E. injection E as <-. auto.
    + intros r r' t t' E E' Ne. destruct r; try discriminate E. destruct r'; try discriminate E'. congruence.
  - intros b (r & t & E & ->). destruct r; try discriminate E. injection E as <-. destruct (made_at_owner _ _ _ _ VV) as (_ & _ & ->). lia.
Qed.
Definition pool_blk (base : nat) (r : role) : nat := match r with RValue => base | RDelta => base + 1 | RMask => base + 2 | _ => base + 3 end.
Lemma wp_pool_new m q act : tiling_ok q ->
  wp (pool_new (q_d q) (q_h q) (q_w q) (q_vs q) (q_hs q) act) m (fun L m' =>
    pool_dims L q /\ p_act L = act /\ layer_at m' (LPool L) (fun _ _ => zero) /\ keeps (fun _ => False) m m' /\ fresh_blocks m (LPool L)).
Proof.
  intros Q. pose proof Q as (Qd & Qh & Qw & Qv & Qs & Bh & Bw & Bn). pose proof (out_fits q Q) as Bo. destruct (tiles_div q Q) as [Eh Ew].
  assert (H0 : 0 <= q_h q) by (unfold q_h; nia). assert (W0 : 0 <= q_w q) by (unfold q_w; nia).
  unfold pool_new. replace (q_vs q =? 0) with false by (symmetry; apply Z.eqb_neq; lia). replace (q_hs q =? 0) with false by (symmetry; apply Z.eqb_neq; lia). cbn [orb].
  rewrite Eh, Ew.
  apply wp_bind. eapply wp_conseq; [apply wp_ten_zeros; reflexivity|]. intros V m1 [VV ShV]. destruct (made_keeps _ _ _ _ VV) as [K1 L1]. apply zeros_made_at in VV.
  unfold pool_prepare. cbn [p_delta p_isize p_mask p_buff p_osize p_vs p_hs p_act p_value].
  apply wp_bind. eapply wp_conseq; [apply wp_ten_zeros; reflexivity|]. intros De m2 [VD ShD]. destruct (made_keeps _ _ _ _ VD) as [K2 L2]. apply zeros_made_at in VD.
  apply wp_bind. eapply wp_conseq; [apply wp_ten_zeros; reflexivity|]. intros Ma m3 [VM ShM]. destruct (made_keeps _ _ _ _ VM) as [K3 L3]. apply zeros_made_at in VM.
  apply wp_bind. eapply wp_conseq; [apply wp_ten_zeros; reflexivity|]. intros Bu m4 [VB ShB]. destruct (made_keeps _ _ _ _ VB) as [K4 L4]. apply zeros_made_at in VB.
  apply wp_ret. cbn [shape3 s_depth s_height s_width] in *.
  assert (K24 : keeps (fun _ => False) m2 m4) by (eapply LiqueProofs.keeps_trans; eauto).
  assert (K14 : keeps (fun _ => False) m1 m4) by (eapply LiqueProofs.keeps_trans; eauto).
  assert (K04 : keeps (fun _ => False) m m4) by (eapply LiqueProofs.keeps_trans; eauto).
  eapply made_at_keeps in VV; [|exact K14]. eapply made_at_keeps in VD; [|exact K24]. eapply made_at_keeps in VM; [|exact K4].
  rewrite L3, L2, L1 in *.
  set (L := mk_pool _ _ _ _ _ _ _ _ _).
  assert (Pt : forall r t, part (LPool L) r = Some t -> exists n, made_at (pool_blk (length m) r) t n m4).
  { intros r t E. destruct r; try discriminate E; injection E as <-; cbn [pool_blk]; eexists.
    - exact VV.
    - replace (length m + 3)%nat with (S (S (S (length m)))) by lia. exact VB.
    - replace (length m + 1)%nat with (S (length m)) by lia. exact VD.
    - replace (length m + 2)%nat with (S (S (length m))) by lia. exact VM. }
  split; [|split; [reflexivity|split; [|split; [exact K04|]]]].
  - split; [exact Q|]. do 4 (split; [reflexivity|]). cbn [L p_value p_buff p_mask p_delta].
    split; [eapply made_ten_is; eauto; lia|]. split; [eapply made_ten_is; eauto; lia|]. split; eapply made_ten_is; eauto; lia.
  - split.
    + intros r t E. destruct (Pt r t E) as (n & Hm). destruct (made_at_owner _ _ _ _ Hm) as (X & Y & _). auto.
    + intros r r' t t' E E' Ne. destruct (Pt r t E) as (n & Hm). destruct (Pt r' t' E') as (n' & Hm').
      destruct (made_at_owner _ _ _ _ Hm) as (_ & _ & ->). destruct (made_at_owner _ _ _ _ Hm') as (_ & _ & ->).
      destruct r; try discriminate E; destruct r'; try discriminate E'; cbn [pool_blk]; try congruence; lia.
  - intros b (r & t & E & ->). destruct (Pt r t E) as (n & Hm). destruct (made_at_owner _ _ _ _ Hm) as (_ & _ & ->).
    destruct r; try discriminate E; cbn [pool_blk]; lia.
Qed.
End New.

(** ** commands that release no memory *)
Section Live.
Context {T : Type} `{NT : Num T}.
Implicit Types (m : mem T).
Lemma store_live p i (v : T) m m' b n : store p i v m = Ok (tt, m') -> live m b n -> live m' b n.
Proof.
  unfold store. destruct p as [|b' o]; [discriminate|]. destruct (nth_error m b') as [[l|]|] eqn:E; try discriminate.
  destruct (znth l (o + i)); [|discriminate]. intros Q. injection Q as <-. intros (l' & A & B).
  destruct (Nat.eq_dec b' b) as [->|Ne].
  - rewrite E in A. injection A as <-. eexists. split; [apply nth_set_nth_same; apply nth_error_Some; congruence|]. now rewrite set_nth_length.
  - exists l'. split; auto. now rewrite nth_set_nth_other.
Qed.
Definition no_free {A} (c : M T A) : Prop := forall m a m', c m = Ok (a, m') -> forall b n, live m b n -> live m' b n.
Lemma no_free_ret A (a : A) : no_free (ret a). Proof. intros m r m' E. injection E as _ <-. auto. Qed.
Lemma no_free_bind A B (c : M T A) (f : A -> M T B) : no_free c -> (forall a, no_free (f a)) -> no_free (bind c f).
Proof.
  intros H K m r m' E b n. unfold bind in E. destruct (c m) as [[a m1]|] eqn:E1; [|discriminate]. intros L. eapply K; [exact E|]. eapply H; eauto.
Qed.
Lemma no_free_load p i : no_free (load (T := T) p i).
Proof.
  intros m r m'. unfold load. destruct p; [discriminate|]. destruct (nth_error m b) as [[l|]|]; try discriminate. destruct (znth l _) as [[v|]|]; try discriminate.
  intros Q. injection Q as _ <-. auto.
Qed.
Lemma no_free_store p i (v : T) : no_free (store p i v).
Proof. intros m [] m' E b n. now apply store_live with (1 := E). Qed.
Lemma no_free_mfold A lo hi (body : Z -> A -> M T A) a : (forall i a, no_free (body i a)) -> no_free (mfold lo hi body a).
Proof.
  intros H. unfold mfold. generalize (Z.to_nat (hi - lo)). intros k. revert lo a. induction k as [|k IH]; intros lo a; cbn [mfold_n]; [apply no_free_ret|].
  apply no_free_bind; auto.
Qed.
Lemma no_free_mfor lo hi (body : Z -> M T unit) : (forall i, no_free (body i)) -> no_free (mfor lo hi body).
Proof. intros H. apply no_free_mfold. auto. Qed.
(** if a loop ends well, so did each of its iterations *)
Lemma mfold_ok_iter A lo hi (body : Z -> A -> M T A) a m a' m' b n : (forall i a, no_free (body i a)) -> live m b n ->
  mfold lo hi body a m = Ok (a', m') -> forall k, lo <= k < hi -> exists a1 m1 a2 m2, live m1 b n /\ body k a1 m1 = Ok (a2, m2).
Proof.
  unfold mfold. intros Hb Hl. destruct (Z.le_gt_cases hi lo) as [Hle|Hgt]; [lia|].
  remember (Z.to_nat (hi - lo)) as c. assert (Hn : hi = lo + Z.of_nat c) by lia. clear Heqc Hgt.
  revert lo a m Hn Hl. induction c as [|c IH]; intros lo a m Hn Hl; cbn [mfold_n]; [lia|].
  unfold bind. destruct (body lo a m) as [[a1 m1]|] eqn:E1; [|discriminate]. intros E k Hk.
  destruct (Z.eq_dec k lo) as [->|]; [eauto 8|]. apply (IH (lo + 1) a1 m1); auto; try lia. eapply Hb; eauto.
Qed.
Lemma mfor_ok_iter lo hi (body : Z -> M T unit) m m' b n : (forall i, no_free (body i)) -> live m b n ->
  mfor lo hi body m = Ok (tt, m') -> forall k, lo <= k < hi -> exists m1 m2, live m1 b n /\ body k m1 = Ok (tt, m2).
Proof.
  intros Hb Hl E k Hk. destruct (mfold_ok_iter unit lo hi (fun i _ => body i) tt m tt m' b n (fun i _ => Hb i) Hl E k Hk) as (? & m1 & [] & m2 & P & Q). eauto.
Qed.
(** an element beyond the end of a tensor's block *)
Lemma ten_get_beyond t b n m i j k r : t_data t = Ptr b 0 -> live m b n -> 0 <= n -> n <= ten_at (t_shape t) i j k -> ten_get t i j k m <> Ok r.
Proof.
  intros Ed (l & El & Ll) Hn0 Hn. unfold ten_get. rewrite Ed. cbn [load]. rewrite El. unfold znth. rewrite Z.add_0_l.
  destruct (0 <=? _); [|discriminate]. rewrite (proj2 (nth_error_None l _)) by lia. discriminate.
Qed.
End Live.

(** ** strides that do not divide the input *)
Lemma last_window n s : 0 < n -> 0 < s -> 0 <= (n + s - 1) / s - 1 /\
  (let i := ((n + s - 1) / s - 1) * s in 0 <= i < n /\ n <= i + s /\ (n mod s <> 0 -> n < i + s)).
Proof.
  intros Hn Hs. pose proof (Z.div_mod (n + s - 1) s ltac:(lia)) as E. pose proof (Z.mod_pos_bound (n + s - 1) s Hs) as B.
  assert (1 <= (n + s - 1) / s). { apply Z.div_le_lower_bound; lia. }
  cbv zeta. split; [lia|]. set (q := (n + s - 1) / s) in *. split; [nia|]. split; [nia|]. intros Hm.
  assert (n <> q * s) by (intros Q; apply Hm; rewrite Q; apply Z.mod_mul; lia). nia.
Qed.
Section Beyond.
Context {T : Type} `{NT : Num T}.
Implicit Types (m : mem T).
Context (d h w vs hs : Z) (Pd : 0 < d) (Ph : 0 < h) (Pw : 0 < w) (Pv : 0 < vs) (Ps : 0 < hs)
  (Nd : h mod vs <> 0 \/ w mod hs <> 0) (Fit : (d * h + vs) * w + hs < 2 ^ 64)
  (x : tensor) (b : nat) (Ed : t_data x = Ptr b 0) (Sx : ten_is x d h w).
Let kh := (h + vs - 1) / vs - 1.
Let kw := (w + hs - 1) / hs - 1.
Lemma beyond : forall m r, live m b (d * h * w) -> ten_get x (d - 1) (kh * vs + (vs - 1)) (kw * hs + (hs - 1)) m <> Ok r.
Proof.
  intros m r Hl. destruct (last_window h vs Ph Pv) as (Hk & Hi & Hj & Hm). destruct (last_window w hs Pw Ps) as (Hk' & Hi' & Hj' & Hm').
  fold kh in Hk, Hi, Hj, Hm. fold kw in Hk', Hi', Hj', Hm'. cbv zeta in *.
  destruct Sx as (E1 & E2 & E3 & E4 & _).
  assert (P0 : 0 <= d * h * w) by nia.
  eapply (ten_get_beyond x b (d * h * w)); eauto. unfold ten_at. rewrite E2, E3.
  set (y := kh * vs + (vs - 1)). set (z := kw * hs + (hs - 1)).
  assert (Y : h - 1 <= y <= h + vs - 2) by (unfold y; lia). assert (Z' : w - 1 <= z <= w + hs - 2) by (unfold z; lia).
  assert (S : h <= y \/ w <= z) by (unfold y, z; destruct Nd; [left|right]; lia).
  assert (Q : d * h - 1 <= (d - 1) * h + y <= d * h + vs - 2) by nia.
  assert (LB : d * h * w <= ((d - 1) * h + y) * w + z).
  { destruct S as [S|S]; [assert (d * h <= (d - 1) * h + y) by nia; nia|nia]. }
  assert (UB' : ((d - 1) * h + y) * w <= (d * h + vs - 2) * w) by nia.
  assert (UB2 : (d * h + vs - 2) * w = (d * h + vs) * w - 2 * w) by ring.
  assert (LB0 : 0 <= ((d - 1) * h + y) * w). { apply Z.mul_nonneg_nonneg; [|lia]. assert (0 < d * h) by nia. clear - Q H. lia. }
  clear - LB LB0 UB' UB2 Z' Fit P0 Pw Ps. set (A := ((d - 1) * h + y) * w) in *. set (B := (d * h + vs) * w) in *. set (C := d * h * w) in *.
  rewrite u64_small by lia. exact LB.
Qed.
Lemma xpool_stuck (L : xpool) m r : xp_isize L = shape3 d h w -> xp_vs L = vs -> xp_hs L = hs -> live m b (d * h * w) -> xpool_forward L x m <> Ok r.
Proof.
  intros Ei Ev Eh Hl E. unfold xpool_forward in E. unfold bind at 1 in E.
  match type of E with (match ?c m with _ => _ end = _) => set (loops := c) in E; destruct (loops m) as [[[] m']|] eqn:E1; [|discriminate]; clear E end.
  unfold loops, mstride in E1. rewrite Ei, Ev, Eh in E1. cbn [shape3 s_depth s_height s_width] in E1.
  assert (N3 : forall i j d0, no_free (bind (T := T) (ten_get x d0 i j) (fun max => bind (T := T) (mfold i (i + vs) (fun y max =>
      mfold j (j + hs) (fun x' max => bind (T := T) (ten_get x d0 y x') (fun value =>
        ret (if ltb max value then value else max))) max) max) (fun max => ten_set (xp_value L) d0 (i / vs) (j / hs) max)))).
  { intros. apply no_free_bind; [apply no_free_load|]. intros. apply no_free_bind; [|intros; apply no_free_store].
    apply no_free_mfold. intros. apply no_free_mfold. intros. apply no_free_bind; [apply no_free_load|]. intros. apply no_free_ret. }
  destruct (last_window h vs Ph Pv) as (Hk & _). destruct (last_window w hs Pw Ps) as (Hk' & _).
  eapply (mfor_ok_iter _ _ _ _ _ b (d * h * w)) with (k := d - 1) in E1 as (m1 & m2 & L1 & E1); [|intros; apply no_free_mfor; intros; apply no_free_mfor; intros; apply N3|exact Hl|lia].
  eapply (mfor_ok_iter _ _ _ _ _ b (d * h * w)) with (k := kh) in E1 as (m3 & m4 & L3 & E1); [|intros; apply no_free_mfor; intros; apply N3|exact L1|unfold kh; lia].
  eapply (mfor_ok_iter _ _ _ _ _ b (d * h * w)) with (k := kw) in E1 as (m5 & m6 & L5 & E1); [|intros; apply N3|exact L3|unfold kw; lia].
  unfold bind at 1 in E1. destruct (ten_get x (d - 1) (kh * vs) (kw * hs) m5) as [[v m7]|] eqn:E2; [|discriminate].
  assert (L7 : live m7 b (d * h * w)) by (eapply no_free_load; [exact E2|exact L5]).
  unfold bind at 1 in E1. match type of E1 with (match ?c with _ => _ end = _) => destruct c as [[v' m8]|] eqn:E3; [|discriminate] end.
  eapply (mfold_ok_iter _ _ _ _ _ _ _ _ b (d * h * w)) with (k := kh * vs + (vs - 1)) in E3 as (a1 & m9 & a2 & m10 & L9 & E3); [| |exact L7|lia].
  2:{ intros. apply no_free_mfold. intros. apply no_free_bind; [apply no_free_load|]. intros. apply no_free_ret. }
  eapply (mfold_ok_iter _ _ _ _ _ _ _ _ b (d * h * w)) with (k := kw * hs + (hs - 1)) in E3 as (a3 & m11 & a4 & m12 & L11 & E3); [| |exact L9|lia].
  2:{ intros. apply no_free_bind; [apply no_free_load|]. intros. apply no_free_ret. }
  unfold bind in E3. destruct (ten_get x (d - 1) (kh * vs + (vs - 1)) (kw * hs + (hs - 1)) m11) eqn:E4; [|discriminate].
  exact (beyond _ _ L11 E4).
Qed.
Lemma pool_stuck (L : pool) m r : p_isize L = shape3 d h w -> p_vs L = vs -> p_hs L = hs -> live m b (d * h * w) -> pool_forward L x m <> Ok r.
Proof.
  intros Ei Ev Eh Hl E. unfold pool_forward in E. unfold bind at 1 in E.
  destruct (tb_fill (p_mask L) zero m) as [[[] m0]|] eqn:E0; [|discriminate].
  assert (L0 : live m0 b (d * h * w)).
  { eapply (no_free_mfor 0 (t_size (p_mask L)) (fun i => store (t_data (p_mask L)) i zero)); [intros; apply no_free_store|exact E0|exact Hl]. }
  unfold bind at 1 in E.
  match type of E with (match ?c m0 with _ => _ end = _) => set (loops := c) in E; destruct (loops m0) as [[[] m']|] eqn:E1; [|discriminate]; clear E end.
  unfold loops, mstride in E1. rewrite Ei, Ev, Eh in E1. cbn [shape3 s_depth s_height s_width] in E1.
  assert (N2 : forall d0 y x' (r0 : T * Z * Z), no_free (bind (T := T) (ten_get x d0 y x') (fun value => ten_set (p_mask L) d0 y x' zero ;;;
        ret (if ltb (fst (fst r0)) value then (value, y, x') else r0)))).
  { intros. apply no_free_bind; [apply no_free_load|]. intros. apply no_free_bind; [apply no_free_store|]. intros. apply no_free_ret. }
  assert (N3 : forall i j d0, no_free (bind (T := T) (ten_get x d0 i j) (fun max => bind (T := T) (mfold i (i + vs) (fun y r0 =>
      mfold j (j + hs) (fun x' r0 => bind (T := T) (ten_get x d0 y x') (fun value => ten_set (p_mask L) d0 y x' zero ;;;
        ret (if ltb (fst (fst r0)) value then (value, y, x') else r0))) r0) (max, i, j)) (fun r0 =>
      ten_set (p_value L) d0 (i / vs) (j / hs) (fst (fst r0)) ;;; ten_set (p_mask L) d0 (snd (fst r0)) (snd r0) one)))).
  { intros. apply no_free_bind; [apply no_free_load|]. intros. apply no_free_bind.
    - apply no_free_mfold. intros. apply no_free_mfold. intros. apply N2.
    - intros. apply no_free_bind; intros; apply no_free_store. }
  destruct (last_window h vs Ph Pv) as (Hk & _). destruct (last_window w hs Pw Ps) as (Hk' & _).
  eapply (mfor_ok_iter _ _ _ _ _ b (d * h * w)) with (k := d - 1) in E1 as (m1 & m2 & L1 & E1); [|intros; apply no_free_mfor; intros; apply no_free_mfor; intros; apply N3|exact L0|lia].
  eapply (mfor_ok_iter _ _ _ _ _ b (d * h * w)) with (k := kh) in E1 as (m3 & m4 & L3 & E1); [|intros; apply no_free_mfor; intros; apply N3|exact L1|unfold kh; lia].
  eapply (mfor_ok_iter _ _ _ _ _ b (d * h * w)) with (k := kw) in E1 as (m5 & m6 & L5 & E1); [|intros; apply N3|exact L3|unfold kw; lia].
  unfold bind at 1 in E1. destruct (ten_get x (d - 1) (kh * vs) (kw * hs) m5) as [[v m7]|] eqn:E2; [|discriminate].
  assert (L7 : live m7 b (d * h * w)) by (eapply no_free_load; [exact E2|exact L5]).
  unfold bind at 1 in E1. match type of E1 with (match ?c with _ => _ end = _) => destruct c as [[v' m8]|] eqn:E3; [|discriminate] end.
  eapply (mfold_ok_iter _ _ _ _ _ _ _ _ b (d * h * w)) with (k := kh * vs + (vs - 1)) in E3 as (a1 & m9 & a2 & m10 & L9 & E3); [| |exact L7|lia].
  2:{ intros. apply no_free_mfold. intros. apply N2. }
  eapply (mfold_ok_iter _ _ _ _ _ _ _ _ b (d * h * w)) with (k := kw * hs + (hs - 1)) in E3 as (a3 & m11 & a4 & m12 & L11 & E3); [| |exact L9|lia].
  2:{ intros. apply N2. }
  unfold bind in E3. destruct (ten_get x (d - 1) (kh * vs + (vs - 1)) (kw * hs + (hs - 1)) m11) eqn:E4; [|discriminate].
  exact (beyond _ _ L11 E4).
Qed.
End Beyond.

(** ** the scan over the reals *)
Section Real.
Local Open Scope R_scope.
Lemma scan_R q (x : Z -> R) c y z : tiling_ok q ->
  exists i j, (0 <= i < q_vs q)%Z /\ (0 <= j < q_hs q)%Z /\
    window_scan q x c y z = (x (at3 (q_h q) (q_w q) c (y * q_vs q + i) (z * q_hs q + j)), (y * q_vs q + i)%Z, (z * q_hs q + j)%Z) /\
    forall i' j', (0 <= i' < q_vs q)%Z -> (0 <= j' < q_hs q)%Z ->
      x (at3 (q_h q) (q_w q) c (y * q_vs q + i') (z * q_hs q + j')) <= x (at3 (q_h q) (q_w q) c (y * q_vs q + i) (z * q_hs q + j)) /\
      ((i' < i \/ i' = i /\ j' < j)%Z ->
       x (at3 (q_h q) (q_w q) c (y * q_vs q + i') (z * q_hs q + j')) < x (at3 (q_h q) (q_w q) c (y * q_vs q + i) (z * q_hs q + j))).
Proof.
  intros Q. assert (Hv : (0 < q_vs q)%Z) by apply Q. assert (Hh : (0 < q_hs q)%Z) by apply Q. unfold window_scan.
  set (X := fun i j => x (at3 (q_h q) (q_w q) c (y * q_vs q + i) (z * q_hs q + j))).
  set (P := fun (seen : Z -> Z -> Prop) (r : R * Z * Z) => exists i j, (0 <= i < q_vs q)%Z /\ (0 <= j < q_hs q)%Z /\
    r = (X i j, (y * q_vs q + i)%Z, (z * q_hs q + j)%Z) /\ forall i' j', (0 <= i' < q_vs q)%Z -> (0 <= j' < q_hs q)%Z -> 
      (seen i' j' -> X i' j' <= X i j) /\ ((i' < i \/ i' = i /\ j' < j)%Z -> X i' j' < X i j)).
  change (x (at3 (q_h q) (q_w q) c (y * q_vs q) (z * q_hs q))) with (x (at3 (q_h q) (q_w q) c (y * q_vs q) (z * q_hs q))).
  enough (W : P (fun i' j' => True) (zfold (q_vs q) (fun i => zfold (q_hs q) (fun j r =>
    let v := x (at3 (q_h q) (q_w q) c (y * q_vs q + i) (z * q_hs q + j)) in
    if ltb (fst (fst r)) v then (v, (y * q_vs q + i)%Z, (z * q_hs q + j)%Z) else r))
    (x (at3 (q_h q) (q_w q) c (y * q_vs q) (z * q_hs q)), (y * q_vs q)%Z, (z * q_hs q)%Z))).
  { destruct W as (i & j & Hi & Hj & E & K). exists i, j. do 3 (split; [assumption|]). intros i' j' Hi' Hj'. destruct (K i' j' Hi' Hj'). auto. }
  (* rows *)
  match goal with |- P _ (zfold ?n ?g ?a) => assert (W : (fun i r => P (fun i' _ => (i' < i)%Z) r) n (zfold n g a)) end.
  2:{ destruct W as (i & j & Hi & Hj & E & K). exists i, j. do 3 (split; [assumption|]). intros i' j' Hi' Hj'. destruct (K i' j' Hi' Hj'). split; auto. intros _. apply H; lia. }
  apply zfold_ind; [lia| |].
  - exists 0%Z, 0%Z. rewrite !Z.add_0_r. split; [lia|]. split; [lia|]. split; [unfold X; now rewrite !Z.add_0_r|]. intros i' j' Hi' Hj'. split; intros; lia.
  - intros i r0 Hi P0.
    match goal with |- P _ (zfold ?n ?g ?a) => assert (W : (fun j r => P (fun i' j' => (i' < i \/ i' = i /\ j' < j)%Z) r) n (zfold n g a)) end.
    2:{ destruct W as (i1 & j1 & Hi1 & Hj1 & E & K). exists i1, j1. do 3 (split; [assumption|]). intros i' j' Hi' Hj'. destruct (K i' j' Hi' Hj') as [K1 K2]. split; auto. intros; apply K1; lia. }
    apply zfold_ind; [lia| |].
    + destruct P0 as (i1 & j1 & Hi1 & Hj1 & E & K). exists i1, j1. do 3 (split; [assumption|]). intros i' j' Hi' Hj'. destruct (K i' j' Hi' Hj') as [K1 K2]. split; auto. intros; apply K1; lia.
    + intros j r Hj (i1 & j1 & Hi1 & Hj1 & E & K). subst r. cbn [fst snd ltb Num_R]. cbv zeta. fold (X i j).
      destruct (Rlt_dec (X i1 j1) (X i j)) as [C|C].
      * rewrite Rltb_t by auto. exists i, j. split; [lia|]. split; [lia|]. split; [reflexivity|]. intros i' j' Hi' Hj'. destruct (K i' j' Hi' Hj') as [K1 K2]. split.
        -- intros S. destruct (Z.eq_dec i' i) as [->|]; [destruct (Z.eq_dec j' j) as [->|]; [lra|]|]; specialize (K1 ltac:(lia)); lra.
        -- intros S. specialize (K1 ltac:(lia)). lra.
      * rewrite Rltb_f by lra. exists i1, j1. do 3 (split; [auto|]). intros i' j' Hi' Hj'. destruct (K i' j' Hi' Hj') as [K1 K2]. split; auto.
        intros S. destruct (Z.eq_dec i' i) as [->|]; [destruct (Z.eq_dec j' j) as [->|]; [lra|]|]; apply K1; lia.
Qed.
End Real.

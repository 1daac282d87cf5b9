(** * Max pooling (proofs) *)
From Verif Require Import Mem Scalar MemSpec MemLemmas Lique LiqueSpec LiqueProofs LiqueProofs2 Linear LinearProofs Functions FunctionSpec FunctionProofs
  Layer LayerSpec FCProofs Cells ConvSpec ConvProofs ConvProofs2 PoolSpec.
Open Scope Z_scope.

(** ** commands that also return a value *)
Section Phase.
Context {T : Type} `{NT : Num T}.
Implicit Types (m : mem T) (s : contents T).
Context (L : layer) (fixed : role -> Prop) (s0 : contents T) (I : mem T -> Prop).
Context (I_stable : forall m m', only (mine L) m m' -> I m -> I m').
Notation inv := (inv L fixed s0 I).
Notation cw := (cw L fixed s0 I).
Definition cwv {A} (c : M T A) (a : A) (H : role -> Z -> T -> T) : Prop :=
  (forall r o v, fixed r -> H r o v = v) /\
  forall m s, inv m s -> wp c m (fun r m' => r = a /\ layer_at m' L (fun r o => H r o (s r o)) /\ only (mine L) m m').
Lemma cwv_inv A (c : M T A) a H m s : cwv c a H -> inv m s -> wp c m (fun r m' => r = a /\ inv m' (fun r o => H r o (s r o)) /\ only (mine L) m m').
Proof.
  intros [F C] (A' & B & D). eapply wp_conseq; [apply C; split; [exact A'|split; auto]|]. intros r m' (E & A2 & O). split; auto. split; auto.
  split; auto. split; [eapply I_stable; eauto|]. intros r' o Hr. rewrite F by auto. auto.
Qed.
Lemma cwv_of A (a : A) c H : cw c H -> cwv (c ;;; ret a) a H.
Proof.
  intros [F C]. split; [exact F|]. intros m s Hi. apply wp_bind. eapply wp_conseq; [apply C; exact Hi|]. intros [] m' [A' O]. apply wp_ret. auto.
Qed.
Lemma cwv_bind A (c : M T A) a H k H' : cwv c a H -> cw (k a) H' -> cw (bind c k) (fun r o v => H' r o (H r o v)).
Proof.
  intros C1 C2. split; [intros r o v Hr; rewrite (proj1 C1), (proj1 C2); auto|]. intros m s Hi. apply wp_bind.
  eapply wp_conseq; [apply (cwv_inv _ _ _ _ _ _ C1 Hi)|]. intros r m1 (-> & Hi1 & O1). eapply wp_conseq; [apply (proj2 C2 _ _ Hi1)|].
  intros [] m2 [A' O2]. split; [exact A'|]. eapply only_trans; eauto.
Qed.
Lemma cwv_read A B (c : M T A) v k (b : B) H : (forall m s, inv m s -> c m = Ok (v, m)) -> cwv (k v) b H -> cwv (bind c k) b H.
Proof.
  intros R [F C]. split; auto. intros m s Hi. unfold wp. erewrite bind_eq by (eapply R; eauto). apply (C m s Hi).
Qed.
Lemma cwv_fold A lo n (body : Z -> A -> M T A) (g : Z -> A -> A) a (H : Z -> role -> Z -> T -> T) :
  (forall i a, 0 <= i < n -> cwv (body (lo + i) a) (g i a) (H i)) ->
  cwv (mfold lo (lo + n) body a) (zfold n g a) (fun r o v => zfold n (fun i => H i r o) v).
Proof.
  intros C. split. { intros r o v Hr. apply zfold_miss. intros i v' Hi. now apply (proj1 (C i a Hi)). }
  intros m s Hi. destruct (Z.le_gt_cases n 0) as [Hn|Hn].
  { rewrite mfold_empty by lia. apply wp_ret. split; [now rewrite zfold_neg|]. split; [|apply only_refl]. eapply layer_at_ext; [exact (proj1 Hi)|]. intros. now rewrite zfold_neg. }
  apply (wp_mfold _ lo (lo + n) _ (fun i r m' => r = zfold (i - lo) g a /\ inv m' (fun r o => zfold (i - lo) (fun i => H i r o) (s r o)) /\ only (mine L) m m')); [lia| | |].
  - rewrite Z.sub_diag. split; [reflexivity|]. split; [exact Hi|apply only_refl].
  - intros i r m' Hi' (-> & J & O). set (k := i - lo) in *. replace i with (lo + k) by (unfold k; lia). replace (lo + k + 1 - lo) with (k + 1) by lia.
    eapply wp_conseq; [apply (cwv_inv _ _ _ _ _ _ (C k (zfold k g a) ltac:(unfold k; lia)) J)|]. intros r m2 (-> & (A' & B & D) & O2).
    split; [now rewrite zfold_S by (unfold k; lia)|]. split; [|eapply only_trans; eauto].
    split; [|split; [exact B|]].
    + eapply layer_at_ext; [exact A'|]. intros. cbv beta. now rewrite zfold_S by (unfold k; lia).
    + intros r o Hr. rewrite zfold_S by (unfold k; lia). now apply D.
  - intros r m' (-> & (A' & _) & O). replace (lo + n - lo) with n in * by lia. auto.
Qed.
End Phase.

(** ** tilings *)
Section Tiling.
Context (q : tiling) (Q : tiling_ok q).
Lemma win_row y i : 0 <= y < q_oh q -> 0 <= i < q_vs q -> 0 <= y * q_vs q + i < q_h q.
Proof. intros. destruct Q as (?&?&?&?&?&_). unfold q_h. nia. Qed.
Lemma win_col z j : 0 <= z < q_ow q -> 0 <= j < q_hs q -> 0 <= z * q_hs q + j < q_w q.
Proof. intros. destruct Q as (?&?&?&?&?&_). unfold q_w. nia. Qed.
Lemma row_win i : 0 <= i < q_h q -> 0 <= i / q_vs q < q_oh q.
Proof.
  intros H. destruct Q as (?&?&?&?&?&_). split; [apply Z.div_pos; lia|]. apply Z.div_lt_upper_bound; auto. unfold q_h in H. lia.
Qed.
Lemma col_win j : 0 <= j < q_w q -> 0 <= j / q_hs q < q_ow q.
Proof.
  intros H. destruct Q as (?&?&?&?&?&_). split; [apply Z.div_pos; lia|]. apply Z.div_lt_upper_bound; auto. unfold q_w in H. lia.
Qed.
Lemma tiles_h : (q_h q + q_vs q - 1) / q_vs q = q_oh q.
Proof.
  destruct Q as (?&?&?&?&?&_). unfold q_h. replace (q_oh q * q_vs q + q_vs q - 1) with (q_oh q * q_vs q + (q_vs q - 1)) by lia.
  rewrite Z.div_add_l, Z.div_small by lia. lia.
Qed.
Lemma tiles_w : (q_w q + q_hs q - 1) / q_hs q = q_ow q.
Proof.
  destruct Q as (?&?&?&?&?&_). unfold q_w. replace (q_ow q * q_hs q + q_hs q - 1) with (q_ow q * q_hs q + (q_hs q - 1)) by lia.
  rewrite Z.div_add_l, Z.div_small by lia. lia.
Qed.
Lemma tiles_div : q_h q / q_vs q = q_oh q /\ q_w q / q_hs q = q_ow q.
Proof. destruct Q as (?&?&?&?&?&_). unfold q_h, q_w. rewrite !Z.div_mul by lia. auto. Qed.
Lemma out_fits : q_d q * q_oh q * q_ow q < 2 ^ 64.
Proof.
  destruct Q as (?&?&?&?&?&_&_&H). eapply Z.le_lt_trans; [|exact H]. unfold q_h, q_w.
  assert (q_oh q <= q_oh q * q_vs q) by nia. assert (q_ow q <= q_ow q * q_hs q) by nia.
  assert (q_d q * q_oh q <= q_d q * (q_oh q * q_vs q)) by nia. nia.
Qed.
End Tiling.

(** ** the scan *)
Section Scan.
Context {T : Type} `{NT : Num T}.
Lemma zfold_ind A n (g : Z -> A -> A) a (P : Z -> A -> Prop) : 0 <= n -> P 0 a -> (forall i v, 0 <= i < n -> P i v -> P (i + 1) (g i v)) -> P n (zfold n g a).
Proof.
  intros Hn H0 Hs. revert n Hn Hs. apply (natlike_ind (fun n => (forall i v, 0 <= i < n -> P i v -> P (i + 1) (g i v)) -> P n (zfold n g a))).
  - intros _. exact H0.
  - intros n Hn IH Hs. unfold Z.succ. rewrite zfold_S by auto. apply Hs; [lia|]. apply IH. intros. apply Hs; auto; lia.
Qed.
(** the scan returns an element of the window, in any arithmetic *)
Lemma scan_in q (x : Z -> T) c y z : tiling_ok q ->
  exists i j, 0 <= i < q_vs q /\ 0 <= j < q_hs q /\
    window_scan q x c y z = (x (at3 (q_h q) (q_w q) c (y * q_vs q + i) (z * q_hs q + j)), y * q_vs q + i, z * q_hs q + j).
Proof.
  intros Q. assert (Hv : 0 < q_vs q) by apply Q. assert (Hh : 0 < q_hs q) by apply Q. unfold window_scan.
  set (P := fun r : T * Z * Z => exists i j, 0 <= i < q_vs q /\ 0 <= j < q_hs q /\
    r = (x (at3 (q_h q) (q_w q) c (y * q_vs q + i) (z * q_hs q + j)), y * q_vs q + i, z * q_hs q + j)).
  change (P (zfold (q_vs q) (fun i => zfold (q_hs q) (fun j r =>
    let v := x (at3 (q_h q) (q_w q) c (y * q_vs q + i) (z * q_hs q + j)) in
    if ltb (fst (fst r)) v then (v, y * q_vs q + i, z * q_hs q + j) else r))
    (x (at3 (q_h q) (q_w q) c (y * q_vs q) (z * q_hs q)), y * q_vs q, z * q_hs q))).
  apply (zfold_ind _ _ _ _ (fun _ => P)); [lia| |].
  - exists 0, 0. rewrite !Z.add_0_r. split; [lia|]. split; [lia|reflexivity].
  - intros i v Hi Pv. apply (zfold_ind _ _ _ _ (fun _ => P)); [lia|exact Pv|]. intros j r Hj Pr. cbv zeta. destruct ltb; [|exact Pr].
    exists i, j. auto.
Qed.
(** without the positions *)
Lemma zfold_map A B (f : A -> B) n (g : Z -> A -> A) (g' : Z -> B -> B) a : (forall i a, f (g i a) = g' i (f a)) -> f (zfold n g a) = zfold n g' (f a).
Proof using. intros H. unfold zfold. induction (Z.to_nat n) as [|k IH]; [reflexivity|]. cbn [gfold]. now rewrite H, IH. Qed.
Lemma scan_max q (x : Z -> T) c y z : window_max q x c y z =
  zfold (q_vs q) (fun i => zfold (q_hs q) (fun j r =>
    if ltb r (x (at3 (q_h q) (q_w q) c (y * q_vs q + i) (z * q_hs q + j))) then x (at3 (q_h q) (q_w q) c (y * q_vs q + i) (z * q_hs q + j)) else r))
  (x (at3 (q_h q) (q_w q) c (y * q_vs q) (z * q_hs q))).
Proof.
  unfold window_max, window_scan. set (f := fun r : T * Z * Z => fst (fst r)).
  apply (zfold_map _ _ f). intros i r. apply (zfold_map _ _ f). intros j r'. unfold f. cbv zeta. now destruct ltb.
Qed.
End Scan.

Section Pool.
Context {T : Type} `{NT : Num T}.
Implicit Types (m : mem T) (s : contents T).

Lemma mfold_pure_from A lo n (body : Z -> A -> M T A) (g : Z -> A -> A) m :
  (forall i a, 0 <= i < n -> body (lo + i) a m = Ok (g i a, m)) -> forall a, mfold lo (lo + n) body a m = Ok (zfold n g a, m).
Proof.
  intros H a. destruct (Z.le_gt_cases n 0) as [Hn|Hn]; [rewrite mfold_empty, zfold_neg by lia; reflexivity|].
  assert (W : wp (mfold lo (lo + n) body a) m (fun r m' => r = zfold n g a /\ m' = m)).
  { apply (wp_mfold _ lo (lo + n) _ (fun i r m' => r = zfold (i - lo) g a /\ m' = m)); [lia|now rewrite Z.sub_diag| |].
    - intros i r m' Hi [-> ->]. unfold wp. pose proof (H (i - lo) (zfold (i - lo) g a) ltac:(lia)) as E. replace (lo + (i - lo)) with i in E by lia. rewrite E.
      replace (i + 1 - lo) with (i - lo + 1) by lia. rewrite zfold_S by lia. auto.
    - intros r m' [-> ->]. replace (lo + n - lo) with n by lia. auto. }
  apply wp_elim in W as (r & m' & E & -> & ->). exact E.
Qed.

(** ** Raw *)
Section Raw.
Context (L : xpool) (q : tiling) (D : xpool_dims L q).
Notation LL := (LXPool L).
Definition pooled (x : Z -> T) : Z -> T := flat3 (q_oh q) (q_ow q) (window_max q x).
Definition xpool_after (a : activation) (x : Z -> T) s : contents T :=
  set_role s RValue (act_val a (q_d q * q_oh q * q_ow q) (pooled x)).
Lemma wp_xpool_forward a m s x xv :
  xp_act L = Some a -> (a = SoftMax -> 0 < q_d q * q_oh q * q_ow q) -> layer_at m LL s ->
  ten_is x (q_d q) (q_h q) (q_w q) -> holds m (t_data x) (q_d q * q_h q * q_w q) xv -> outside LL (t_data x) ->
  wp (xpool_forward L x) m (fun _ m' => layer_at m' LL (xpool_after a xv s) /\ only (fun b _ => block_in LL b) m m').
Proof.
  intros Ea Hsm H Sx Hx Ho. pose proof D as (Q & Ei & Eo & Ev & Eh & SV). pose proof Q as (Qd & Qh & Qw & Qv & Qs & _).
  set (I := fun m' : mem T => holds m' (t_data x) (q_d q * q_h q * q_w q) xv).
  assert (St : forall m m', only (mine LL) m m' -> I m -> I m').
  { intros m1 m2 O. unfold I. intros P. exact (outside_holds _ _ LL _ _ _ _ O (fun b i h => h) Ho P). }
  set (fixed := fun r => r <> RValue).
  set (loops := mfor 0 (s_depth (xp_isize L)) (fun d =>
    mstride (s_height (xp_isize L)) (xp_vs L) (fun i => mstride (s_width (xp_isize L)) (xp_hs L) (fun j =>
    bind (T := T) (ten_get x d i j) (fun max => bind (T := T) (mfold i (i + xp_vs L) (fun y max =>
      mfold j (j + xp_hs L) (fun x' max => bind (T := T) (ten_get x d y x') (fun value =>
        ret (if ltb max value then value else max))) max) max) (fun max =>
    ten_set (xp_value L) d (i / xp_vs L) (j / xp_hs L) max)))))).
  assert (C : cw LL fixed s I loops
     (fun r o v => zfold (q_d q) (fun c => zfold (q_oh q) (fun y => zfold (q_ow q) (fun z old =>
        if is_cell RValue (at3 (q_oh q) (q_ow q) c y z) r o then window_max q xv c y z else old))) v)).
  { unfold loops, mstride. rewrite Ei, Ev, Eh. cbn [shape3 s_height s_width s_depth]. rewrite tiles_h, tiles_w by exact Q.
    apply (cw_for LL fixed s I St (q_d q) _ (fun c r o v => zfold (q_oh q) (fun y => zfold (q_ow q) (fun z old =>
        if is_cell RValue (at3 (q_oh q) (q_ow q) c y z) r o then window_max q xv c y z else old)) v)).
    intros c Hc.
    apply (cw_for LL fixed s I St (q_oh q) _ (fun y r o v => zfold (q_ow q) (fun z old =>
        if is_cell RValue (at3 (q_oh q) (q_ow q) c y z) r o then window_max q xv c y z else old) v)).
    intros y Hy.
    apply (cw_for LL fixed s I St (q_ow q) _ (fun z r o old =>
        if is_cell RValue (at3 (q_oh q) (q_ow q) c y z) r o then window_max q xv c y z else old)).
    intros z Hz.
    pose proof (win_row q Q y 0 Hy ltac:(lia)) as R0. pose proof (win_col q Q z 0 Hz ltac:(lia)) as C0. rewrite Z.add_0_r in R0, C0.
    eapply cw_read. { intros m1 s1 J. eapply ten_get_ok; [exact Sx|apply J|lia..]. }
    eapply (cw_read _ _ _ _ _ _ (window_max q xv c y z)).
    { intros m1 s1 J. rewrite scan_max. apply mfold_pure_from. intros i a0 Hi. apply mfold_pure_from. intros j b Hj.
      pose proof (win_row q Q y i Hy Hi). pose proof (win_col q Q z j Hz Hj).
      erewrite bind_eq by (eapply ten_get_ok; [exact Sx|apply J|lia..]). reflexivity. }
    rewrite !Z.div_mul by lia. apply cw_ten_set with (d := q_d q); auto. }
  unfold xpool_forward. fold loops. apply wp_bind. destruct C as [_ C]. eapply wp_conseq; [apply (C m s)|].
  { split; [exact H|]. split; [exact Hx|reflexivity]. }
  intros [] m1 [A O1].
  assert (A1 : layer_at m1 LL (set_role s RValue (pooled xv))).
  { eapply layer_at_ext; [exact A|]. intros r t o Pr Hr. cbv beta. unfold set_role. destruct (role_eq_dec r RValue) as [->|Ne].
    - injection Pr as <-. pose proof SV as (_ & _ & _ & Es & _). rewrite Es in Hr.
      destruct (off3_split (q_d q) (q_oh q) (q_ow q) o ltac:(lia) ltac:(lia) ltac:(lia) Hr) as (f & y & z & Hf & Hy & Hz & ->).
      change ((f * q_oh q + y) * q_ow q + z) with (at3 (q_oh q) (q_ow q) f y z). unfold pooled. rewrite flat3_at by auto.
      apply (zfold3_store RValue (q_oh q) (q_ow q) (window_max q xv)); auto; lia.
    - apply (zfold3_other RValue r o (fun f y z => at3 (q_oh q) (q_ow q) f y z) (window_max q xv)); auto. }
  rewrite Ea. cbn [with_act]. assert (Es : t_size (xp_value L) = q_d q * q_oh q * q_ow q) by apply SV.
  eapply wp_conseq.
  { eapply (wp_part_sets _ m1 LL _ RValue (xp_value L) (act_val a (q_d q * q_oh q * q_ow q) (pooled xv))); [exact A1|reflexivity|].
    unfold call_f. rewrite Es. apply wp_act_f; auto.
    - eapply (part_room' _ _ _ RValue); [exact A1|reflexivity|auto].
    - pose proof (part_holds' _ _ _ RValue _ _ A1 eq_refl Es) as P. rewrite set_role_same in P. exact P.
    - now left. }
  intros [] m2 [A2 O2]. split.
  - eapply layer_at_ext; [exact A2|]. intros. unfold xpool_after, set_role. destruct role_eq_dec; reflexivity.
  - eapply only_trans; [exact O1|]. eapply only_weaken; [|exact O2]. cbn; intros; eapply block_at_in; eassumption.
Qed.
End Raw.

(** ** Train *)
Section Train.
Context (L : pool) (q : tiling) (D : pool_dims L q).
Notation LL := (LPool L).
Definition pool_mask (x : Z -> T) : Z -> T := flat3 (q_h q) (q_w q) (window_mask q x).
Definition pool_after_forward (a : activation) (x : Z -> T) s : contents T :=
  set_role (set_role s RMask (pool_mask x)) RValue (act_val a (q_d q * q_oh q * q_ow q) (s RBuff)).
Definition pool_loops (x : tensor) : M T unit :=
  mfor 0 (s_depth (p_isize L)) (fun d =>
  mstride (s_height (p_isize L)) (p_vs L) (fun i =>
  mstride (s_width (p_isize L)) (p_hs L) (fun j =>
    let* max := ten_get x d i j in
    let* r := mfold i (i + p_vs L) (fun y r =>
      mfold j (j + p_hs L) (fun x' r =>
        let* value := ten_get x d y x' in
        ten_set (p_mask L) d y x' zero ;;;
        ret (if ltb (fst (fst r)) value then (value, y, x') else r)) r) (max, i, j) in
    ten_set (p_value L) d (i / p_vs L) (j / p_hs L) (fst (fst r)) ;;;
    ten_set (p_mask L) d (snd (fst r)) (snd r) one))).
Lemma wp_pool_loops m s x xv : layer_at m LL s ->
  ten_is x (q_d q) (q_h q) (q_w q) -> holds m (t_data x) (q_d q * q_h q * q_w q) xv -> outside LL (t_data x) ->
  wp (pool_loops x) m (fun _ m' => layer_at m' LL (set_role (set_role s RMask (pool_mask xv)) RValue (flat3 (q_oh q) (q_ow q) (window_max q xv))) /\
    only (fun b _ => block_in LL b) m m').
Proof.
  intros H Sx Hx Ho. pose proof D as (Q & Ei & Eo & Ev & Eh & SV & SU & SM & SD). pose proof Q as (Qd & Qh & Qw & Qv & Qs & _).
  set (I := fun m' : mem T => holds m' (t_data x) (q_d q * q_h q * q_w q) xv).
  assert (St : forall m m', only (mine LL) m m' -> I m -> I m').
  { intros m1 m2 O. unfold I. intros P. exact (outside_holds _ _ LL _ _ _ _ O (fun b i h => h) Ho P). }
  set (fixed := fun r => r <> RValue /\ r <> RMask).
  set (Hz := fun c y z (r : role) o v => zfold (q_vs q) (fun i => zfold (q_hs q) (fun j (old : T) =>
     if is_cell RMask (at3 (q_h q) (q_w q) c (y * q_vs q + i) (z * q_hs q + j)) r o then zero else old)) v).
  set (Hv := fun c y z (r : role) o (v : T) => if is_cell RValue (at3 (q_oh q) (q_ow q) c y z) r o then window_max q xv c y z else v).
  set (Ho' := fun c y z (r : role) o (v : T) => let w := window_scan q xv c y z in
     if is_cell RMask (at3 (q_h q) (q_w q) c (snd (fst w)) (snd w)) r o then one else v).
  set (H3 := fun c y z (r : role) o (v : T) => Ho' c y z r o (Hv c y z r o (Hz c y z r o v))).
  assert (C : cw LL fixed s I (pool_loops x)
     (fun r o v => zfold (q_d q) (fun c => zfold (q_oh q) (fun y => zfold (q_ow q) (fun z => H3 c y z r o))) v)).
  { unfold pool_loops, mstride. rewrite Ei, Ev, Eh. cbn [shape3 s_height s_width s_depth]. rewrite tiles_h, tiles_w by exact Q.
    apply (cw_for LL fixed s I St (q_d q) _ (fun c r o v => zfold (q_oh q) (fun y => zfold (q_ow q) (fun z => H3 c y z r o)) v)).
    intros c Hc.
    apply (cw_for LL fixed s I St (q_oh q) _ (fun y r o v => zfold (q_ow q) (fun z => H3 c y z r o) v)).
    intros y Hy.
    apply (cw_for LL fixed s I St (q_ow q) _ (fun z r o => H3 c y z r o)).
    intros z Hz'.
    pose proof (win_row q Q y 0 Hy ltac:(lia)) as R0. pose proof (win_col q Q z 0 Hz' ltac:(lia)) as C0. rewrite Z.add_0_r in R0, C0.
    eapply cw_read. { intros m1 s1 J. eapply ten_get_ok; [exact Sx|apply J|lia..]. }
    change (xv ((c * q_h q + y * q_vs q) * q_w q + z * q_hs q)) with (xv (at3 (q_h q) (q_w q) c (y * q_vs q) (z * q_hs q))).
    apply (cwv_bind LL fixed s I St _ _ (window_scan q xv c y z) (Hz c y z) _ (fun r o v => Ho' c y z r o (Hv c y z r o v))).
    - unfold window_scan, Hz.
      apply (cwv_fold LL fixed s I St _ (y * q_vs q) (q_vs q) _ _ _ (fun i r o v => zfold (q_hs q) (fun j (old : T) =>
        if is_cell RMask (at3 (q_h q) (q_w q) c (y * q_vs q + i) (z * q_hs q + j)) r o then zero else old) v)).
      intros i a0 Hi.
      apply (cwv_fold LL fixed s I St _ (z * q_hs q) (q_hs q) _ _ _ (fun j r o old =>
        if is_cell RMask (at3 (q_h q) (q_w q) c (y * q_vs q + i) (z * q_hs q + j)) r o then zero else old)).
      intros j b Hj. pose proof (win_row q Q y i Hy Hi). pose proof (win_col q Q z j Hz' Hj).
      eapply cwv_read. { intros m1 s1 J. eapply ten_get_ok; [exact Sx|apply J|lia..]. }
      cbv zeta. apply cwv_of. apply cw_ten_set with (d := q_d q); auto. unfold fixed. tauto.
    - apply cw_seq; [exact St| |].
      + rewrite !Z.div_mul by lia. apply cw_ten_set with (d := q_d q); auto. unfold fixed. tauto.
      + unfold Ho'. destruct (scan_in q xv c y z Q) as (i & j & Hi & Hj & ->). cbn [fst snd].
        pose proof (win_row q Q y i Hy Hi). pose proof (win_col q Q z j Hz' Hj).
        apply cw_ten_set with (d := q_d q); auto. unfold fixed. tauto. }
  destruct C as [_ C]. eapply wp_conseq; [apply (C m s)|].
  { split; [exact H|]. split; [exact Hx|reflexivity]. }
  intros [] m1 [A O1]. split; [|exact O1].
  assert (HzM : forall c y z r o v, r <> RMask -> Hz c y z r o v = v).
  { intros. unfold Hz. apply zfold_miss. intros i v' _. apply zfold_miss. intros j v2 _. now rewrite is_cell_role. }
  assert (HoM : forall c y z r o v, r <> RMask -> Ho' c y z r o v = v) by (intros; unfold Ho'; cbv zeta; now rewrite is_cell_role).
  assert (HvM : forall c y z r o v, r <> RValue -> Hv c y z r o v = v) by (intros; unfold Hv; now rewrite is_cell_role).
  eapply layer_at_ext; [exact A|]. intros r t o Pr Hr. cbv beta.
  destruct (role_eq_dec r RValue) as [->|N1]; [|destruct (role_eq_dec r RMask) as [->|N2]].
  - rewrite set_role_same. injection Pr as <-. pose proof SV as (_ & _ & _ & Es & _). rewrite Es in Hr.
    destruct (off3_split (q_d q) (q_oh q) (q_ow q) o ltac:(lia) ltac:(lia) ltac:(lia) Hr) as (f & y & z & Hf & Hy & Hz' & ->).
    change ((f * q_oh q + y) * q_ow q + z) with (at3 (q_oh q) (q_ow q) f y z). rewrite flat3_at by auto.
    rewrite <- (zfold3_store RValue (q_oh q) (q_ow q) (window_max q xv) (q_d q) (q_oh q) (q_ow q) (s RValue (at3 (q_oh q) (q_ow q) f y z)) f y z); auto; try lia.
    apply zfold_ext. intros c' v' _. apply zfold_ext. intros y' v2 _. apply zfold_ext. intros z' v3 _.
    unfold H3. rewrite HoM, HzM by discriminate. reflexivity.
  - rewrite set_role_other, set_role_same by discriminate. injection Pr as <-. pose proof SM as (_ & _ & _ & Es & Dd & Dh & Dw & _). rewrite Es in Hr.
    destruct (off3_split (q_d q) (q_h q) (q_w q) o ltac:(lia) ltac:(lia) ltac:(lia) Hr) as (c & i & j & Hc & Hi & Hj & ->).
    change ((c * q_h q + i) * q_w q + j) with (at3 (q_h q) (q_w q) c i j). unfold pool_mask. rewrite flat3_at by auto.
    pose proof (row_win q Q i Hi) as Wi. pose proof (col_win q Q j Hj) as Wj.
    pose proof (Z.div_mod i (q_vs q) ltac:(lia)) as Ei'. pose proof (Z.mod_pos_bound i (q_vs q) Qv) as Bi.
    pose proof (Z.div_mod j (q_hs q) ltac:(lia)) as Ej'. pose proof (Z.mod_pos_bound j (q_hs q) Qs) as Bj.
    assert (Cell : forall c' i' j' (u v : T), 0 <= i' < q_h q -> 0 <= j' < q_w q ->
      (if is_cell RMask (at3 (q_h q) (q_w q) c' i' j') RMask (at3 (q_h q) (q_w q) c i j) then u else v) = if (c' =? c) && ((i =? i') && (j =? j')) then u else v).
    { intros c' i' j' u v Hi' Hj'. destruct (Z.eqb_spec c' c) as [->|]; [destruct (Z.eqb_spec i i') as [->|]; [destruct (Z.eqb_spec j j') as [->|]|]|]; cbn [andb];
        [now rewrite is_cell_true|unfold at3; rewrite is_cell_off3 by (auto; congruence); reflexivity..]. }
    assert (Miss : forall c' y' z' v, 0 <= y' < q_oh q -> 0 <= z' < q_ow q -> (c', y', z') <> (c, i / q_vs q, j / q_hs q) ->
       H3 c' y' z' RMask (at3 (q_h q) (q_w q) c i j) v = v).
    { intros c' y' z' v Hy' Hz' Ne. unfold H3. rewrite HvM by discriminate.
      assert (M : forall i' j', 0 <= i' < q_vs q -> 0 <= j' < q_hs q -> (c' =? c) && ((i =? y' * q_vs q + i') && (j =? z' * q_hs q + j')) = false).
      { intros i' j' Hi' Hj'. destruct (Z.eqb_spec c' c) as [->|]; [|reflexivity]. destruct (Z.eqb_spec i (y' * q_vs q + i')) as [E1|]; [|reflexivity].
        destruct (Z.eqb_spec j (z' * q_hs q + j')) as [E2|]; [|reflexivity]. exfalso. apply Ne. rewrite E1, E2.
        rewrite !Z.div_add_l, !Z.div_small by lia. now rewrite !Z.add_0_r. }
      replace (Hz c' y' z' RMask (at3 (q_h q) (q_w q) c i j) v) with v.
      - unfold Ho'. cbv zeta. destruct (scan_in q xv c' y' z' Q) as (i' & j' & Hi' & Hj' & ->). cbn [fst snd].
        rewrite Cell, M by (auto; first [apply (win_row q Q)|apply (win_col q Q)]; auto). reflexivity.
      - symmetry. unfold Hz. apply zfold_miss. intros i' v' Hi'. apply zfold_miss. intros j' v2 Hj'.
        rewrite Cell, M by (auto; first [apply (win_row q Q)|apply (win_col q Q)]; auto). reflexivity. }
    rewrite (zfold_hit _ c); [|auto|]. 2:{ intros c' v Hc' Nf. apply zfold_miss. intros y' v2 Hy'. apply zfold_miss. intros z' v3 Hz'. apply Miss; auto. congruence. }
    rewrite (zfold_hit _ (i / q_vs q)); [|auto|]. 2:{ intros y' v Hy' Nf. apply zfold_miss. intros z' v3 Hz'. apply Miss; auto. congruence. }
    rewrite (zfold_hit _ (j / q_hs q)); [|auto|]. 2:{ intros z' v Hz' Nf. apply Miss; auto. congruence. }
    unfold H3. rewrite HvM by discriminate.
    replace (Hz c (i / q_vs q) (j / q_hs q) RMask (at3 (q_h q) (q_w q) c i j) (s RMask (at3 (q_h q) (q_w q) c i j))) with (zero (T := T)).
    + unfold Ho', window_mask. cbv zeta. destruct (scan_in q xv c (i / q_vs q) (j / q_hs q) Q) as (i' & j' & Hi' & Hj' & ->). cbn [fst snd].
      rewrite Cell by (first [apply (win_row q Q)|apply (win_col q Q)]; auto). rewrite Z.eqb_refl. reflexivity.
    + unfold Hz. symmetry. rewrite (zfold_hit _ (i mod q_vs q)); [|auto|].
      2:{ intros i' v Hi' Ni. apply zfold_miss. intros j' v2 Hj'. rewrite Cell by (first [apply (win_row q Q)|apply (win_col q Q)]; auto).
          destruct (Z.eqb_spec i (i / q_vs q * q_vs q + i')); [lia|]. now rewrite andb_false_r. }
      rewrite (zfold_hit _ (j mod q_hs q)); [|auto|].
      2:{ intros j' v Hj' Nj. rewrite Cell by (first [apply (win_row q Q)|apply (win_col q Q)]; auto).
          destruct (Z.eqb_spec j (j / q_hs q * q_hs q + j')); [lia|]. now rewrite !andb_false_r. }
      rewrite Cell by (first [apply (win_row q Q)|apply (win_col q Q)]; auto). rewrite Z.eqb_refl.
      replace (i =? i / q_vs q * q_vs q + i mod q_vs q) with true by (symmetry; apply Z.eqb_eq; lia).
      replace (j =? j / q_hs q * q_hs q + j mod q_hs q) with true by (symmetry; apply Z.eqb_eq; lia). reflexivity.
  - rewrite !set_role_other by auto. apply zfold_miss. intros c v _. apply zfold_miss. intros y v2 _. apply zfold_miss. intros z v3 _.
    unfold H3. now rewrite HoM, HvM, HzM.
Qed.
Lemma wp_pool_forward a m s x xv :
  p_act L = Some a -> (a = SoftMax -> 0 < q_d q * q_oh q * q_ow q) -> layer_at m LL s ->
  ten_is x (q_d q) (q_h q) (q_w q) -> holds m (t_data x) (q_d q * q_h q * q_w q) xv -> outside LL (t_data x) ->
  wp (pool_forward L x) m (fun _ m' => layer_at m' LL (pool_after_forward a xv s) /\ only (fun b _ => block_in LL b) m m').
Proof.
  intros Ea Hsm H Sx Hx Ho. pose proof D as (Q & Ei & Eo & Ev & Eh & SV & SU & SM & SD).
  unfold pool_forward. fold (pool_loops x).
  apply wp_bind. eapply wp_conseq; [apply (wp_part_fill m LL s RMask (p_mask L) zero H eq_refl)|]. intros [] m1 [A1 O1].
  assert (O1' : only (fun b _ => block_in LL b) m m1) by (eapply only_weaken; [|exact O1]; cbn; intros; eapply block_at_in; eassumption).
  assert (Hx1 : holds m1 (t_data x) (q_d q * q_h q * q_w q) xv) by exact (outside_holds _ _ LL _ _ _ _ O1' (fun b i h => h) Ho Hx).
  apply wp_bind. eapply wp_conseq; [apply (wp_pool_loops m1 _ x xv A1 Sx Hx1 Ho)|]. intros [] m2 [A2 O2].
  rewrite Ea. cbn [with_act]. assert (Es : t_size (p_value L) = q_d q * q_oh q * q_ow q) by apply SV.
  assert (Eu : t_size (p_buff L) = q_d q * q_oh q * q_ow q) by apply SU.
  eapply wp_conseq.
  { eapply (wp_part_sets _ m2 LL _ RValue (p_value L) (act_val a (q_d q * q_oh q * q_ow q) (s RBuff))); [exact A2|reflexivity|].
    unfold call_f. rewrite Es, Eu. apply wp_act_f; auto.
    - eapply (part_room' _ _ _ RValue); [exact A2|reflexivity|auto].
    - pose proof (part_holds' _ _ _ RBuff _ _ A2 eq_refl Eu) as P. rewrite !set_role_other in P by discriminate. exact P.
    - right. eapply (part_disj _ _ _ RValue RBuff); [exact A2|reflexivity|reflexivity|discriminate]. }
  intros [] m3 [A3 O3]. split.
  - eapply layer_at_ext; [exact A3|]. intros. unfold pool_after_forward, set_role. repeat (destruct role_eq_dec; try congruence).
  - eapply only_trans; [exact O1'|]. eapply only_trans; [exact O2|]. eapply only_weaken; [|exact O3]. cbn; intros; eapply block_at_in; eassumption.
Qed.
(** *** backward *)
Definition pool_buff (a : activation) s (d : Z -> T) (o : Z) : T := mul (act_dval a (s RBuff) o) (d o).
Definition pool_delta (a : activation) s (d : Z -> T) (c i j : Z) : T :=
  mul (pool_buff a s d (at3 (q_oh q) (q_ow q) c (i / q_vs q) (j / q_hs q))) (s RMask (at3 (q_h q) (q_w q) c i j)).
Definition pool_after_backward (a : activation) (d : Z -> T) s : contents T :=
  set_role (set_role s RBuff (pool_buff a s d)) RDelta (flat3 (q_h q) (q_w q) (pool_delta a s d)).
Lemma wp_pool_backward a m s dt d :
  p_act L = Some a -> layer_at m LL s ->
  holds m (t_data dt) (q_d q * q_oh q * q_ow q) d -> outside LL (t_data dt) ->
  wp (pool_backward L dt) m (fun _ m' => layer_at m' LL (pool_after_backward a d s) /\ only (fun b _ => block_in LL b) m m').
Proof.
  intros Ea H Hd Ho. pose proof D as (Q & Ei & Eo & Ev & Eh & SV & SU & SM & SD). pose proof Q as (Qd & Qh & Qw & Qv & Qs & _).
  assert (Eu : t_size (p_buff L) = q_d q * q_oh q * q_ow q) by apply SU.
  unfold pool_backward. rewrite Ea. cbn [with_act].
  apply wp_bind. eapply wp_conseq.
  { eapply (wp_part_sets _ m LL s RBuff (p_buff L) (act_dval a (s RBuff))); [exact H|reflexivity|].
    unfold call_df. apply wp_act_df.
    - eapply (part_room _ _ _ RBuff); [exact H|reflexivity].
    - eapply (part_holds _ _ _ RBuff); [exact H|reflexivity].
    - now left. }
  intros [] m1 [A1 O1].
  assert (O1' : only (fun b _ => block_in LL b) m m1) by (eapply only_weaken; [|exact O1]; cbn; intros; eapply block_at_in; eassumption).
  assert (Hd1 := outside_holds _ _ LL _ _ _ _ O1' (fun b i h => h) Ho Hd).
  apply wp_bind. eapply wp_conseq.
  { eapply (wp_part_assign m1 LL _ RBuff (p_buff L) OpMul dt d); [exact A1|reflexivity|rewrite Eu; exact Hd1|].
    right. eapply (part_outside _ _ _ RBuff); [exact A1|reflexivity|auto]. }
  intros [] m2 [A2 O2].
  assert (A2' : layer_at m2 LL (set_role s RBuff (pool_buff a s d))).
  { eapply layer_at_ext; [exact A2|]. intros r t i _ _. unfold set_role. destruct (role_eq_dec r RBuff); [|reflexivity].
    destruct (role_eq_dec RBuff RBuff); [reflexivity|congruence]. }
  assert (O2' : only (fun b _ => block_in LL b) m1 m2) by (eapply only_weaken; [|exact O2]; cbn; intros; eapply block_at_in; eassumption).
  set (s2 := set_role s RBuff (pool_buff a s d)) in *.
  set (fixed := fun r => r <> RDelta). set (I := fun _ : mem T => True).
  assert (St : forall m m', only (mine LL) m m' -> I m -> I m') by (intros; exact Logic.I).
  set (loops := mfor 0 (s_depth (p_isize L)) _).
  assert (C : cw LL fixed s2 I loops
     (fun r o v => zfold (q_d q) (fun c => zfold (q_h q) (fun i => zfold (q_w q) (fun j old =>
        if is_cell RDelta (at3 (q_h q) (q_w q) c i j) r o then pool_delta a s d c i j else old))) v)).
  { unfold loops. rewrite Ei. cbn [shape3 s_height s_width s_depth].
    apply (cw_for LL fixed s2 I St (q_d q) _ (fun c r o v => zfold (q_h q) (fun i => zfold (q_w q) (fun j old =>
        if is_cell RDelta (at3 (q_h q) (q_w q) c i j) r o then pool_delta a s d c i j else old)) v)).
    intros c Hc.
    apply (cw_for LL fixed s2 I St (q_h q) _ (fun i r o v => zfold (q_w q) (fun j old =>
        if is_cell RDelta (at3 (q_h q) (q_w q) c i j) r o then pool_delta a s d c i j else old) v)).
    intros i Hi.
    apply (cw_for LL fixed s2 I St (q_w q) _ (fun j r o old =>
        if is_cell RDelta (at3 (q_h q) (q_w q) c i j) r o then pool_delta a s d c i j else old)).
    intros j Hj. rewrite Ev, Eh. pose proof (row_win q Q i Hi). pose proof (col_win q Q j Hj).
    eapply cw_read. { intros m' s1 J. eapply (inv_get LL fixed s2 I RBuff (p_buff L) (q_d q) (q_oh q) (q_ow q)); [exact J|unfold fixed; discriminate|reflexivity|exact SU|lia..]. }
    eapply cw_read. { intros m' s1 J. eapply (inv_get LL fixed s2 I RMask (p_mask L) (q_d q) (q_h q) (q_w q)); [exact J|unfold fixed; discriminate|reflexivity|exact SM|lia..]. }
    unfold s2. rewrite set_role_same, set_role_other by discriminate.
    apply cw_ten_set with (d := q_d q); auto. }
  destruct C as [_ C]. eapply wp_conseq; [apply (C m2 s2)|].
  { split; [exact A2'|]. split; [exact Logic.I|reflexivity]. }
  intros [] m3 [A O3]. split.
  2:{ eapply only_trans; [exact O1'|]. eapply only_trans; [exact O2'|exact O3]. }
  eapply layer_at_ext; [exact A|]. intros r t o Pr Hr. cbv beta. unfold pool_after_backward. fold s2.
  destruct (role_eq_dec r RDelta) as [->|Ne].
  - rewrite set_role_same. injection Pr as <-. pose proof SD as (_ & _ & _ & Es & Dd & Dh & Dw & _). rewrite Es in Hr.
    destruct (off3_split (q_d q) (q_h q) (q_w q) o ltac:(lia) ltac:(lia) ltac:(lia) Hr) as (c & i & j & Hc & Hi & Hj & ->).
    change ((c * q_h q + i) * q_w q + j) with (at3 (q_h q) (q_w q) c i j). rewrite flat3_at by auto.
    apply (zfold3_store RDelta (q_h q) (q_w q) (pool_delta a s d)); auto; lia.
  - rewrite set_role_other by auto. apply (zfold3_other RDelta r o (fun c i j => at3 (q_h q) (q_w q) c i j) (pool_delta a s d)); auto.
Qed.
End Train.
End Pool.

(** * Properties C73-C76: linear and polynomial regression *)
From Coq Require Import QArith Reals Lra.
From Verif Require Import Mem Scalar MemSpec MemLemmas Lique LiqueSpec LiqueProofs LiqueProofs2 Linear LinearProofs RSum InverseProofs
  OptimizerProofs PropLinear Regression RealSpec LossProofs Vjp LeastSquares RegressionProofs.
Open Scope Z_scope.

(** A regression object for samples of [n] numbers (degree [n]): it owns a vector of [n]+1 weights
    (initialised or not) in block [b]. *)
Definition reg_at {T} (m : mem T) (r : reg) (n : Z) (b : nat) : Prop :=
  r_N r = n + 1 /\ t_size (r_W r) = n + 1 /\ 0 <= n /\ n + 1 < 2 ^ 64 /\ t_data (r_W r) = Ptr b 0 /\ live m b (n + 1).
(** Every block allocated since [m] has been released. *)
Definition no_leak {T} (m m' : mem T) : Prop := forall b, (length m <= b < length m')%nat -> freed m' b.

(** The constructor and [reset] make such objects. *)
Lemma reg_new_at {T} `{Num T} (m : mem T) n : 0 <= n -> n + 1 < 2 ^ 64 ->
  exists r m', reg_new n m = Ok (r, m') /\ reg_at m' r n (length m) /\ preserves m m'.
Proof.
  intros Hn Hs. unfold reg_new, vec_new, bind, alloc, ret. rewrite u64_small by lia. cbn [shape1 s_size].
  eexists _, _. split; [reflexivity|]. split; [|apply keeps_app].
  repeat split; cbn; try lia. apply live_alloc. lia.
Qed.
Lemma reg_reset_at {T} `{Num T} (m : mem T) r k b n : reg_at m r k b -> 0 <= n -> n + 1 < 2 ^ 64 ->
  exists r' m', reg_reset r n m = Ok (r', m') /\ reg_at m' r' n (length m) /\ keeps (fun b' => b' = b) m m' /\ freed m' b.
Proof.
  intros (_ & _ & _ & _ & E & L) Hn Hs. unfold reg_reset, vec_resize. rewrite u64_small by lia. rewrite E.
  assert (Lb : liveb m b) by (eapply live_liveb; eauto). unfold bind. rewrite (free_live _ _ Lb). unfold alloc, ret.
  eexists _, _. split; [reflexivity|].
  assert (Hb : (b < length m)%nat) by (destruct Lb as [l El]; apply nth_error_Some; congruence).
  split; [|split].
  - split; [reflexivity|]. split; [unfold t_size; cbn [r_W t_shape shape3 s_size]; rewrite u64_small; lia|]. split; [lia|]. split; [lia|]. split; [cbn; now rewrite set_nth_length|].
    pose proof (live_alloc (set_nth b None m) (n + 1) ltac:(lia)) as Q. rewrite set_nth_length in Q. exact Q.
  - split; [rewrite app_length, set_nth_length; cbn; lia|]. intros b' Hb' Nb. rewrite nth_error_app1 by (now rewrite set_nth_length). apply nth_set_nth_other. congruence.
  - unfold freed. rewrite nth_error_app1 by (now rewrite set_nth_length). apply (freed_set m b Lb).
Qed.

(** ** training, common part *)
Lemma train_common (junk : R -> R) (m : mem R) r n b odata h y D (mk : M R tensor) :
  reg_at m r n b -> 0 <= h -> h * (n + 1) < 2 ^ 64 -> (n + 1) * (n + 1) < 2 ^ 64 ->
  t_size odata = h -> holds m (t_data odata) h y -> ~ owns_block (t_data odata) b ->
  (exists X m1, mk m = Ok (X, m1) /\ mat_is X h (n + 1) /\ made2 m h (n + 1) D (t_data X) m1) ->
  full_rank h (n + 1) D ->
  exists m' w, bind (T := R) mk (fun X => reg_solve (NT := Num_Rj junk) r X odata ;;; vec_destroy X) m = Ok (tt, m') /\
    holds m' (t_data (r_W r)) (n + 1) w /\ normal h (n + 1) D y w /\ keeps (fun b' => b' = b) m m' /\ no_leak m m' /\ reg_at m' r n b.
Proof.
  intros (EN & ET & Hn & Hs & EW & LW) Hh Hhn Hnn To Fo NO (X0 & m1 & E1 & HX & (PX & LX & FX & KX & NX)) FR.
  assert (Hb : (b < length m)%nat) by (destruct LW as (l & El & _); apply nth_error_Some; congruence).
  assert (LW1 : live m1 b (n + 1)). { destruct LW as (l & El & Ll). exists l. split; [|exact Ll]. destruct KX as [_ K]. rewrite K by (auto; lia). exact El. }
  destruct (reg_solve_ok junk m1 r X0 odata h (n + 1) D y (length m) b) as (m2 & w & E2 & F2 & Nw & K2 & L2 & Fr2); auto.
  { eapply keeps_holds; eauto. } { lia. }
  assert (LX2 : liveb m2 (length m)). { destruct LX as (l & El & _). exists l. destruct K2 as [_ K2]. rewrite K2 by lia. exact El. }
  exists (set_nth (length m) None m2), w. split.
  { erewrite bind_eq by exact E1. cbv beta. erewrite bind_eq by exact E2. cbv beta. unfold vec_destroy. rewrite PX. now apply free_live. }
  assert (Le : (length m1 <= length m2)%nat) by apply K2.
  assert (KW : forall b', (b' < length m)%nat -> nth_error (set_nth (length m) None m2) b' = nth_error m2 b') by (intros; apply nth_set_nth_other; lia).
  split.
  { intros i Hi. specialize (F2 i Hi). rewrite EW in *. cbn [elem] in *. unfold cell in *. rewrite KW by lia. exact F2. }
  split; [exact Nw|]. split.
  { split; [rewrite set_nth_length; lia|]. intros b' Hb' Nb. rewrite KW by auto. destruct K2 as [_ K2]. rewrite K2 by (auto; lia). destruct KX as [_ KX]. apply KX; auto. }
  split.
  { intros b' Hb'. rewrite set_nth_length in Hb'. destruct (Nat.eq_dec b' (length m)) as [->|]; [now apply freed_set|]. apply freed_set_other. apply Fr2. lia. }
  split; [exact EN|]. split; [exact ET|]. split; [exact Hn|]. split; [exact Hs|]. split; [exact EW|].
  destruct L2 as (l & El & Ll). exists l. split; [|exact Ll]. rewrite KW by exact Hb. exact El.
Qed.

(** ** C73.  [junk] is whatever a division by zero gives: it does not matter. *)
Theorem C73_linear_least_squares (junk : R -> R) (m : mem R) r n b idata odata h x y :
  reg_at m r n b -> h * (n + 1) < 2 ^ 64 -> (n + 1) * (n + 1) < 2 ^ 64 ->
  mat_is idata h n -> holds2 m (t_data idata) h n x ->
  t_size odata = h -> holds m (t_data odata) h y -> ~ owns_block (t_data odata) b ->
  (* full column rank: no weights but zero predict 0 for all samples *)
  (forall z, (forall i, 0 <= i < h -> linear_model n z (x i) = 0%R) -> forall j, 0 <= j <= n -> z j = 0%R) ->
  exists m' w, linreg_train (NT := Num_Rj junk) r idata odata m = Ok (tt, m') /\
    holds m' (t_data (r_W r)) (n + 1) w /\
    (* normal equations *)
    (rsum h (fun i => y i - linear_model n w (x i)) = 0)%R /\
    (forall j, 0 <= j < n -> (rsum h (fun i => x i j * (y i - linear_model n w (x i))) = 0)%R) /\
    (* the least sum of squares, and the only one *)
    (forall z, (sq_error h y (fun i => linear_model n w (x i)) <= sq_error h y (fun i => linear_model n z (x i)))%R) /\
    (forall z, (sq_error h y (fun i => linear_model n z (x i)) <= sq_error h y (fun i => linear_model n w (x i)))%R ->
       forall j, 0 <= j <= n -> z j = w j) /\
    keeps (fun b' => b' = b) m m' /\ no_leak m m' /\ reg_at m' r n b.
Proof.
  intros HR Hhn Hnn HI FI To Fo NO FR. pose proof HI as (_ & _ & _ & Hh & Hn & _). pose proof HR as (EN & _ & _ & Hs & _).
  assert (FR' : full_rank h (n + 1) (lin_D x)).
  { intros z Hz j Hj. apply FR; [|lia]. intros i Hi. rewrite <- (lin_fit n x z i Hn). now apply Hz. }
  destruct (train_common junk m r n b odata h y (lin_D x) (linreg_design (NT := Num_Rj junk) idata (n + 1))) as (m' & w & E & F & Nw & K & L & A); auto.
  { destruct (linreg_design_ok (NT := Num_Rj junk) m idata h n x HI Hhn Hs FI) as (X & m1 & E1 & HX & M). exists X, m1. split; [exact E1|]. split; [exact HX|exact M]. }
  exists m', w. split; [unfold linreg_train; rewrite EN; exact E|]. split; [exact F|].
  assert (Nw' : forall j, 0 <= j < n + 1 -> (rsum h (fun i => lin_D x i j * (y i - linear_model n w (x i))) = 0)%R).
  { intros j Hj. rewrite <- (Nw j Hj). apply rsum_ext. intros i _. now rewrite (lin_fit n x w i Hn). }
  assert (Sq : forall z, sq_error h y (fun i => linear_model n z (x i)) = sq_error h y (fit (n + 1) (lin_D x) z)).
  { intros z. unfold sq_error. apply rsum_ext. intros i _. now rewrite (lin_fit n x z i Hn). }
  split. { rewrite <- (Nw' 0 ltac:(lia)). apply rsum_ext. intros. unfold lin_D. cbn [Z.eqb]. lra. }
  split. { intros j Hj. rewrite <- (Nw' (j + 1) ltac:(lia)). apply rsum_ext. intros. unfold lin_D. destruct (Z.eqb_spec (j + 1) 0); [lia|]. do 2 f_equal. lia. }
  split. { intros z. rewrite !Sq. now apply least. }
  split. { intros z Hz j Hj. rewrite !Sq in Hz. apply (least_unique h (n + 1) (lin_D x) y w z FR' Nw Hz). lia. }
  auto.
Qed.

Lemma gpow_Rj junk (x : R) j : gpow (NT := Num_Rj junk) x j = (x ^ Z.to_nat j)%R.
Proof. unfold gpow. induction (Z.to_nat j) as [|k IH]; [reflexivity|]. cbn [Nat.iter nat_rect]. unfold Nat.iter in *. rewrite IH. cbn. ring. Qed.
Lemma gpow_R (x : R) j : gpow (NT := Num_R) x j = (x ^ Z.to_nat j)%R.
Proof. unfold gpow. induction (Z.to_nat j) as [|k IH]; [reflexivity|]. cbn [Nat.iter nat_rect]. unfold Nat.iter in *. rewrite IH. cbn. ring. Qed.
Lemma made2_ext {T} (m m' : mem T) h w f g p : (forall i j, f i j = g i j) -> made2 m h w f p m' -> made2 m h w g p m'.
Proof. intros E (A & B & C & D). split; [exact A|]. split; [exact B|]. split; [|exact D]. eapply holds2_ext; [|exact C]. auto. Qed.

(** ** C74 *)
Theorem C74_polynomial_least_squares (junk : R -> R) (m : mem R) r n b idata odata h x y :
  reg_at m r n b -> h * (n + 1) < 2 ^ 64 -> (n + 1) * (n + 1) < 2 ^ 64 ->
  t_size idata = h -> 0 <= h -> holds m (t_data idata) h x ->
  t_size odata = h -> holds m (t_data odata) h y -> ~ owns_block (t_data odata) b ->
  distinct_points h x (n + 1) ->
  exists m' w, polyreg_train (NT := Num_Rj junk) r idata odata m = Ok (tt, m') /\
    holds m' (t_data (r_W r)) (n + 1) w /\
    (forall z, (sq_error h y (fun i => poly_model n w (x i)) <= sq_error h y (fun i => poly_model n z (x i)))%R) /\
    (forall z, (sq_error h y (fun i => poly_model n z (x i)) <= sq_error h y (fun i => poly_model n w (x i)))%R ->
       forall j, 0 <= j <= n -> z j = w j) /\
    keeps (fun b' => b' = b) m m' /\ no_leak m m' /\ reg_at m' r n b.
Proof.
  intros HR Hhn Hnn Ti Hh FI To Fo NO DP. pose proof HR as (EN & _ & Hn & Hs & _).
  pose proof (poly_rank h n x Hn DP) as FR.
  destruct (train_common junk m r n b odata h y (poly_D x) (polyreg_train_design (NT := Num_Rj junk) idata (n + 1))) as (m' & w & E & F & Nw & K & L & A); auto.
  { destruct (polyreg_train_design_ok (NT := Num_Rj junk) m idata h n x Ti Hh Hn Hhn FI) as (X & m1 & E1 & HX & M). exists X, m1. split; [exact E1|]. split; [exact HX|].
    eapply made2_ext; [|exact M]. intros i j. apply gpow_Rj. }
  exists m', w. split; [unfold polyreg_train; rewrite EN; exact E|]. split; [exact F|].
  assert (Sq : forall z, sq_error h y (fun i => poly_model n z (x i)) = sq_error h y (fit (n + 1) (poly_D x) z)).
  { intros z. unfold sq_error. apply rsum_ext. intros i _. now rewrite (poly_fit n x z i). }
  split. { intros z. rewrite !Sq. now apply least. }
  split. { intros z Hz j Hj. rewrite !Sq in Hz. apply (least_unique h (n + 1) (poly_D x) y w z FR Nw Hz). lia. }
  auto.
Qed.

(** ** C75 *)
Section Predict.
Context {T : Type} `{NT : Num T}.
Implicit Types m : mem T.
(** the single-sample predictions, in the order the code adds them *)
Definition linear_value (n : Z) (w x : Z -> T) : T := zsum_from (w 0) n (fun j => mul (x j) (w (j + 1))).
Definition poly_value (n : Z) (w : Z -> T) (x : T) : T := zsum_from (w 0) n (fun j => mul (gpow x (j + 1)) (w (j + 1))).

Lemma zsum_shift n (f : Z -> T) : 0 <= n -> zsum (n + 1) f = zsum_from (add zero (f 0)) n (fun j => f (j + 1)).
Proof.
  revert n. apply (natlike_ind (fun n => zsum (n + 1) f = zsum_from (add zero (f 0)) n (fun j => f (j + 1)))).
  - change 1 with (0 + 1) at 1. reflexivity.
  - intros n Hn IH. unfold Z.succ. rewrite zsum_S, IH, zsum_from_S by lia. reflexivity.
Qed.
Lemma linreg_sample_ok m r n b w sample x : reg_at m r n b -> holds m (t_data (r_W r)) (n + 1) w -> holds m (t_data sample) n x ->
  linreg_sample r sample m = Ok (linear_value n w x, m).
Proof.
  intros (EN & _ & Hn & Hs & _) Hw Hx. unfold linreg_sample. unfold bind at 1. unfold tb_get at 1. rewrite (load_ok _ _ _ _ (Hw 0 ltac:(lia))). rewrite EN.
  assert (W : wp (mfold 1 (n + 1) (fun i result => let* x := tb_get sample (u64 (i - 1)) in let* w := tb_get (r_W r) i in ret (add result (mul x w))) (w 0)) m
     (fun v m' => m' = m /\ v = linear_value n w x)).
  { apply (wp_mfold _ 1 (n + 1) _ (fun i v m' => m' = m /\ v = zsum_from (w 0) (i - 1) (fun j => mul (x j) (w (j + 1))))); [lia|auto| |].
    - intros i v m' Hi (-> & ->). rewrite u64_small by lia. eapply wp_bind, wp_load; [apply Hx; lia|]. eapply wp_bind, wp_load; [apply Hw; lia|].
      apply wp_ret. split; [reflexivity|]. replace (i + 1 - 1) with (i - 1 + 1) by lia. rewrite zsum_from_S by lia. now replace (i - 1 + 1) with i by lia.
    - intros v m' (-> & ->). split; [reflexivity|]. unfold linear_value. f_equal. lia. }
  apply wp_elim in W as (v & m' & E & -> & ->). exact E.
Qed.
Lemma polyreg_sample_ok m r n b w x : reg_at m r n b -> holds m (t_data (r_W r)) (n + 1) w ->
  polyreg_sample r x m = Ok (poly_value n w x, m).
Proof.
  intros (EN & _ & Hn & Hs & _) Hw. unfold polyreg_sample. unfold bind at 1. unfold tb_get at 1. rewrite (load_ok _ _ _ _ (Hw 0 ltac:(lia))). rewrite EN.
  assert (W : wp (mfold 1 (n + 1) (fun i acc => let power := mul (snd acc) x in let* w := tb_get (r_W r) i in ret (add (fst acc) (mul power w), power)) (w 0, one)) m
     (fun v m' => m' = m /\ fst v = poly_value n w x)).
  { apply (wp_mfold _ 1 (n + 1) _ (fun i v m' => m' = m /\ fst v = zsum_from (w 0) (i - 1) (fun j => mul (gpow x (j + 1)) (w (j + 1))) /\ snd v = gpow x (i - 1))); [lia|auto| |].
    - intros i [v p] m' Hi (-> & Ev & Ep). cbn [fst snd] in *. subst v p. eapply wp_bind, wp_load; [apply Hw; lia|].
      apply wp_ret. split; [reflexivity|]. cbn [fst snd]. replace (i + 1 - 1) with (i - 1 + 1) by lia. rewrite zsum_from_S by lia. rewrite gpow_S by lia. replace (i - 1 + 1) with i by lia. auto.
    - intros v m' (-> & -> & _). split; [reflexivity|]. unfold poly_value. f_equal. lia. }
  apply wp_elim in W as (v & m' & E & -> & Ev). erewrite bind_eq by exact E. unfold ret. now rewrite Ev.
Qed.
(** multiplying the design matrix, releasing it *)
Lemma predict_common m r n b w h (D : Z -> Z -> T) (mk : M T tensor) : reg_at m r n b -> 0 <= h -> holds m (t_data (r_W r)) (n + 1) w ->
  (exists X m1, mk m = Ok (X, m1) /\ mat_is X h (n + 1) /\ made2 m h (n + 1) D (t_data X) m1) ->
  exists v m', bind (T := T) mk (fun X => let* y := lin_dot_mv_ret X (r_W r) in vec_destroy X ;;; ret y) m = Ok (v, m') /\
    t_size v = h /\ holds m' (t_data v) h (fun i => zsum (n + 1) (fun j => mul (D i j) (w j))) /\ t_data v = Ptr (S (length m)) 0 /\
    live m' (S (length m)) h /\ preserves m m' /\ (forall b', (length m <= b' < length m')%nat -> b' <> S (length m) -> freed m' b').
Proof.
  intros (EN & ET & Hn & Hs & EW & LW) Hh Hw (X & m1 & E1 & HX & (PX & LX & FX & KX & NX)).
  assert (Hw1 : holds m1 (t_data (r_W r)) (n + 1) w) by (eapply keeps_holds; eauto).
  destruct (C15_matrix_times_column_vector_ret X (r_W r) m1 h (n + 1) w D ET HX Hw1 FX) as (v & m2 & E2 & Tv & (Pv & Lv & Fv & Kv & Nv)).
  assert (LX2 : liveb m2 (length m)). { destruct LX as (l & El & _). exists l. destruct Kv as [_ Kv]. rewrite Kv by (auto; lia). exact El. }
  exists v, (set_nth (length m) None m2). split.
  { erewrite bind_eq by exact E1. cbv beta. erewrite bind_eq by exact E2. cbv beta. unfold vec_destroy. rewrite PX. unfold bind. rewrite (free_live _ _ LX2). reflexivity. }
  assert (KW : forall b', b' <> length m -> nth_error (set_nth (length m) None m2) b' = nth_error m2 b') by (intros; apply nth_set_nth_other; lia).
  split; [exact Tv|]. rewrite NX in *. split.
  { intros i Hi. specialize (Fv i Hi). rewrite Pv in *. cbn [elem] in *. unfold cell in *. rewrite KW by lia. exact Fv. }
  split; [exact Pv|]. split.
  { destruct Lv as (l & El & Ll). exists l. split; [|exact Ll]. rewrite KW by lia. exact El. }
  split.
  { split; [rewrite set_nth_length; lia|]. intros b' Hb' _. rewrite KW by lia. destruct Kv as [_ Kv]. rewrite Kv by (auto; lia). destruct KX as [_ KX]. apply KX; auto. }
  intros b' Hb' Nb. rewrite set_nth_length in Hb'. assert (b' = length m) as -> by lia. now apply freed_set.
Qed.

(** In any arithmetic in which [0 + 1 * a = a] (also floating point, up to the sign of zero), the
    batch gives bit for bit the single-sample predictions. *)
Theorem C75_linear_any_arithmetic m r n b w idata h x : (forall a : T, add zero (mul one a) = a) ->
  reg_at m r n b -> holds m (t_data (r_W r)) (n + 1) w -> h * (n + 1) < 2 ^ 64 -> mat_is idata h n -> holds2 m (t_data idata) h n x ->
  (forall sample v, holds m (t_data sample) n v -> linreg_sample r sample m = Ok (linear_value n w v, m)) /\
  exists p m', linreg_feedforward r idata m = Ok (p, m') /\ t_size p = h /\
    holds m' (t_data p) h (fun i => linear_value n w (x i)) /\ live m' (S (length m)) h /\ t_data p = Ptr (S (length m)) 0 /\
    preserves m m' /\ (forall b', (length m <= b' < length m')%nat -> b' <> S (length m) -> freed m' b').
Proof.
  intros Hid HR Hw Hhn HI FI. pose proof HR as (EN & _ & Hn & Hs & _). pose proof HI as (_ & _ & _ & Hh & _).
  split. { intros sample v Hv. eapply linreg_sample_ok; eauto. }
  destruct (predict_common m r n b w h (fun i j => if j =? 0 then one else x i (j - 1)) (linreg_design idata (n + 1)) HR Hh Hw) as (p & m' & E & Tp & Fp & Q).
  { destruct (linreg_design_ok m idata h n x HI Hhn Hs FI) as (X & m1 & E1 & HX & M). eauto. }
  exists p, m'. split; [unfold linreg_feedforward; rewrite EN; exact E|]. split; [exact Tp|]. split; [|tauto].
  eapply holds_ext; [|exact Fp]. intros i Hi. cbv beta. rewrite zsum_shift by lia. cbn [Z.eqb]. rewrite Hid. unfold linear_value. apply zsum_from_ext. intros j Hj.
  destruct (Z.eqb_spec (j + 1) 0); [lia|]. now replace (j + 1 - 1) with j by lia.
Qed.
Theorem C75_polynomial_any_arithmetic m r n b w idata h x : (forall a : T, add zero (mul one a) = a) ->
  reg_at m r n b -> holds m (t_data (r_W r)) (n + 1) w -> h * (n + 1) < 2 ^ 64 -> t_size idata = h -> 0 <= h -> holds m (t_data idata) h x ->
  (forall v, polyreg_sample r v m = Ok (poly_value n w v, m)) /\
  exists p m', polyreg_feedforward r idata m = Ok (p, m') /\ t_size p = h /\
    holds m' (t_data p) h (fun i => poly_value n w (x i)) /\ live m' (S (length m)) h /\ t_data p = Ptr (S (length m)) 0 /\
    preserves m m' /\ (forall b', (length m <= b' < length m')%nat -> b' <> S (length m) -> freed m' b').
Proof.
  intros Hid HR Hw Hhn Ti Hh FI. pose proof HR as (EN & _ & Hn & Hs & _).
  split. { intros v. eapply polyreg_sample_ok; eauto. }
  destruct (predict_common m r n b w h (fun i => gpow (x i)) (polyreg_design idata (n + 1)) HR Hh Hw) as (p & m' & E & Tp & Fp & Q).
  { exact (polyreg_design_ok m idata h n x Ti Hh Hn Hhn FI). }
  exists p, m'. split; [unfold polyreg_feedforward; rewrite EN; exact E|]. split; [exact Tp|]. split; [|tauto].
  eapply holds_ext; [|exact Fp]. intros i Hi. cbv beta. rewrite zsum_shift by lia. rewrite gpow_0, Hid. reflexivity.
Qed.
End Predict.

(** In exact arithmetic: the formulas of the linear and of the polynomial model. *)
Lemma linear_value_R n w x : linear_value n w x = linear_model n w x.
Proof. unfold linear_value, linear_model. rewrite zsum_from_R. f_equal. change (rsum n (fun j => (x j * w (j + 1)%Z)%R) = rsum n (fun j => (w (j + 1)%Z * x j)%R)). apply rsum_ext. intros. lra. Qed.
Lemma poly_value_R n w x : 0 <= n -> poly_value n w x = poly_model n w x.
Proof.
  intros Hn. unfold poly_value, poly_model. rewrite zsum_from_R. rewrite (Z.add_comm n 1), rsum_add_range by lia.
  replace (rsum 1 (fun j => (w j * x ^ Z.to_nat j)%R)) with (w 0).
  - f_equal. change (rsum n (fun j => (gpow x (j + 1) * w (j + 1)%Z)%R) = rsum n (fun i => (w (1 + i)%Z * x ^ Z.to_nat (1 + i))%R)). apply rsum_ext. intros j Hj. rewrite gpow_R. rewrite (Z.add_comm j 1). lra.
  - change 1 with (0 + 1). rewrite rsum_S, rsum_0 by lia. change (Z.to_nat 0) with O. cbn [pow]. lra.
Qed.
Lemma Hone (a : R) : add zero (mul one a) = a.
Proof. change (0 + 1 * a = a)%R. lra. Qed.
Theorem C75_linear (m : mem R) r n b w idata h x :
  reg_at m r n b -> holds m (t_data (r_W r)) (n + 1) w -> h * (n + 1) < 2 ^ 64 -> mat_is idata h n -> holds2 m (t_data idata) h n x ->
  (forall sample v, holds m (t_data sample) n v -> linreg_sample r sample m = Ok (linear_model n w v, m)) /\
  exists p m', linreg_feedforward r idata m = Ok (p, m') /\ t_size p = h /\
    holds m' (t_data p) h (fun i => linear_model n w (x i)) /\ preserves m m'.
Proof.
  intros HR Hw Hhn HI FI. destruct (C75_linear_any_arithmetic m r n b w idata h x Hone HR Hw Hhn HI FI) as (S & p & m' & E & Tp & Fp & _ & _ & K & _).
  split. { intros sample v Hv. rewrite S with (v := v) by exact Hv. now rewrite linear_value_R. }
  exists p, m'. split; [exact E|]. split; [exact Tp|]. split; [|exact K]. eapply holds_ext; [|exact Fp]. intros. apply linear_value_R.
Qed.
Theorem C75_polynomial (m : mem R) r n b w idata h x :
  reg_at m r n b -> holds m (t_data (r_W r)) (n + 1) w -> h * (n + 1) < 2 ^ 64 -> t_size idata = h -> 0 <= h -> holds m (t_data idata) h x ->
  (forall v, polyreg_sample r v m = Ok (poly_model n w v, m)) /\
  exists p m', polyreg_feedforward r idata m = Ok (p, m') /\ t_size p = h /\
    holds m' (t_data p) h (fun i => poly_model n w (x i)) /\ preserves m m'.
Proof.
  intros HR Hw Hhn Ti Hh FI. pose proof HR as (_ & _ & Hn & _).
  destruct (C75_polynomial_any_arithmetic m r n b w idata h x Hone HR Hw Hhn Ti Hh FI) as (S & p & m' & E & Tp & Fp & _ & _ & K & _).
  split. { intros v. rewrite S. now rewrite poly_value_R. }
  exists p, m'. split; [exact E|]. split; [exact Tp|]. split; [|exact K]. eapply holds_ext; [|exact Fp]. intros. now apply poly_value_R.
Qed.

(** ** C76 *)
(** with a temporary the weights arrive and the temporary is released *)
Theorem C76_temporary_partial {T} `{NT : Num T} (m : mem T) r n b weight bt w :
  reg_at m r n b -> t_data weight = Ptr bt 0 -> live m bt (n + 1) -> holds m (t_data weight) (n + 1) w -> bt <> b ->
  exists m', reg_init_temporary r weight m = Ok (tt, m') /\ holds m' (t_data (r_W r)) (n + 1) w /\ freed m' bt /\
    keeps (fun b' => b' = b \/ b' = bt) m m' /\ length m' = length m /\ reg_at m' r n b.
Proof.
  intros (EN & ET & Hn & Hs & EW & LW) Et Lt Hw Nb. unfold reg_init_temporary, reg_init_body, tb_copy. rewrite ET.
  assert (W : wp (detail_copy (t_data (r_W r)) (n + 1) (t_data weight)) m (fun _ => sets (t_data (r_W r)) (n + 1) w m)).
  { apply wp_detail_copy; [| exact Hw|right; rewrite EW, Et; apply disjoint_blocks; auto].
    rewrite EW. destruct LW as (l & El & Ll). intros i Hi. cbn. unfold cell. rewrite El. destruct (znth_some _ l i) as [c ->]; [lia|discriminate]. }
  destruct (wp_elim _ _ _ _ W) as ([] & m1 & E1 & F1 & O1).
  assert (Lt1 : liveb m1 bt) by (eapply liveb_only; [exact O1|]; eapply live_liveb; eauto).
  exists (set_nth bt None m1). split. { erewrite bind_eq by exact E1. cbv beta. unfold vec_destroy. rewrite Et. now apply free_live. }
  assert (KW : forall b', b' <> bt -> nth_error (set_nth bt None m1) b' = nth_error m1 b') by (intros; apply nth_set_nth_other; congruence).
  assert (Ln : length m1 = length m) by (destruct O1 as [Sk _]; now apply skel_length in Sk).
  split. { intros i Hi. specialize (F1 i Hi). rewrite EW in *. cbn [elem] in *. unfold cell in *. rewrite KW by congruence. exact F1. }
  split; [now apply freed_set|]. split.
  { split; [rewrite set_nth_length; lia|]. intros b' Hb' Nb'. rewrite KW by tauto. apply (only_block _ m m1 b' O1). intros i. rewrite EW. cbn. intros [-> _]. tauto. }
  split; [rewrite set_nth_length; exact Ln|]. split; [exact EN|]. split; [exact ET|]. split; [exact Hn|]. split; [exact Hs|]. split; [exact EW|].
  destruct (live_skel m m1 b (n + 1)) as (l & El & Ll); [apply O1|exact LW|]. exists l. split; [|exact Ll]. rewrite KW by congruence. exact El.
Qed.
(** with an lvalue the parameter's copy is never filled: every such call reads uninitialised memory *)
Theorem C76_lvalue_refuted {T} `{NT : Num T} (m : mem T) r n b weight :
  reg_at m r n b -> t_size weight = n + 1 -> reg_init_lvalue r weight m = UB UninitRead.
Proof.
  intros (EN & ET & Hn & Hs & EW & LW) Et. unfold reg_init_lvalue, vec_copy_ctor, reg_init_body, tb_copy, tb_copy_ptr, detail_copy.
  change (t_size (with_data tb_default (Ptr (length m) 0))) with 0.
  unfold bind at 1 2. unfold alloc. cbv beta iota. change (t_size (with_data tb_default (Ptr (length m) 0))) with 0. rewrite mfor_empty by lia. unfold ret at 1. unfold bind at 1. unfold ret at 1. rewrite ET, Et.
  unfold bind at 1. unfold mfor at 1, mfold. replace (Z.to_nat (n + 1 - 0)) with (S (Z.to_nat n)) by lia. cbn [mfold_n]. unfold bind at 1 2.
  unfold load. change (t_data (with_data tb_default (Ptr (length m) 0))) with (Ptr (length m) 0). cbv iota. rewrite nth_error_app2, Nat.sub_diag by lia. cbn [nth_error].
  replace (Z.to_nat (n + 1)) with (S (Z.to_nat n)) by lia. reflexivity.
Qed.

Module Examples.
(** three samples of one number: 0, 1, 2 with targets 1, 3, 6 (weights 5/6, 5/2), over Q *)
Open Scope Q_scope.
Definition mQ : mem Q := [Some (repeat None 2); Some (map Some [0;1;2]); Some (map Some [1;3;6])].
Definition rQ : reg := mk_reg (mk_tensor (Ptr 0 0) (shape1 2)) 2.
Definition iQ := mk_tensor (Ptr 1 0) (shape2 3 1).
Definition oQ := mk_tensor (Ptr 2 0) (shape1 3).
Definition weights (x : res (unit * mem Q)) : option (option (list (option Q))) := match x with Ok (_, m') => nth_error m' 0 | UB _ => None end.
Example run_linear : match weights (linreg_train rQ iQ oQ mQ) with Some (Some [Some a; Some b]) => (Qeq_bool a (5#6) && Qeq_bool b (5#2))%bool = true | _ => False end.
Proof. vm_compute. reflexivity. Qed.
Example run_poly : match weights (polyreg_train rQ (mk_tensor (Ptr 1 0) (shape1 3)) oQ mQ) with Some (Some [Some a; Some b]) => (Qeq_bool a (5#6) && Qeq_bool b (5#2))%bool = true | _ => False end.
Proof. vm_compute. reflexivity. Qed.
(** degree 2 through the three points: 1 + 3/2 x + 1/2 x^2 *)
Definition m2 : mem Q := [Some (repeat None 3); Some (map Some [0;1;2]); Some (map Some [1;3;6])].
Example run_poly2 : match weights (polyreg_train (mk_reg (mk_tensor (Ptr 0 0) (shape1 3)) 3) (mk_tensor (Ptr 1 0) (shape1 3)) oQ m2) with
  Some (Some [Some a; Some b; Some c]) => (Qeq_bool a 1 && Qeq_bool b (3#2) && Qeq_bool c (1#2))%bool = true | _ => False end.
Proof. vm_compute. reflexivity. Qed.
Close Scope Q_scope.
(** the hypotheses of C73 and C74 on the same data over R *)
Definition mR : mem R := [Some (repeat None 2); Some (map Some [0;1;2]%R); Some (map Some [1;3;6]%R)].
Definition xR (i j : Z) : R := nth (Z.to_nat (i * 1 + j)) [0;1;2]%R 0%R.
Example hyp_C73 : reg_at mR rQ 1 0 /\ 3 * (1 + 1) < 2 ^ 64 /\ mat_is iQ 3 1 /\ holds2 mR (t_data iQ) 3 1 xR /\
  t_size oQ = 3 /\ holds mR (t_data oQ) 3 (fun i => nth (Z.to_nat i) [1;3;6]%R 0%R) /\ ~ owns_block (t_data oQ) 0 /\
  (forall z, (forall i, 0 <= i < 3 -> linear_model 1 z (xR i) = 0%R) -> forall j, 0 <= j <= 1 -> z j = 0%R).
Proof.
  split. { split; [reflexivity|]. split; [reflexivity|]. split; [lia|]. split; [lia|]. split; [reflexivity|]. exists (repeat None 2). split; reflexivity. }
  split; [lia|]. split. { unfold mat_is. vm_compute. repeat split; congruence. }
  split. { apply PropLinear.Examples.holds2_list; auto; lia. }
  split; [reflexivity|]. split; [exact (holds_list mR 2 [1;3;6]%R 0%R eq_refl)|]. split; [cbn; lia|].
  intros z Hz j Hj. pose proof (Hz 0 ltac:(lia)) as H0. pose proof (Hz 1 ltac:(lia)) as H1. unfold linear_model, xR in *.
  change (rsum 1) with (rsum (0 + 1)) in *. rewrite rsum_S, rsum_0 in * by lia. cbn [Z.add Z.mul Z.to_nat nth] in *.
  change (Pos.to_nat (1 * 1)) with 1%nat in *. cbv iota in H1.
  assert (j = 0 \/ j = 1) as [-> | ->] by lia; lra.
Qed.
Example hyp_C74 : distinct_points 3 (fun i => nth (Z.to_nat i) [0;1;2]%R 0%R) (2 + 1).
Proof.
  exists [0;1;2]%R. split.
  { repeat constructor; cbn; lra. }
  split; [reflexivity|]. intros a [<- | [<- | [<- | []]]]; [exists 0|exists 1|exists 2]; split; try lia; reflexivity.
Qed.
(** hypotheses of C75/C76: an object with weights, a temporary weight vector *)
Definition mW : mem R := [Some (map Some [4;5]%R); Some (map Some [0;1;2]%R); Some (map Some [7;8]%R)].
Definition tmpW := mk_tensor (Ptr 2 0) (shape1 2).
Example hyp_C75_C76 : reg_at mW rQ 1 0 /\ holds mW (t_data (r_W rQ)) 2 (fun i => nth (Z.to_nat i) [4;5]%R 0%R) /\
  t_data tmpW = Ptr 2 0 /\ live mW 2 2 /\ holds mW (t_data tmpW) 2 (fun i => nth (Z.to_nat i) [7;8]%R 0%R) /\ t_size tmpW = 2.
Proof.
  split. { split; [reflexivity|]. split; [reflexivity|]. split; [lia|]. split; [lia|]. split; [reflexivity|]. exists (map Some [4;5]%R). split; reflexivity. }
  split; [exact (holds_list mW 0 [4;5]%R 0%R eq_refl)|]. split; [reflexivity|]. split; [exists (map Some [7;8]%R); split; reflexivity|].
  split; [exact (holds_list mW 2 [7;8]%R 0%R eq_refl)|reflexivity].
Qed.
End Examples.

Print Assumptions C73_linear_least_squares.
Print Assumptions C74_polynomial_least_squares.
Print Assumptions C75_linear.
Print Assumptions C75_polynomial.
Print Assumptions C75_linear_any_arithmetic.
Print Assumptions C75_polynomial_any_arithmetic.
Print Assumptions C76_temporary_partial.
Print Assumptions C76_lvalue_refuted.

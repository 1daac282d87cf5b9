(** * Property C127: programs that use a regression, in any arithmetic *)
From Coq Require Import Reals Lra FinFun.
From Verif Require Import Mem Scalar MemSpec MemLemmas Lique LiqueSpec LiqueProofs LiqueProofs2 Linear LinearProofs RSum InverseProofs
  OptimizerProofs PropLinear Functions FunctionSpec FunctionProofs Cells Checker Regression RealSpec LossProofs Vjp LeastSquares RegressionProofs
  PropRegression RegSolve RegSession.
Open Scope Z_scope.

(** ** Specification: what each call of a program does, in terms of the numbers *)
Section Spec.
Context {T : Type} `{NT : Num T}.
(** row [i] of the samples is [xs i]; a sample of a polynomial regression is the one number [xs i 0] *)
Definition features (k : rkind) (xs : Z -> Z -> T) (i j : Z) : T :=
  match k with RLinear => if j =? 0 then one else xs i (j - 1) | RPolynomial => gpow (xs i 0) j end.
Definition prediction (k : rkind) (n : Z) (w : Z -> T) (xs : Z -> Z -> T) (i : Z) : T := zsum (n + 1) (fun j => mul (features k xs i j) (w j)).
Definition indices (h : Z) : list Z := map Z.of_nat (seq 0 (Z.to_nat h)).
(** data lie in memory that existed at the start and outside of the object's own block *)
Definition outside (m0 : mem T) (b0 : nat) (p : ptr) : Prop := forall b, owns_block p b -> (b < length m0)%nat /\ b <> b0.
Definition samples (m0 : mem T) (b0 : nat) (k : rkind) (n : Z) (x : tensor) (h : Z) (xs : Z -> Z -> T) : Prop :=
  0 <= h /\ h * (n + 1) < 2 ^ 64 /\ outside m0 b0 (t_data x) /\
  match k with
  | RLinear => mat_is x h n /\ holds2 m0 (t_data x) h n xs
  | RPolynomial => t_size x = h /\ holds m0 (t_data x) h (fun i => xs i 0)
  end.
Definition targets (m0 : mem T) (b0 : nat) (y : tensor) (h : Z) (ys : Z -> T) : Prop := outside m0 b0 (t_data y) /\ t_size y = h /\ holds m0 (t_data y) h ys.
Inductive expected : Type := ENone | EVector (h : Z) (f : Z -> T) | ENumber (v : T) | ECount (c : Z) | EFlag (b : bool).
(** State: the size (degree) and the weights, if there are any yet. *)
Inductive expects (m0 : mem T) (b0 : nat) (k : rkind) : Z * option (Z -> T) -> rcall T -> Z * option (Z -> T) -> expected -> Prop :=
| x_train n ow x y h xs ys : samples m0 b0 k n x h xs -> targets m0 b0 y h ys -> (n + 1) * (n + 1) < 2 ^ 64 ->
    expects m0 b0 k (n, ow) (CTrain x y) (n, Some (solution h (n + 1) (features k xs) ys)) ENone
| x_predict n w x h xs : samples m0 b0 k n x h xs -> expects m0 b0 k (n, Some w) (CPredict x) (n, Some w) (EVector h (prediction k n w xs))
| x_one n w s v : k = RLinear -> outside m0 b0 (t_data s) -> holds m0 (t_data s) n v ->
    expects m0 b0 k (n, Some w) (COne s) (n, Some w) (ENumber (linear_value n w v))
| x_point n w s : k = RPolynomial -> expects m0 b0 k (n, Some w) (CPoint s) (n, Some w) (ENumber (poly_value n w s))
| x_loss n w l x y h xs ys : samples m0 b0 k n x h xs -> targets m0 b0 y h ys ->
    expects m0 b0 k (n, Some w) (CLoss l x y) (n, Some w) (ENumber (loss_val l h ys (prediction k n w xs)))
| x_global n w x y e h xs ys : samples m0 b0 k n x h xs -> targets m0 b0 y h ys ->
    expects m0 b0 k (n, Some w) (CGlobal x y e) (n, Some w)
      (ECount (Z.of_nat (length (filter (fun i => ltb (nabs (sub (ys i) (prediction k n w xs i))) e) (indices h)))))
| x_full n w x y e h xs ys : samples m0 b0 k n x h xs -> targets m0 b0 y h ys ->
    expects m0 b0 k (n, Some w) (CFull x y e) (n, Some w)
      (EFlag (forallb (fun i => negb (ltb e (nabs (sub (ys i) (prediction k n w xs i))))) (indices h)))
| x_reset n ow n' : 0 <= n' -> n' + 1 < 2 ^ 64 -> expects m0 b0 k (n, ow) (CReset n') (n', None) ENone.
Inductive expects_all (m0 : mem T) (b0 : nat) (k : rkind) : Z * option (Z -> T) -> list (rcall T) -> Z * option (Z -> T) -> list expected -> Prop :=
| xs_nil s : expects_all m0 b0 k s [] s []
| xs_cons s c s1 e cs s2 es : expects m0 b0 k s c s1 e -> expects_all m0 b0 k s1 cs s2 es -> expects_all m0 b0 k s (c :: cs) s2 (e :: es).
(** the outcome that the caller sees; a returned vector belongs to the caller *)
Definition shows (m : mem T) (o : rout T) (e : expected) : Prop :=
  match o, e with
  | ODone, ENone => True
  | OVector v, EVector h f => t_size v = h /\ holds m (t_data v) h f /\ exists b, t_data v = Ptr b 0 /\ live m b h
  | ONumber a, ENumber v => a = v
  | OCount a, ECount c => a = c
  | OFlag a, EFlag b => a = b
  | _, _ => False
  end.
Definition vec_blocks (o : rout T) : list nat := match o with OVector v => match t_data v with Ptr b _ => [b] | Null => [] end | _ => [] end.
Definition weights_at (m : mem T) (r : reg) (n : Z) (ow : option (Z -> T)) : Prop := match ow with Some w => holds m (t_data (r_W r)) (n + 1) w | None => True end.
End Spec.
Arguments expected : clear implicits.

Section Proofs.
Context {T : Type} `{NT : Num T}.
Implicit Types m : mem T.
Lemma indices_S h : 0 <= h -> indices (h + 1) = indices h ++ [h].
Proof. intros H. unfold indices. replace (Z.to_nat (h + 1)) with (S (Z.to_nat h)) by lia. rewrite seq_S, map_app. cbn [map]. do 2 f_equal. lia. Qed.
Lemma zfold_count (P : Z -> bool) h : 0 <= h -> zfold h (fun i c => if P i then c + 1 else c) 0 = Z.of_nat (length (filter P (indices h))).
Proof.
  revert h. apply (natlike_ind (fun h => zfold h (fun i c => if P i then c + 1 else c) 0 = Z.of_nat (length (filter P (indices h))))); [reflexivity|].
  intros h Hh IH. unfold Z.succ. rewrite zfold_S, IH, indices_S, filter_app, app_length by lia. cbn [filter]. destruct (P h); cbn [length]; lia.
Qed.
Lemma zfold_all (P : Z -> bool) h : 0 <= h -> zfold h (fun i (ok : bool) => if ok then P i else false) true = forallb P (indices h).
Proof.
  revert h. apply (natlike_ind (fun h => zfold h (fun i (ok : bool) => if ok then P i else false) true = forallb P (indices h))); [reflexivity|].
  intros h Hh IH. unfold Z.succ. rewrite zfold_S, IH, indices_S, forallb_app by lia. cbn [forallb]. destruct (forallb P (indices h)); cbn; [now rewrite andb_true_r|reflexivity].
Qed.
Lemma guide_full_any h e z y m (zv yv : Z -> T) : 0 <= h -> t_size z = h -> holds m (t_data z) h zv -> holds m (t_data y) h yv ->
  guide_full z y e m = Ok (forallb (fun i => negb (ltb e (nabs (sub (zv i) (yv i))))) (indices h), m).
Proof.
  intros Hh Tz Hz Hy. unfold guide_full. rewrite Tz. rewrite <- zfold_all by exact Hh. apply (mfold_pure bool h _ (fun j ok => if ok : bool then negb (ltb e (nabs (sub (zv j) (yv j)))) else false)).
  intros i [|] Hi; [|reflexivity]. unfold bind. rewrite (load_ok _ _ _ _ (Hz i Hi)). rewrite (load_ok _ _ _ _ (Hy i Hi)). reflexivity.
Qed.
Lemma guide_global_any h e z y m (zv yv : Z -> T) : 0 <= h -> t_size z = h -> holds m (t_data z) h zv -> holds m (t_data y) h yv ->
  guide_global z y e m = Ok (Z.of_nat (length (filter (fun i => ltb (nabs (sub (zv i) (yv i))) e) (indices h))), m).
Proof.
  intros Hh Tz Hz Hy. unfold guide_global. rewrite Tz. rewrite <- zfold_count by exact Hh. apply (mfold_pure Z h _ (fun j c => if ltb (nabs (sub (zv j) (yv j))) e then c + 1 else c)).
  intros i c Hi. unfold bind. rewrite (load_ok _ _ _ _ (Hz i Hi)). rewrite (load_ok _ _ _ _ (Hy i Hi)). reflexivity.
Qed.

(** ** data stay where they are *)
Definition base (m0 : mem T) (b0 : nat) m (b : nat) : Prop := keeps (fun x => x = b0) m0 m /\ (b = b0 \/ (length m0 <= b)%nat).
Lemma base_holds m0 b0 m b p n v : base m0 b0 m b -> outside m0 b0 p -> holds m0 p n v -> holds m p n v.
Proof.
  intros [K _] O H i Hi. specialize (H i Hi). destruct p as [|c o]; [discriminate|]. cbn in *. destruct (O c eq_refl) as [_ Nc]. exact (keeps_cell (fun x => x = b0) m0 m c _ _ K Nc H).
Qed.
Lemma base_holds2 m0 b0 m b p h n v : base m0 b0 m b -> outside m0 b0 p -> holds2 m0 p h n v -> holds2 m p h n v.
Proof.
  intros [K _] O H i j Hi Hj. specialize (H i j Hi Hj). destruct p as [|c o]; [discriminate|]. cbn in *. destruct (O c eq_refl) as [_ Nc]. exact (keeps_cell (fun x => x = b0) m0 m c _ _ K Nc H).
Qed.
Lemma base_not_own m0 b0 m b p : base m0 b0 m b -> outside m0 b0 p -> ~ owns_block p b.
Proof. intros [_ Q] O H. destruct (O b H). lia. Qed.
Lemma base_step m0 b0 m b m' b' : base m0 b0 m b -> keeps (fun x => x = b) m m' -> (b' = b \/ b' = length m) -> base m0 b0 m' b'.
Proof.
  intros [[L K] Q] [L' K'] Q'. split; [split; [lia|]|lia]. intros x Hx Nx. rewrite K' by lia. now apply K.
Qed.
(** the design matrices *)
Lemma samples_design m0 b0 k m b r n x h (xs : Z -> Z -> T) : base m0 b0 m b -> reg_at m r n b -> samples m0 b0 k n x h xs ->
  exists X m1, match k with RLinear => linreg_design x (n + 1) | RPolynomial => polyreg_design x (n + 1) end m = Ok (X, m1) /\ mat_is X h (n + 1) /\ made2 m h (n + 1) (features k xs) (t_data X) m1.
Proof.
  intros B (_ & _ & Hn & Hs & _) (Hh & Hhn & O & D). destruct k; destruct D as [D1 D2].
  - apply linreg_design_ok; auto. eapply base_holds2; eauto.
  - apply (polyreg_design_ok m x h n (fun i => xs i 0)); auto. eapply base_holds; eauto.
Qed.
Lemma samples_train_design m0 b0 k m b r n x h (xs : Z -> Z -> T) : base m0 b0 m b -> reg_at m r n b -> samples m0 b0 k n x h xs ->
  exists X m1, match k with RLinear => linreg_design x (n + 1) | RPolynomial => polyreg_train_design x (n + 1) end m = Ok (X, m1) /\ mat_is X h (n + 1) /\ made2 m h (n + 1) (features k xs) (t_data X) m1.
Proof.
  intros B (_ & _ & Hn & Hs & _) (Hh & Hhn & O & D). destruct k; destruct D as [D1 D2].
  - apply linreg_design_ok; auto. eapply base_holds2; eauto.
  - apply (polyreg_train_design_ok m x h n (fun i => xs i 0)); auto. eapply base_holds; eauto.
Qed.
Lemma feed_ok m0 b0 k m b r n x h (xs : Z -> Z -> T) w : base m0 b0 m b -> reg_at m r n b -> holds m (t_data (r_W r)) (n + 1) w -> samples m0 b0 k n x h xs ->
  exists v m', reg_feedforward k r x m = Ok (v, m') /\ t_size v = h /\ holds m' (t_data v) h (prediction k n w xs) /\ t_data v = Ptr (S (length m)) 0 /\
    live m' (S (length m)) h /\ preserves m m' /\ (forall b', (length m <= b' < length m')%nat -> b' <> S (length m) -> freed m' b').
Proof.
  intros B HR Hw HS. pose proof (samples_design _ _ _ _ _ _ _ _ _ _ B HR HS) as D. pose proof HR as (EN & _). destruct HS as (Hh & _).
  destruct k; unfold reg_feedforward, linreg_feedforward, polyreg_feedforward; rewrite EN.
  - exact (predict_common m r n b w h (features RLinear xs) _ HR Hh Hw D).
  - exact (predict_common m r n b w h (features RPolynomial xs) _ HR Hh Hw D).
Qed.
Lemma train_ok m0 b0 k m b r n x y h (xs : Z -> Z -> T) ys : base m0 b0 m b -> reg_at m r n b -> samples m0 b0 k n x h xs -> targets m0 b0 y h ys -> (n + 1) * (n + 1) < 2 ^ 64 ->
  exists m', reg_train k r x y m = Ok (tt, m') /\ holds m' (t_data (r_W r)) (n + 1) (solution h (n + 1) (features k xs) ys) /\
    keeps (fun b' => b' = b) m m' /\ no_leak m m' /\ reg_at m' r n b.
Proof.
  intros B HR HS (Oy & Ty & Fy) Hnn. pose proof (samples_train_design _ _ _ _ _ _ _ _ _ _ B HR HS) as D. pose proof HR as (EN & _). destruct HS as (Hh & Hhn & _).
  destruct k; unfold reg_train, linreg_train, polyreg_train; rewrite EN;
    (apply train_any; auto; [eapply base_holds; eauto|eapply base_not_own; eauto]).
Qed.
(** a prediction used and released *)
Lemma use_ok {A} m0 b0 k m b r n x h (xs : Z -> Z -> T) w (f : tensor -> M T A) (a : A) :
  base m0 b0 m b -> reg_at m r n b -> holds m (t_data (r_W r)) (n + 1) w -> samples m0 b0 k n x h xs ->
  (forall v m', t_size v = h -> holds m' (t_data v) h (prediction k n w xs) -> base m0 b0 m' b -> f v m' = Ok (a, m')) ->
  exists m', bind (T := T) (reg_feedforward k r x) (fun p => let* v := f p in vec_destroy p ;;; ret v) m = Ok (a, m') /\ preserves m m' /\ no_leak m m'.
Proof.
  intros B HR Hw HS Hf. destruct (feed_ok _ _ _ _ _ _ _ _ _ _ _ B HR Hw HS) as (v & m1 & E & Tv & Fv & Pv & Lv & K & Fr).
  assert (Hb : (b < length m)%nat) by (destruct HR as (_ & _ & _ & _ & _ & l & El & _); apply nth_error_Some; congruence).
  assert (Lb : liveb m1 (S (length m))) by (eapply live_liveb; eauto).
  exists (set_nth (S (length m)) None m1). split.
  { erewrite bind_eq by exact E. cbv beta. erewrite bind_eq. 2:{ apply Hf; auto. eapply base_step; [exact B| |left; reflexivity]. eapply keeps_weaken; [|exact K]. intros ? []. }
    cbv beta. unfold vec_destroy. rewrite Pv. unfold bind. rewrite (free_live _ _ Lb). reflexivity. }
  destruct K as [Kl K]. split.
  - split; [rewrite set_nth_length; exact Kl|]. intros x0 Hx _. rewrite nth_set_nth_other by lia. now apply K.
  - intros x0 Hx. rewrite set_nth_length in Hx. destruct (Nat.eq_dec x0 (S (length m))) as [->|]; [now apply freed_set|]. apply freed_set_other. now apply Fr.
Qed.
Lemma reg_at_preserves m m' r n b : preserves m m' -> reg_at m r n b -> reg_at m' r n b.
Proof.
  intros [L K] (A1 & A2 & A3 & A4 & A5 & l & El & Ll). split; [exact A1|]. split; [exact A2|]. split; [exact A3|]. split; [exact A4|]. split; [exact A5|].
  exists l. split; [|exact Ll]. rewrite K; auto. apply nth_error_Some. congruence.
Qed.
Definition stepped m b (o : rout T) m' b' : Prop :=
  keeps (fun x => x = b) m m' /\ (b' = b \/ b' = length m /\ freed m' b) /\
  (forall x, (length m <= x < length m')%nat -> x = b' \/ In x (vec_blocks o) \/ freed m' x) /\
  (forall x, In x (vec_blocks o) -> (length m <= x < length m')%nat /\ x <> b').
Lemma stepped_same m b (o : rout T) m' : (b < length m)%nat -> preserves m m' -> no_leak m m' -> vec_blocks o = [] -> stepped m b o m' b.
Proof.
  intros Hb K N V. split; [eapply keeps_weaken; [|exact K]; intros ? []|]. split; [now left|]. rewrite V. split; [|intros x []]. intros x Hx. right. right. now apply N.
Qed.
Lemma step_ok m0 b0 k m b r n ow c n' ow' e : base m0 b0 m b -> reg_at m r n b -> weights_at m r n ow -> expects m0 b0 k (n, ow) c (n', ow') e ->
  exists r' o m' b', do_rcall k r c m = Ok ((r', o), m') /\ reg_at m' r' n' b' /\ weights_at m' r' n' ow' /\ shows m' o e /\ stepped m b o m' b'.
Proof.
  intros B HR Hw HE.
  assert (Hb : (b < length m)%nat) by (destruct HR as (_ & _ & _ & _ & _ & l & El & _); apply nth_error_Some; congruence).
  inversion HE; subst; cbn [do_rcall weights_at] in *; try match goal with H : samples _ _ _ _ _ _ _ |- _ => rename H into HS end; try match goal with H : targets _ _ _ _ _ |- _ => rename H into HT end.
  - destruct (train_ok _ _ _ _ _ _ _ _ _ _ _ _ B HR HS HT ltac:(assumption)) as (m' & E & F & K & N & A). exists r, ODone, m', b. split; [erewrite bind_eq by exact E; reflexivity|].
    split; [exact A|]. split; [exact F|]. split; [exact Logic.I|]. split; [exact K|]. split; [now left|]. split; [|intros x0 []]. intros x0 Hx. right. right. now apply N.
  - destruct (feed_ok _ _ _ _ _ _ _ _ _ _ _ B HR Hw HS) as (v & m' & E & Tv & Fv & Pv & Lv & K & Fr). exists r, (OVector v), m', b. split; [erewrite bind_eq by exact E; reflexivity|].
    split; [eapply reg_at_preserves; eauto|]. split; [eapply keeps_holds; eauto|]. split; [cbn [shows]; split; [exact Tv|split; [exact Fv|eauto]]|].
    assert (Lt : (S (length m) < length m')%nat) by (destruct Lv as (l & El & _); apply nth_error_Some; congruence).
    split; [eapply keeps_weaken; [|exact K]; intros ? []|]. split; [now left|]. cbn [vec_blocks]. rewrite Pv. split.
    + intros x0 Hx. right. destruct (Nat.eq_dec x0 (S (length m))) as [->|]; [left; now left|right; now apply Fr].
    + intros x0 [<- | []]. lia.
  - exists r, (ONumber (linear_value n' w v)), m, b. split.
    { erewrite bind_eq by (eapply linreg_sample_ok; eauto; eapply base_holds; eauto). reflexivity. }
    split; [exact HR|]. split; [exact Hw|]. split; [reflexivity|]. apply stepped_same; auto. { split; auto. } intros x0 Hx. lia.
  - exists r, (ONumber (poly_value n' w s)), m, b. split. { erewrite bind_eq by (eapply polyreg_sample_ok; eauto). reflexivity. }
    split; [exact HR|]. split; [exact Hw|]. split; [reflexivity|]. apply stepped_same; auto. { split; auto. } intros x0 Hx. lia.
  - pose proof HT as (Oy & Ty & Fy). pose proof HS as (Hh & _).
    destruct (use_ok m0 b0 k m b r n' x h xs w (fun p => loss_f l (t_size y) (t_data y) (t_data p)) (loss_val l h ys (prediction k n' w xs)) B HR Hw HS) as (m' & E & K & N).
    { intros v m1 Tv Fv B1. rewrite Ty. apply loss_f_ok; auto. eapply base_holds; eauto. }
    exists r, (ONumber (loss_val l h ys (prediction k n' w xs))), m', b. split; [unfold reg_loss; erewrite bind_eq by exact E; reflexivity|].
    split; [eapply reg_at_preserves; eauto|]. split; [eapply keeps_holds; eauto|]. split; [reflexivity|]. now apply stepped_same.
  - pose proof HT as (Oy & Ty & Fy). pose proof HS as (Hh & _).
    destruct (use_ok m0 b0 k m b r n' x h xs w (fun p => guide_global y p e0) (Z.of_nat (length (filter (fun i => ltb (nabs (sub (ys i) (prediction k n' w xs i))) e0) (indices h)))) B HR Hw HS) as (m' & E & K & N).
    { intros v m1 Tv Fv B1. apply (guide_global_any h e0 y v m1 ys _ Hh Ty); [eapply base_holds; eauto|exact Fv]. }
    eexists r, (OCount _), m', b. split; [unfold reg_global; erewrite bind_eq by exact E; reflexivity|].
    split; [eapply reg_at_preserves; eauto|]. split; [eapply keeps_holds; eauto|]. split; [reflexivity|]. now apply stepped_same.
  - pose proof HT as (Oy & Ty & Fy). pose proof HS as (Hh & _).
    destruct (use_ok m0 b0 k m b r n' x h xs w (fun p => guide_full y p e0) (forallb (fun i => negb (ltb e0 (nabs (sub (ys i) (prediction k n' w xs i))))) (indices h)) B HR Hw HS) as (m' & E & K & N).
    { intros v m1 Tv Fv B1. apply (guide_full_any h e0 y v m1 ys _ Hh Ty); [eapply base_holds; eauto|exact Fv]. }
    eexists r, (OFlag _), m', b. split; [unfold reg_full; erewrite bind_eq by exact E; reflexivity|].
    split; [eapply reg_at_preserves; eauto|]. split; [eapply keeps_holds; eauto|]. split; [reflexivity|]. now apply stepped_same.
  - destruct (reg_reset_at m r n b n' HR) as (r' & m' & E & A & K & F); auto. exists r', ODone, m', (length m). split; [erewrite bind_eq by exact E; reflexivity|].
    split; [exact A|]. split; [exact Logic.I|]. split; [exact Logic.I|]. split; [exact K|]. split; [right; auto|]. split; [|intros x []].
    intros x Hx. left. assert (length m' = S (length m)); [|lia]. revert E. destruct HR as (_ & _ & _ & _ & EW & l & El & _). unfold reg_reset, vec_resize. rewrite EW. unfold bind, free. rewrite El. cbv iota. unfold alloc, ret.
    intros Q. injection Q as <- <-. rewrite app_length, set_nth_length. cbn. lia.
Qed.
Lemma shows_keeps m m' b (o : rout T) e : keeps (fun x => x = b) m m' -> (forall x, In x (vec_blocks o) -> (x < length m)%nat /\ x <> b) -> shows m o e -> shows m' o e.
Proof.
  intros [L K] V. destruct o, e; cbn [shows vec_blocks] in *; auto. intros (Tv & F & bv & Pv & l & El & Ll). rewrite Pv in *. destruct (V bv (or_introl eq_refl)) as [V1 V2].
  split; [exact Tv|]. split.
  - intros i Hi. specialize (F i Hi). cbn [elem] in *. unfold cell in *. rewrite K by auto. exact F.
  - exists bv. split; [reflexivity|]. exists l. split; [now rewrite K|exact Ll].
Qed.

(** ** C127: any sequence of allowed calls.  The object and the vectors returned to the caller are the
    only new blocks alive, and they are all different; all other memory is as it was. *)
Theorem C127_sessions m r n b ow k cs n' ow' es :
  reg_at m r n b -> weights_at m r n ow -> expects_all m b k (n, ow) cs (n', ow') es ->
  exists r' outs m' b', do_rcalls k r cs m = Ok ((r', outs), m') /\ reg_at m' r' n' b' /\ weights_at m' r' n' ow' /\
    Forall2 (shows m') outs es /\ keeps (fun x => x = b) m m' /\ (b' = b \/ (length m <= b')%nat /\ freed m' b) /\
    NoDup (b' :: flat_map vec_blocks outs) /\ (forall x, In x (flat_map vec_blocks outs) -> (length m <= x < length m')%nat) /\
    (forall x, (length m <= x < length m')%nat -> x = b' \/ In x (flat_map vec_blocks outs) \/ freed m' x).
Proof.
  intros HR Hw HE.
  assert (G : forall cs s es s', expects_all m b k s cs s' es -> forall m1 r b1, base m b m1 b1 -> reg_at m1 r (fst s) b1 -> weights_at m1 r (fst s) (snd s) ->
    exists r' outs m' b', do_rcalls k r cs m1 = Ok ((r', outs), m') /\ reg_at m' r' (fst s') b' /\ weights_at m' r' (fst s') (snd s') /\
      Forall2 (shows m') outs es /\ keeps (fun x => x = b1) m1 m' /\ (b' = b1 \/ (length m1 <= b')%nat /\ freed m' b1) /\
      NoDup (b' :: flat_map vec_blocks outs) /\ (forall x, In x (flat_map vec_blocks outs) -> (length m1 <= x < length m')%nat) /\
      (forall x, (length m1 <= x < length m')%nat -> x = b' \/ In x (flat_map vec_blocks outs) \/ freed m' x)).
  { clear. intros cs s es s' HE. induction HE as [s|s c s1 e cs s2 es H1 H2 IH]; intros m1 r b1 B HR Hw.
    - exists r, [], m1, b1. split; [reflexivity|]. split; [exact HR|]. split; [exact Hw|]. split; [constructor|]. split; [split; auto|]. split; [now left|].
      cbn [flat_map]. split; [repeat constructor; intros []|]. split; [intros x []|]. intros x Hx. lia.
    - destruct s as [n ow], s1 as [n1 ow1]. cbn [fst snd] in *.
      destruct (step_ok _ _ _ _ _ _ _ _ _ _ _ _ B HR Hw H1) as (r2 & o & m2 & b2 & E & A2 & W2 & S2 & (K2 & Q2 & N2 & V2)).
      assert (Hb1 : (b1 < length m1)%nat) by (destruct HR as (_ & _ & _ & _ & _ & l & El & _); apply nth_error_Some; congruence).
      assert (Hb2 : (b2 < length m2)%nat) by (destruct A2 as (_ & _ & _ & _ & _ & l & El & _); apply nth_error_Some; congruence).
      assert (L2 : (length m1 <= length m2)%nat) by apply K2.
      assert (B2 : base m b m2 b2) by (eapply base_step; eauto; tauto).
      destruct (IH m2 r2 b2 B2 A2 W2) as (r3 & outs & m3 & b3 & E3 & A3 & W3 & S3 & K3 & Q3 & D3 & V3 & N3).
      assert (Hb3 : (b3 < length m3)%nat) by (destruct A3 as (_ & _ & _ & _ & _ & l & El & _); apply nth_error_Some; congruence).
      assert (L3 : (length m2 <= length m3)%nat) by apply K3.
      exists r3, (o :: outs), m3, b3. split.
      { cbn [do_rcalls]. erewrite bind_eq by exact E. cbv beta. cbn [fst snd]. erewrite bind_eq by exact E3. reflexivity. }
      split; [exact A3|]. split; [exact W3|]. split.
      { constructor; [|exact S3]. eapply shows_keeps; [exact K3| |exact S2]. intros x Hx. destruct (V2 x Hx). lia. }
      split.
      { destruct K2 as [_ K2], K3 as [_ K3]. split; [lia|]. intros x Hx Nx. rewrite K3 by lia. apply K2; auto. }
      split.
      { destruct Q2 as [-> |[-> F2]]; [destruct Q3 as [-> |[Q3 F3]]; [now left|right; split; [lia|exact F3]]|].
        right. assert (F3 : freed m3 b1). { unfold freed in *. destruct K3 as [_ K3]. rewrite K3 by lia. exact F2. } destruct Q3 as [-> |[Q3 _]]; (split; [lia|exact F3]). }
      cbn [flat_map]. split; [|split].
      + inversion D3 as [|? ? D3a D3b]; subst. constructor.
        * rewrite in_app_iff. intros [I|I]; [|contradiction]. destruct (V2 _ I). destruct Q3 as [-> |[Q3 _]]; [congruence|lia].
        * assert (X : forall x, In x (vec_blocks o) -> ~ In x (flat_map vec_blocks outs)) by (intros x I1 I2; apply V2 in I1; apply V3 in I2; lia).
          destruct o as [|[[|bv ?] ?]| | |]; cbn [vec_blocks t_data app] in *; try exact D3b. constructor; [apply X; now left|exact D3b].
      + intros x. rewrite in_app_iff. intros [I|I]; [apply V2 in I|apply V3 in I]; lia.
      + intros x Hx. rewrite in_app_iff. destruct (Nat.lt_ge_cases x (length m2)) as [Lx|Lx].
        * destruct (Nat.eq_dec x b2) as [->|Nb].
          { destruct Q3 as [-> |[_ F3]]; [now left|right; now right]. }
          destruct (N2 x ltac:(lia)) as [Q|[Q|Q]]; [contradiction|right; left; now left|right; right]. unfold freed in *. destruct K3 as [_ K3]. rewrite K3 by auto. exact Q.
        * destruct (N3 x ltac:(lia)) as [Q|[Q|Q]]; [now left|right; left; now right|right; now right]. }
  apply (G cs (n, ow) es (n', ow') HE m r b); auto. split; [split; auto|now left].
Qed.
(** data found in a memory are found in a larger one *)
Lemma outside_more m m1 b p : preserves m m1 -> outside m b p -> outside m1 b p.
Proof. intros [L _] O x Hx. destruct (O x Hx). split; [lia|assumption]. Qed.
Lemma samples_more m m1 b k n x h (xs : Z -> Z -> T) : preserves m m1 -> samples m b k n x h xs -> samples m1 b k n x h xs.
Proof.
  intros K (A & B & C & D). split; [exact A|]. split; [exact B|]. split; [eapply outside_more; eauto|]. destruct k; destruct D as [D1 D2]; (split; [exact D1|]).
  - eapply keeps_holds2; eauto.
  - eapply keeps_holds; eauto.
Qed.
Lemma targets_more m m1 b y h (ys : Z -> T) : preserves m m1 -> targets m b y h ys -> targets m1 b y h ys.
Proof. intros K (A & B & C). split; [eapply outside_more; eauto|]. split; [exact B|]. eapply keeps_holds; eauto. Qed.
Lemma expects_more m m1 b k s c s' e : preserves m m1 -> expects m b k s c s' e -> expects m1 b k s c s' e.
Proof.
  intros K H. destruct H; econstructor; eauto using samples_more, targets_more, outside_more. eapply keeps_holds; eauto.
Qed.
Lemma expects_all_more m m1 b k s cs s' es : preserves m m1 -> expects_all m b k s cs s' es -> expects_all m1 b k s cs s' es.
Proof. intros K H. induction H; econstructor; eauto using expects_more. Qed.
(** the whole program: construct, use, destroy *)
Theorem C127_program m n k cs n' ow' es :
  0 <= n -> n + 1 < 2 ^ 64 -> expects_all m (length m) k (n, None) cs (n', ow') es ->
  exists outs m', reg_program k n cs m = Ok (outs, m') /\ Forall2 (shows m') outs es /\ preserves m m' /\ NoDup (flat_map vec_blocks outs) /\
    (forall x, In x (flat_map vec_blocks outs) -> (length m <= x < length m')%nat) /\
    (forall x, (length m <= x < length m')%nat -> In x (flat_map vec_blocks outs) \/ freed m' x).
Proof.
  intros Hn Hs HE. destruct (reg_new_at m n Hn Hs) as (r & m1 & E1 & A1 & K1).
  destruct (C127_sessions m1 r n (length m) None k cs n' ow' es A1 Logic.I (expects_all_more _ _ _ _ _ _ _ _ K1 HE)) as (r2 & outs & m2 & b2 & E2 & A2 & _ & S2 & K2 & Q2 & D2 & V2 & N2).
  assert (L1 : (length m < length m1)%nat) by (destruct A1 as (_ & _ & _ & _ & _ & l & El & _); apply nth_error_Some; congruence).
  assert (L1' : length m1 = S (length m)). { revert E1. unfold reg_new, vec_new, bind, alloc, ret. intros Q. injection Q as <- <-. rewrite app_length. cbn. lia. }
  assert (Lb2 : liveb m2 b2) by (destruct A2 as (_ & _ & _ & _ & _ & l & El & _); now exists l).
  assert (L2 : (length m1 <= length m2)%nat) by apply K2.
  inversion D2 as [|? ? D2a D2b]; subst.
  exists outs, (set_nth b2 None m2). split.
  { unfold reg_program. erewrite bind_eq by exact E1. cbv beta. erewrite bind_eq by exact E2. cbv beta. cbn [fst snd]. unfold vec_destroy.
    destruct A2 as (_ & _ & _ & _ & EW & _). rewrite EW. unfold bind. rewrite (free_live _ _ Lb2). reflexivity. }
  assert (KK : keeps (fun x => x = b2) m2 (set_nth b2 None m2)). { split; [now rewrite set_nth_length|]. intros x _ Nx. apply nth_set_nth_other. congruence. }
  rewrite set_nth_length. split; [|split; [|split; [exact D2b|split]]].
  - clear - S2 D2a KK V2. revert D2a V2. induction S2 as [|o e outs es S2 _ IH]; intros D2a V2; constructor.
    + eapply shows_keeps; [exact KK| |exact S2]. intros x Hx. split; [|intros ->; apply D2a; cbn [flat_map]; apply in_app_iff; now left].
      assert (In x (flat_map vec_blocks (o :: outs))) by (cbn [flat_map]; apply in_app_iff; now left). apply V2 in H. lia.
    + apply IH. { intros I. apply D2a. cbn [flat_map]. apply in_app_iff. now right. } intros x I. apply V2. cbn [flat_map]. apply in_app_iff. now right.
  - destruct K1 as [_ K1], K2 as [_ K2]. split; [rewrite set_nth_length; lia|]. intros x Hx _. rewrite nth_set_nth_other by (destruct Q2 as [-> |[Q2 _]]; lia). rewrite K2 by lia. apply K1; auto.
  - intros x I. apply V2 in I. lia.
  - intros x Hx. destruct (Nat.eq_dec x b2) as [->|Nb]; [right; now apply freed_set|]. destruct (Nat.eq_dec x (length m)) as [->|Nx].
    { destruct Q2 as [-> |[_ F]]; [congruence|]. right. now apply freed_set_other. }
    destruct (N2 x ltac:(lia)) as [Q|[Q|Q]]; [congruence|now left|right; now apply freed_set_other].
Qed.
End Proofs.

(** ** In exact arithmetic (whatever a division by zero gives) *)
Lemma solution_normal (junk : R -> R) (m : mem R) k n x y h xs ys : 0 <= n -> n + 1 < 2 ^ 64 -> (n + 1) * (n + 1) < 2 ^ 64 ->
  samples m (length m) k n x h xs -> targets m (length m) y h ys -> full_rank h (n + 1) (features (NT := Num_Rj junk) k xs) ->
  normal h (n + 1) (features (NT := Num_Rj junk) k xs) ys (solution (NT := Num_Rj junk) h (n + 1) (features (NT := Num_Rj junk) k xs) ys).
Proof.
  intros Hn Hs Hnn HS HT FR. destruct (reg_new_at (H := Num_Rj junk) m n Hn Hs) as (r & m1 & E1 & A1 & K1).
  apply (samples_more _ _ _ _ _ _ _ _ K1) in HS. apply (targets_more _ _ _ _ _ _ K1) in HT. 
  assert (B : base m1 (length m) m1 (length m)) by (split; [split; auto|now left]).
  pose proof (samples_train_design (NT := Num_Rj junk) _ _ _ _ _ _ _ _ _ _ B A1 HS) as D. destruct HT as (Oy & Ty & Fy). pose proof HS as (Hh & Hhn & _).
  pose proof (base_not_own _ _ _ _ _ B Oy) as NO.
  destruct (train_any (NT := Num_Rj junk) m1 r n (length m) y h ys _ _ A1 Hh Hhn Hnn Ty Fy NO D) as (m2 & E2 & F2 & _).
  destruct (train_common junk m1 r n (length m) y h ys _ _ A1 Hh Hhn Hnn Ty Fy NO D FR) as (m3 & w & E3 & F3 & N3 & _).
  assert (m2 = m3) as <- by congruence.
  assert (Ew : forall i, 0 <= i < n + 1 -> w i = solution (NT := Num_Rj junk) h (n + 1) (features (NT := Num_Rj junk) k xs) ys i).
  { intros i Hi. specialize (F2 i Hi). specialize (F3 i Hi). rewrite F2 in F3. now injection F3 as <-. }
  intros j Hj. rewrite <- (N3 j Hj). apply rsum_ext. intros i Hi. do 2 f_equal. unfold fit. apply rsum_ext. intros l Hl. now rewrite Ew.
Qed.

(** the model of the regression and the condition that the data determine its weights *)
Definition model (k : rkind) (n : Z) (w : Z -> R) (s : Z -> R) : R :=
  match k with RLinear => linear_model n w s | RPolynomial => poly_model n w (s 0) end.
Definition determined (k : rkind) (n h : Z) (xs : Z -> Z -> R) : Prop :=
  match k with
  | RLinear => forall z, (forall i, 0 <= i < h -> linear_model n z (xs i) = 0%R) -> forall j, 0 <= j <= n -> z j = 0%R
  | RPolynomial => distinct_points h (fun i => xs i 0) (n + 1)
  end.
Lemma features_fit junk k n (xs : Z -> Z -> R) z i : 0 <= n -> fit (n + 1) (features (NT := Num_Rj junk) k xs) z i = model k n z (xs i).
Proof.
  intros Hn. destruct k; cbn [model].
  - rewrite <- (lin_fit n xs z i Hn). unfold fit. apply rsum_ext. intros j Hj. reflexivity.
  - rewrite <- (poly_fit n (fun i => xs i 0) z i). unfold fit. apply rsum_ext. intros j Hj. cbn [features]. rewrite gpow_Rj. reflexivity.
Qed.
Lemma determined_rank junk k n h xs : 0 <= n -> determined k n h xs -> full_rank h (n + 1) (features (NT := Num_Rj junk) k xs).
Proof.
  intros Hn D. destruct k; cbn [determined] in D.
  - intros z Hz j Hj. apply D; [|lia]. intros i Hi. rewrite <- (Hz i Hi). now rewrite features_fit.
  - pose proof (poly_rank h n (fun i => xs i 0) Hn D) as P. intros z Hz j Hj. apply (P z); [|exact Hj]. intros i Hi. rewrite <- (Hz i Hi). rewrite features_fit by exact Hn. apply poly_fit.
Qed.
Lemma prediction_model junk k n w xs i : 0 <= n -> prediction (NT := Num_Rj junk) k n w xs i = model k n w (xs i).
Proof. intros Hn. rewrite <- (features_fit junk k n xs w i Hn). unfold prediction, fit. rewrite zsum_Rj. reflexivity. Qed.
(** The weights that training computes have the least sum of squared errors, and are the only ones. *)
Theorem C127_solution_is_least_squares (junk : R -> R) (m : mem R) k n x y h xs ys : 0 <= n -> n + 1 < 2 ^ 64 -> (n + 1) * (n + 1) < 2 ^ 64 ->
  samples m (length m) k n x h xs -> targets m (length m) y h ys -> determined k n h xs ->
  let w := solution (NT := Num_Rj junk) h (n + 1) (features (NT := Num_Rj junk) k xs) ys in
  (forall z, (sq_error h ys (fun i => model k n w (xs i)) <= sq_error h ys (fun i => model k n z (xs i)))%R) /\
  (forall z, (sq_error h ys (fun i => model k n z (xs i)) <= sq_error h ys (fun i => model k n w (xs i)))%R -> forall j, 0 <= j <= n -> z j = w j).
Proof.
  intros Hn Hs Hnn HS HT D w. pose proof (determined_rank junk k n h xs Hn D) as FR.
  pose proof (solution_normal junk m k n x y h xs ys Hn Hs Hnn HS HT FR) as N. fold w in N. clearbody w.
  assert (Sq : forall z, sq_error h ys (fun i => model k n z (xs i)) = sq_error h ys (fit (n + 1) (features (NT := Num_Rj junk) k xs) z)).
  { intros z. unfold sq_error. apply rsum_ext. intros i _. now rewrite features_fit. }
  split.
  - intros z. rewrite !Sq. now apply least.
  - intros z Hz j Hj. rewrite !Sq in Hz. apply (least_unique h (n + 1) _ ys w z FR N Hz). lia.
Qed.
(** Targets that follow a model: training finds its weights. *)
Lemma solution_recovers (junk : R -> R) (m : mem R) k n x y h xs z : 0 <= n -> n + 1 < 2 ^ 64 -> (n + 1) * (n + 1) < 2 ^ 64 ->
  samples m (length m) k n x h xs -> targets m (length m) y h (fun i => model k n z (xs i)) -> determined k n h xs ->
  forall j, 0 <= j <= n -> solution (NT := Num_Rj junk) h (n + 1) (features (NT := Num_Rj junk) k xs) (fun i => model k n z (xs i)) j = z j.
Proof.
  intros Hn Hs Hnn HS HT D. destruct (C127_solution_is_least_squares junk m k n x y h xs _ Hn Hs Hnn HS HT D) as [_ U]. cbv zeta in U. intros j Hj. symmetry. apply U; [|exact Hj].
  unfold sq_error. replace (rsum h _) with 0%R. { apply zsum_nonneg. intros i _. apply pow2_ge_0. } symmetry. apply rsum_all0. intros i _. ring.
Qed.
Lemma model_ext k n w z s : 0 <= n -> (forall j, 0 <= j <= n -> w j = z j) -> model k n w s = model k n z s.
Proof.
  intros Hn E. destruct k; cbn [model]; unfold linear_model, poly_model.
  - rewrite E by lia. f_equal. apply rsum_ext. intros j Hj. now rewrite E by lia.
  - apply rsum_ext. intros j Hj. now rewrite E by lia.
Qed.

(** the programs of regression_test.cpp, run with exact numbers on data that follow a model with weights [z] *)
Theorem C127_program_recovers (junk : R -> R) (m : mem R) k n x y h xs z e : 0 <= n -> n + 1 < 2 ^ 64 -> (n + 1) * (n + 1) < 2 ^ 64 ->
  samples m (length m) k n x h xs -> targets m (length m) y h (fun i => model k n z (xs i)) -> determined k n h xs -> (0 < e)%R ->
  exists v bv m', reg_program (NT := Num_Rj junk) k n [CTrain x y; CPredict x; CLoss MSE x y; CGlobal x y e; CFull x y e] m =
      Ok ([ODone; OVector v; ONumber 0%R; OCount h; OFlag true], m') /\
    t_size v = h /\ t_data v = Ptr bv 0 /\ holds m' (t_data v) h (fun i => model k n z (xs i)) /\
    preserves m m' /\ (forall b, (length m <= b < length m')%nat -> b <> bv -> freed m' b).
Proof.
  intros Hn Hs Hnn HS HT D He. set (w := solution (NT := Num_Rj junk) h (n + 1) (features (NT := Num_Rj junk) k xs) (fun i => model k n z (xs i))).
  assert (P : forall i, prediction (NT := Num_Rj junk) k n w xs i = model k n z (xs i)).
  { intros i. rewrite prediction_model by exact Hn. apply model_ext; [exact Hn|]. intros j Hj. unfold w. now apply (solution_recovers junk m k n x y). }
  assert (X : expects_all (NT := Num_Rj junk) m (length m) k (n, None) [CTrain x y; CPredict x; CLoss MSE x y; CGlobal x y e; CFull x y e] (n, Some w)
    [ENone; EVector h (prediction (NT := Num_Rj junk) k n w xs); ENumber (loss_val (NT := Num_Rj junk) MSE h (fun i => model k n z (xs i)) (prediction (NT := Num_Rj junk) k n w xs));
     ECount (Z.of_nat (length (filter (fun i => Rltb (Rabs (model k n z (xs i) - prediction (NT := Num_Rj junk) k n w xs i)) e) (indices h))));
     EFlag (forallb (fun i => negb (Rltb e (Rabs (model k n z (xs i) - prediction (NT := Num_Rj junk) k n w xs i)))) (indices h))]).
  { eapply xs_cons; [exact (x_train (NT := Num_Rj junk) m (length m) k n None x y h xs _ HS HT Hnn)|].
    eapply xs_cons; [exact (x_predict (NT := Num_Rj junk) m (length m) k n w x h xs HS)|].
    eapply xs_cons; [exact (x_loss (NT := Num_Rj junk) m (length m) k n w MSE x y h xs _ HS HT)|].
    eapply xs_cons; [exact (x_global (NT := Num_Rj junk) m (length m) k n w x y e h xs _ HS HT)|].
    eapply xs_cons; [exact (x_full (NT := Num_Rj junk) m (length m) k n w x y e h xs _ HS HT)|]. apply xs_nil. }
  destruct (C127_program (NT := Num_Rj junk) m n k _ n (Some w) _ Hn Hs X) as (outs & m' & E & S & K & ND & V & N). pose proof HS as (Hh & _).
  assert (Z0 : forall i, Rabs (model k n z (xs i) - prediction (NT := Num_Rj junk) k n w xs i) = 0%R) by (intros i; rewrite P, Rminus_diag_eq by reflexivity; apply Rabs_R0).
  assert (E1 : loss_val (NT := Num_Rj junk) MSE h (fun i => model k n z (xs i)) (prediction (NT := Num_Rj junk) k n w xs) = 0%R).
  { cbn [loss_val]. rewrite zsum_Rj. erewrite rsum_all0; [apply Rmult_0_l|]. intros i _. rewrite P. cbn [mul sub Num_Rj]. ring. }
  assert (E2 : Z.of_nat (length (filter (fun i => Rltb (Rabs (model k n z (xs i) - prediction (NT := Num_Rj junk) k n w xs i)) e) (indices h))) = h).
  { erewrite filter_ext with (g := fun _ => true). 2:{ intros i. rewrite Z0. unfold Rltb. destruct (Rlt_dec 0 e); [reflexivity|lra]. }
    assert (F : forall l : list Z, filter (fun _ => true) l = l) by (induction l; cbn; congruence). rewrite F. unfold indices. rewrite map_length, seq_length. lia. }
  assert (E3 : forallb (fun i => negb (Rltb e (Rabs (model k n z (xs i) - prediction (NT := Num_Rj junk) k n w xs i)))) (indices h) = true).
  { apply forallb_forall. intros i _. rewrite Z0. unfold Rltb. destruct (Rlt_dec e 0); [lra|reflexivity]. }
  rewrite E1, E2, E3 in S. clear X E1 E2 E3.
  inversion S as [|o1 e1 l1 l1' S1 S']; subst. inversion S' as [|o2 e2 l2 l2' S2 S'']; subst. inversion S'' as [|o3 e3 l3 l3' S3 S3']; subst. inversion S3' as [|o4 e4 l4 l4' S4 S4']; subst.
  inversion S4' as [|o5 e5 l5 l5' S5 S5']; subst. inversion S5'; subst. clear S S' S'' S3' S4' S5'.
  destruct o1; try contradiction. destruct o2 as [|v| | |]; try contradiction. destruct o3; try contradiction. destruct o4; try contradiction. destruct o5; try contradiction.
  cbn [shows] in *. subst. destruct S2 as (Tv & Fv & bv & Pv & Lv). cbn [flat_map vec_blocks app] in N. rewrite Pv in N.
  exists v, bv, m'. split; [exact E|]. split; [exact Tv|]. split; [exact Pv|]. split; [|split; [exact K|]].
  - eapply holds_ext; [|exact Fv]. intros i _. apply P.
  - intros b Hb Nb. destruct (N b Hb) as [[Q|[]]|Q]; [congruence|exact Q].
Qed.

Module Examples.
Open Scope R_scope.
(** regression_test.cpp:46-71: 101 samples from -1 in steps of 0.02, targets 8 x + 2 *)
Definition arg (i : Z) : R := -1 + IZR i / 50.
Definition lx (i j : Z) : R := arg i.
Definition lz (j : Z) : R := if (j =? 0)%Z then 2 else 8.
Definition idx : list Z := indices 101.
Definition lm : mem R := [Some (map (fun i => Some (arg i)) idx); Some (map (fun i => Some (linear_model 1 lz (lx i))) idx)].
Definition X := mk_tensor (Ptr 0 0) (shape2 101 1).
Definition XP := mk_tensor (Ptr 0 0) (shape1 101).
Definition Y := mk_tensor (Ptr 1 0) (shape1 101).
Lemma idx_cell (f : Z -> R) (m : mem R) b i : nth_error m b = Some (Some (map (fun i => Some (f i)) idx)) -> (0 <= i < 101)%Z -> elem m (Ptr b 0) i = Some (Some (f i)).
Proof.
  intros E Hi. cbn [elem]. unfold cell. rewrite E. unfold znth. rewrite (proj2 (Z.leb_le 0 (0 + i))) by lia. rewrite nth_error_map. unfold idx, indices. rewrite nth_error_map.
  assert (Q : nth_error (seq 0 (Z.to_nat 101)) (Z.to_nat (0 + i)) = Some (Z.to_nat i)).
  { replace (0 + i)%Z with i by lia. rewrite nth_error_nth' with (d := 0%nat) by (rewrite seq_length; lia). rewrite seq_nth by lia. reflexivity. }
  rewrite Q. unfold option_map. rewrite Z2Nat.id by lia. reflexivity.
Qed.
Example linear_test_data :
  samples lm (length lm) RLinear 1 X 101 lx /\ targets lm (length lm) Y 101 (fun i => model RLinear 1 lz (lx i)) /\ determined RLinear 1 101 lx.
Proof.
  split; [|split].
  - split; [lia|]. split; [lia|]. split. { intros b ->. cbn. lia. } split. { unfold mat_is. vm_compute. repeat split; congruence. }
    intros i j Hi Hj. replace (i * 1 + j)%Z with i by lia. now apply (idx_cell arg).
  - split. { intros b ->. cbn. lia. } split; [reflexivity|]. intros i Hi. now apply (idx_cell (fun i => linear_model 1 lz (lx i))).
  - intros z Hz j Hj. pose proof (Hz 0%Z ltac:(lia)) as H0. pose proof (Hz 50%Z ltac:(lia)) as H1. unfold linear_model, lx, arg in *.
    change (rsum 1) with (rsum (0 + 1)) in *. rewrite rsum_S, rsum_0 in * by lia. cbn [Z.add] in *.
    assert (j = 0 \/ j = 1)%Z as [-> | ->] by lia; lra.
Qed.
(** the result of the program, spelled out: loss 0, all 101 within 0.1, the weights 2 and 8 *)
Example linear_test junk : exists v bv m', reg_program (NT := Num_Rj junk) RLinear 1 [CTrain X Y; CPredict X; CLoss MSE X Y; CGlobal X Y (1/10); CFull X Y (1/10)] lm =
    Ok ([ODone; OVector v; ONumber 0; OCount 101; OFlag true], m') /\ t_size v = 101%Z /\ t_data v = Ptr bv 0 /\
    holds m' (t_data v) 101 (fun i => arg i * 8 + 2) /\ preserves lm m'.
Proof.
  destruct linear_test_data as (A & B & C).
  destruct (C127_program_recovers junk lm RLinear 1 X Y 101 lx lz (1/10) ltac:(lia) ltac:(lia) ltac:(lia) A B C ltac:(lra)) as (v & bv & m' & E & Tv & Pv & Fv & K & _).
  exists v, bv, m'. split; [exact E|]. split; [exact Tv|]. split; [exact Pv|]. split; [|exact K]. eapply holds_ext; [|exact Fv]. intros i _.
  cbn [model]. unfold linear_model, lx. change (rsum 1) with (rsum (0 + 1)). rewrite rsum_S, rsum_0 by lia. unfold lz. cbn [Z.eqb Z.add]. lra.
Qed.
(** the same points for a polynomial of degree 6 (regression_test.cpp:96) *)
Example polynomial_data : determined RPolynomial 6 101 lx.
Proof.
  exists (map arg (indices 7)). split; [|split].
  - apply Injective_map_NoDup; [|vm_compute; repeat constructor; cbn; lia]. intros i j E. unfold arg in E. apply eq_IZR. lra.
  - reflexivity.
  - intros a Ha. apply in_map_iff in Ha as (i & <- & Hi). exists i. split; [|reflexivity]. unfold indices in Hi. apply in_map_iff in Hi as (q & <- & Hq). apply in_seq in Hq. lia.
Qed.
(** hypotheses of C127_sessions: an object, a longer session with two trainings and a reset *)
Example a_session junk : expects_all (NT := Num_Rj junk) lm (length lm) RLinear (1%Z, None)
  [CTrain X Y; CPredict X; CTrain X Y; CReset 3; CReset 1; CTrain X Y; CLoss MAE X Y]
  (1%Z, Some (solution (NT := Num_Rj junk) 101 2 (features (NT := Num_Rj junk) RLinear lx) (fun i => model RLinear 1 lz (lx i))))
  [ENone; EVector 101 (prediction (NT := Num_Rj junk) RLinear 1 (solution (NT := Num_Rj junk) 101 2 (features (NT := Num_Rj junk) RLinear lx) (fun i => model RLinear 1 lz (lx i))) lx);
   ENone; ENone; ENone; ENone;
   ENumber (loss_val (NT := Num_Rj junk) MAE 101 (fun i => model RLinear 1 lz (lx i)) (prediction (NT := Num_Rj junk) RLinear 1 (solution (NT := Num_Rj junk) 101 2 (features (NT := Num_Rj junk) RLinear lx) (fun i => model RLinear 1 lz (lx i))) lx))].
Proof.
  destruct linear_test_data as (A & B & _).
  eapply xs_cons; [apply (x_train (NT := Num_Rj junk) lm _ RLinear 1 None X Y 101 lx _ A B); lia|].
  eapply xs_cons; [apply (x_predict (NT := Num_Rj junk) lm _ RLinear 1 _ X 101 lx A)|].
  eapply xs_cons; [apply (x_train (NT := Num_Rj junk) lm _ RLinear 1 _ X Y 101 lx _ A B); lia|].
  eapply xs_cons; [apply x_reset; lia|]. eapply xs_cons; [apply x_reset; lia|].
  eapply xs_cons; [apply (x_train (NT := Num_Rj junk) lm _ RLinear 1 None X Y 101 lx _ A B); lia|].
  eapply xs_cons; [apply (x_loss (NT := Num_Rj junk) lm _ RLinear 1 _ MAE X Y 101 lx _ A B)|]. apply xs_nil.
Qed.
End Examples.

Print Assumptions C127_sessions.
Print Assumptions C127_program.
Print Assumptions C127_solution_is_least_squares.
Print Assumptions C127_program_recovers.

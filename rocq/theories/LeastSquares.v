(** * Least squares: specification (for the statements of C73, C74) and linear algebra *)
From Coq Require Import Reals Lra.
From Verif Require Import Mem Scalar MemSpec LinearProofs RSum RealSpec LossProofs Vjp.
Local Open Scope R_scope.

(** Sum of squared residuals of predictions [f 0 .. f (h-1)] for targets [y]. *)
Definition sq_error (h : Z) (y f : Z -> R) : R := rsum h (fun i => (y i - f i) ^ 2).
(** What the linear model with weights [w] predicts for the sample [x 0 .. x (n-1)]. *)
Definition linear_model (n : Z) (w x : Z -> R) : R := w 0%Z + rsum n (fun j => w (j + 1)%Z * x j).
(** What the polynomial model of degree [n] with coefficients [w] predicts at [x]. *)
Definition poly_model (n : Z) (w : Z -> R) (x : R) : R := rsum (n + 1) (fun j => w j * x ^ Z.to_nat j).

Lemma rsum_minus n f g : rsum n (fun i => f i - g i) = rsum n f - rsum n g. Proof. apply zsum_minus. Qed.

Section LS.
Context (h N : Z) (D : Z -> Z -> R) (y : Z -> R).
Definition fit (z : Z -> R) (i : Z) : R := rsum N (fun j => D i j * z j).
Definition normal (w : Z -> R) : Prop :=
  forall j, (0 <= j < N)%Z -> rsum h (fun i => D i j * (y i - fit w i)) = 0.
Definition full_rank : Prop :=
  forall z, (forall i, (0 <= i < h)%Z -> fit z i = 0) -> forall j, (0 <= j < N)%Z -> z j = 0.

Lemma fit_minus z w i : fit (fun j => z j - w j) i = fit z i - fit w i.
Proof. unfold fit. rewrite <- rsum_minus. apply rsum_ext. intros. lra. Qed.

Lemma gram_fit z j : rsum N (fun k => rsum h (fun i => D i j * D i k) * z k) = rsum h (fun i => D i j * fit z i).
Proof.
  rewrite (rsum_ext N _ (fun k => rsum h (fun i => D i j * (D i k * z k)))).
  - rewrite rsum_swap. apply rsum_ext. intros i _. unfold fit. rewrite <- rsum_scal. apply rsum_ext. intros. lra.
  - intros k _. rewrite <- rsum_scal_r. apply rsum_ext. intros. lra.
Qed.
Lemma cross w r : rsum h (fun i => r i * fit w i) = rsum N (fun j => w j * rsum h (fun i => D i j * r i)).
Proof.
  rewrite (rsum_ext h _ (fun i => rsum N (fun j => r i * (D i j * w j)))).
  - rewrite rsum_swap. apply rsum_ext. intros j _. rewrite <- rsum_scal. apply rsum_ext. intros. lra.
  - intros i _. unfold fit. rewrite <- rsum_scal. apply rsum_ext. intros. lra.
Qed.
(** the Gram matrix of a full-rank design is injective *)
Lemma gram_injective : full_rank -> forall z,
  (forall j, (0 <= j < N)%Z -> rsum N (fun k => rsum h (fun i => D i j * D i k) * z k) = 0) ->
  forall j, (0 <= j < N)%Z -> z j = 0.
Proof.
  intros F z Hz. apply F. intros i Hi.
  assert (S0 : rsum h (fun i => fit z i * fit z i) = 0).
  { rewrite (cross z (fit z)). apply rsum_all0. intros j Hj. rewrite <- gram_fit, Hz by auto. lra. }
  pose proof (zsum_zero_nonneg h (fun i => fit z i * fit z i) (fun i _ => Rle_0_sqr (fit z i)) S0 i Hi) as E. cbn beta in E.
  now apply Rsqr_0_uniq.
Qed.
Lemma pythagoras w z : normal w ->
  sq_error h y (fit z) = sq_error h y (fit w) + rsum h (fun i => (fit (fun j => z j - w j) i) ^ 2).
Proof.
  intros Hw. unfold sq_error.
  rewrite (rsum_ext h _ (fun i => (y i - fit w i) ^ 2 + ((fit (fun j => z j - w j) i) ^ 2 + -2 * ((y i - fit w i) * fit (fun j => z j - w j) i)))).
  - rewrite !rsum_plus, rsum_scal. rewrite (cross _ (fun i => y i - fit w i)).
    rewrite (rsum_all0 N). { lra. } intros j Hj. rewrite Hw by auto. lra.
  - intros i _. rewrite fit_minus. ring.
Qed.
Lemma least w z : normal w -> sq_error h y (fit w) <= sq_error h y (fit z).
Proof.
  intros Hw. rewrite (pythagoras w z Hw).
  assert (0 <= rsum h (fun i => (fit (fun j => z j - w j) i) ^ 2)) by (apply zsum_nonneg; intros; apply pow2_ge_0). lra.
Qed.
Lemma least_unique w z : full_rank -> normal w -> sq_error h y (fit z) <= sq_error h y (fit w) ->
  forall j, (0 <= j < N)%Z -> z j = w j.
Proof.
  intros F Hw Hle j Hj. rewrite (pythagoras w z Hw) in Hle.
  assert (S0 : rsum h (fun i => (fit (fun j => z j - w j) i) ^ 2) = 0).
  { assert (0 <= rsum h (fun i => (fit (fun j => z j - w j) i) ^ 2)) by (apply zsum_nonneg; intros; apply pow2_ge_0). lra. }
  enough (z j - w j = 0) by lra. apply (F (fun j => z j - w j)); [|exact Hj]. intros i Hi.
  pose proof (zsum_zero_nonneg h _ (fun i _ => pow2_ge_0 (fit (fun j => z j - w j) i)) S0 i Hi) as E. cbn beta in E.
  apply Rsqr_0_uniq. unfold Rsqr. lra.
Qed.
(** weights computed with an inverse of the Gram matrix satisfy the normal equations *)
Lemma solve_normal (B : Z -> Z -> R) (w : Z -> R) :
  (forall j k, (0 <= j < N)%Z -> (0 <= k < N)%Z ->
     rsum N (fun l => rsum h (fun i => D i j * D i l) * B l k) = if (j =? k)%Z then 1 else 0) ->
  (forall j, (0 <= j < N)%Z -> w j = rsum h (fun i => rsum N (fun k => B j k * D i k) * y i)) ->
  normal w.
Proof.
  intros HB Hw j Hj.
  enough (E : rsum h (fun i => D i j * fit w i) = rsum h (fun i => D i j * y i)).
  { rewrite (rsum_ext h _ (fun i => D i j * y i - D i j * fit w i)) by (intros; lra). rewrite rsum_minus, E. lra. }
  rewrite <- gram_fit.
  rewrite (rsum_ext N _ (fun l => rsum N (fun k => (rsum h (fun i => D i j * D i l) * B l k) * rsum h (fun i => D i k * y i)))).
  - rewrite rsum_swap.
    rewrite (rsum_ext N _ (fun k => if (k =? j)%Z then rsum h (fun i => D i k * y i) else 0)).
    + rewrite rsum_delta by auto. reflexivity.
    + intros k Hk. rewrite rsum_scal_r, HB by auto. rewrite Z.eqb_sym. destruct (k =? j)%Z; lra.
  - intros l Hl. rewrite Hw by auto.
    rewrite (rsum_ext N _ (fun k => rsum h (fun i => D i j * D i l) * (B l k * rsum h (fun i => D i k * y i)))) by (intros; lra).
    rewrite rsum_scal. f_equal.
    rewrite (rsum_ext h _ (fun i => rsum N (fun k => B l k * (D i k * y i)))).
    + rewrite rsum_swap. apply rsum_ext. intros k _. now rewrite rsum_scal.
    + intros i _. rewrite <- rsum_scal_r. apply rsum_ext. intros. lra.
Qed.
End LS.

(** ** design matrices *)
Definition lin_D (x : Z -> Z -> R) (i j : Z) : R := if (j =? 0)%Z then 1 else x i (j - 1)%Z.
Lemma lin_fit n x z i : (0 <= n)%Z -> fit (n + 1) (lin_D x) z i = linear_model n z (x i).
Proof.
  intros Hn. unfold fit, linear_model. rewrite (Z.add_comm n 1), rsum_add_range by lia.
  replace (rsum 1 (fun j => lin_D x i j * z j)) with (z 0%Z).
  - f_equal. apply rsum_ext. intros j Hj. unfold lin_D. destruct (Z.eqb_spec (1 + j) 0); [lia|].
    replace (1 + j - 1)%Z with j by lia. rewrite (Z.add_comm 1 j). lra.
  - change 1%Z with (0 + 1)%Z. rewrite rsum_S, rsum_0 by lia. unfold lin_D. cbn [Z.eqb]. lra.
Qed.
Definition poly_D (x : Z -> R) (i j : Z) : R := x i ^ Z.to_nat j.
Lemma poly_fit n x z i : fit (n + 1) (poly_D x) z i = poly_model n z (x i).
Proof. unfold fit, poly_model, poly_D. apply rsum_ext. intros. lra. Qed.

(** ** a nonzero polynomial of degree n has at most n zeros (synthetic division) *)
Fixpoint peval (l : list R) (x : R) : R := match l with nil => 0 | c :: t => c + x * peval t x end.
Fixpoint synth (a : R) (l : list R) : list R :=
  match l with nil => nil | c :: t => let s := synth a t in (c + a * hd 0 s) :: s end.
Lemma synth_length a l : length (synth a l) = length l.
Proof. induction l; cbn; auto. Qed.
Lemma synth_hd a l : hd 0 (synth a l) = peval l a.
Proof. induction l as [|c t IH]; [reflexivity|]. cbn [synth hd peval]. now rewrite IH. Qed.
Lemma synth_eval a l x : peval l x = peval l a + (x - a) * peval (tl (synth a l)) x.
Proof.
  induction l as [|c t IH]; cbn [synth peval tl]; [lra|]. rewrite IH at 1.
  destruct (synth a t) as [|s0 s] eqn:E.
  - cbn [tl peval]. pose proof (synth_hd a t) as Hh. rewrite E in Hh. cbn in Hh. rewrite <- Hh. lra.
  - cbn [tl peval]. pose proof (synth_hd a t) as Hh. rewrite E in Hh. cbn in Hh. rewrite Hh. ring.
Qed.
Lemma synth_zero a l : Forall (fun c => c = 0) (synth a l) -> Forall (fun c => c = 0) l.
Proof.
  induction l as [|c t IH]; cbn [synth]; intros H; [constructor|]. inversion H as [|? ? H1 H2]; subst.
  constructor; [|auto]. destruct (synth a t) as [|s0 s]; cbn [hd] in H1; [lra|]. inversion H2; subst. lra.
Qed.
Lemma roots_zero (xs : list R) : NoDup xs -> forall l, (length l <= length xs)%nat -> (forall x, In x xs -> peval l x = 0) ->
  Forall (fun c => c = 0) l.
Proof.
  induction 1 as [|a xs Hn _ IH]; intros l Hl Hx.
  - destruct l; [constructor|cbn in Hl; lia].
  - assert (Ha : peval l a = 0) by (apply Hx; now left).
    apply (synth_zero a). destruct l as [|c t]; [constructor|]. cbn [synth].
    constructor. { change (c + a * hd 0 (synth a t)) with (hd 0 (synth a (c :: t))). now rewrite synth_hd. }
    apply IH. { rewrite synth_length. cbn in Hl. lia. }
    intros x Hxs. pose proof (synth_eval a (c :: t) x) as E. rewrite Ha, (Hx x (or_intror Hxs)) in E. cbn [synth tl] in E.
    assert (x - a <> 0) by (intros Q; apply Hn; replace a with x by lra; exact Hxs).
    apply (Rmult_eq_reg_l (x - a)); lra.
Qed.
Lemma peval_sum (z : Z -> R) x k : peval (map (fun j => z (Z.of_nat j)) (seq 0 k)) x = rsum (Z.of_nat k) (fun j => z j * x ^ Z.to_nat j).
Proof.
  enough (G : forall k s, x ^ s * peval (map (fun j => z (Z.of_nat j)) (seq s k)) x = rsum (Z.of_nat k) (fun j => z (Z.of_nat s + j)%Z * x ^ (s + Z.to_nat j))).
  { specialize (G k 0%nat). cbn [pow] in G. rewrite Rmult_1_l in G. rewrite G. apply rsum_ext. intros. reflexivity. }
  clear k. induction k as [|k IH]; intros s; [cbn [seq map peval]; rewrite rsum_0; lra|].
  cbn [seq map peval]. replace (Z.of_nat (S k)) with (1 + Z.of_nat k)%Z by lia. rewrite rsum_add_range by lia.
  replace (rsum 1 _) with (z (Z.of_nat s) * x ^ s).
  2:{ change 1%Z with (0 + 1)%Z. rewrite rsum_S, rsum_0 by lia. cbn [Z.to_nat]. rewrite Z.add_0_r, Nat.add_0_r. lra. }
  specialize (IH (S s)). cbn [pow] in IH.
  rewrite (rsum_ext (Z.of_nat k) _ (fun j => z (Z.of_nat (S s) + j)%Z * (x * x ^ (s + Z.to_nat j)))).
  - rewrite <- (rsum_ext (Z.of_nat k) (fun j => z (Z.of_nat (S s) + j)%Z * x ^ (S s + Z.to_nat j))) by (intros; reflexivity).
    rewrite <- IH. lra.
  - intros j Hj. replace (Z.of_nat s + (1 + j))%Z with (Z.of_nat (S s) + j)%Z by lia. f_equal.
    replace (s + Z.to_nat (1 + j))%nat with (S (s + Z.to_nat j)) by lia. reflexivity.
Qed.
(** [k] different sample points among [x 0 .. x (h-1)] *)
Definition distinct_points (h : Z) (x : Z -> R) (k : Z) : Prop :=
  exists xs, NoDup xs /\ Z.of_nat (length xs) = k /\ forall a, In a xs -> exists i, (0 <= i < h)%Z /\ x i = a.
Lemma poly_rank h n x : (0 <= n)%Z -> distinct_points h x (n + 1) -> full_rank h (n + 1) (poly_D x).
Proof.
  intros Hn (xs & ND & Hl & Hx) z Hz j Hj.
  assert (F : Forall (fun c => c = 0) (map (fun j => z (Z.of_nat j)) (seq 0 (Z.to_nat (n + 1))))).
  { apply (roots_zero xs ND). { rewrite map_length, seq_length. lia. }
    intros a Ha. destruct (Hx a Ha) as (i & Hi & <-). rewrite peval_sum, Z2Nat.id by lia.
    specialize (Hz i Hi). rewrite poly_fit in Hz. exact Hz. }
  rewrite Forall_forall in F. apply F. apply in_map_iff. exists (Z.to_nat j). split; [f_equal; lia|]. apply in_seq. lia.
Qed.

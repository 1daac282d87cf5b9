(** * Sums over the reals (proof infrastructure) *)
From Coq Require Import Reals Lra.
From Verif Require Import Mem Scalar MemSpec MemLemmas Lique LiqueProofs LiqueProofs2 LiqueSpec Linear LinearProofs.
Local Open Scope R_scope.
Local Notation zsumR := (zsum (T := R) (H := Num_R)).

Lemma zsum_ind (P : Z -> R -> Prop) (f : Z -> R) :
  P 0%Z 0 -> (forall n s, (0 <= n)%Z -> P n s -> P (n + 1)%Z (s + f n)) ->
  forall n, (0 <= n)%Z -> P n (zsumR n f).
Proof.
  intros H0 HS n Hn. pattern n. apply natlike_ind; auto.
  intros k Hk IH. unfold Z.succ. rewrite zsum_S by auto. apply HS; auto.
Qed.
Lemma zsum_neg n f : (n <= 0)%Z -> zsumR n f = 0.
Proof. intros. unfold zsum. now replace (Z.to_nat n) with O by lia. Qed.
Lemma zsum_cases (P : Z -> Prop) : (forall n, (n <= 0)%Z -> P n) -> (forall n, (0 <= n)%Z -> P n -> P (n + 1)%Z) ->
  forall n, P n.
Proof.
  intros H0 HS n. destruct (Z_le_gt_dec n 0); auto. pattern n. apply natlike_ind; [| |lia].
  - apply H0. lia.
  - intros k Hk IH. now apply HS.
Qed.
Ltac zind n := pattern n; apply zsum_cases; clear n; [intros n Hn; rewrite ?zsum_neg by auto|intros n Hn IH; rewrite ?zsum_S by auto; cbn [add Num_R] in *].

Lemma zsum_plus n f g : zsumR n (fun i => f i + g i) = zsumR n f + zsumR n g.
Proof. zind n; [lra|]. rewrite IH. lra. Qed.
Lemma zsum_minus n f g : zsumR n (fun i => f i - g i) = zsumR n f - zsumR n g.
Proof. zind n; [lra|]. rewrite IH. lra. Qed.
Lemma zsum_scal n c f : zsumR n (fun i => c * f i) = c * zsumR n f.
Proof. zind n; [lra|]. rewrite IH. lra. Qed.
Lemma zsum_scal_r n c f : zsumR n (fun i => f i * c) = zsumR n f * c.
Proof. zind n; [lra|]. rewrite IH. lra. Qed.
Lemma zsum_opp n f : zsumR n (fun i => - f i) = - zsumR n f.
Proof. zind n; [lra|]. rewrite IH. lra. Qed.
Lemma zsum_zero n : zsumR n (fun _ => 0) = 0.
Proof. zind n; [lra|]. rewrite IH. lra. Qed.
Lemma zsum_const n c : (0 <= n)%Z -> zsumR n (fun _ => c) = IZR n * c.
Proof.
  intros H. revert n H. apply natlike_ind; [rewrite zsum_0; cbn; lra|]. intros n Hn IH. unfold Z.succ.
  rewrite zsum_S by auto. rewrite IH, plus_IZR. cbn. lra.
Qed.
Lemma zsum_all0 n f : (forall i, (0 <= i < n)%Z -> f i = 0) -> zsumR n f = 0.
Proof. intros H. rewrite (zsum_ext n f (fun _ => 0)) by auto. apply zsum_zero. Qed.
Lemma zsum_swap n k (f : Z -> Z -> R) :
  zsumR n (fun i => zsumR k (fun j => f i j)) = zsumR k (fun j => zsumR n (fun i => f i j)).
Proof.
  zind n.
  - symmetry. apply zsum_all0. intros. now rewrite zsum_neg.
  - rewrite IH, <- zsum_plus. apply zsum_ext. intros j Hj. now rewrite zsum_S by auto.
Qed.
(** only one term is non-zero *)
Lemma zsum_single n k f : (0 <= k < n)%Z -> (forall i, (0 <= i < n)%Z -> i <> k -> f i = 0) -> zsumR n f = f k.
Proof.
  revert k. pattern n. apply zsum_cases; clear n; [intros; lia|]. intros n Hn IH k Hk H.
  rewrite zsum_S by auto. cbn [add Num_R]. destruct (Z.eq_dec k n) as [->|Hne].
  - rewrite zsum_all0; [lra|]. intros i Hi. apply H; lia.
  - rewrite (IH k) by (try (intros; apply H); lia). rewrite (H n) by lia. lra.
Qed.
Lemma zsum_delta n k f : (0 <= k < n)%Z -> zsumR n (fun i => if (i =? k)%Z then f i else 0) = f k.
Proof.
  intros Hk. rewrite (zsum_single n k) by (first [solve [auto]|intros i Hi Hne; destruct (Z.eqb_spec i k); [lia|auto]]).
  now rewrite Z.eqb_refl.
Qed.
Lemma zsum_le n f g : (forall i, (0 <= i < n)%Z -> f i <= g i) -> zsumR n f <= zsumR n g.
Proof.
  pattern n. apply zsum_cases; clear n.
  - intros n Hn _. rewrite !zsum_neg by auto. lra.
  - intros n Hn IH H. rewrite !zsum_S by auto. cbn [add Num_R].
    assert (zsumR n f <= zsumR n g) by (apply IH; intros; apply H; lia). specialize (H n ltac:(lia)). lra.
Qed.
Lemma zsum_nonneg n f : (forall i, (0 <= i < n)%Z -> 0 <= f i) -> 0 <= zsumR n f.
Proof. intros H. rewrite <- (zsum_zero n). apply zsum_le. auto. Qed.
Lemma zsum_pos n f : (0 < n)%Z -> (forall i, (0 <= i < n)%Z -> 0 < f i) -> 0 < zsumR n f.
Proof.
  intros Hn H. replace n with (n - 1 + 1)%Z by lia. rewrite zsum_S by lia. cbn [add Num_R].
  assert (0 <= zsumR (n - 1) f) by (apply zsum_nonneg; intros; left; apply H; lia).
  specialize (H (n - 1)%Z ltac:(lia)). lra.
Qed.
Lemma zsum_nonneg_term n f k : (0 <= k < n)%Z -> (forall i, (0 <= i < n)%Z -> 0 <= f i) -> f k <= zsumR n f.
Proof.
  intros Hk H. revert k Hk H. pattern n. apply zsum_cases; clear n; [intros; lia|]. intros n Hn IH k Hk H.
  rewrite zsum_S by auto. cbn [add Num_R]. destruct (Z.eq_dec k n) as [->|Hne].
  - assert (0 <= zsumR n f) by (apply zsum_nonneg; intros; apply H; lia). lra.
  - assert (f k <= zsumR n f) by (apply IH; [lia|intros; apply H; lia]). specialize (H n ltac:(lia)). lra.
Qed.
Lemma zsum_zero_nonneg n f : (forall i, (0 <= i < n)%Z -> 0 <= f i) -> zsumR n f = 0 ->
  forall i, (0 <= i < n)%Z -> f i = 0.
Proof.
  intros H E i Hi. pose proof (zsum_nonneg_term n f i Hi H). specialize (H i Hi). lra.
Qed.
Lemma zsum_from_R a n f : zsum_from (T := R) (H := Num_R) a n f = a + zsumR n f.
Proof.
  unfold zsum_from, zsum. induction (Z.to_nat n) as [|k IH]; simpl; [lra|]. rewrite IH. lra.
Qed.
Lemma zsum_add_range n k f : (0 <= n)%Z -> (0 <= k)%Z ->
  zsumR (n + k) f = zsumR n f + zsumR k (fun i => f (n + i)%Z).
Proof.
  intros Hn Hk. revert k Hk. apply natlike_ind.
  - rewrite zsum_0, Z.add_0_r. cbn. lra.
  - intros k Hk IH. unfold Z.succ. rewrite Z.add_assoc, !zsum_S by lia. rewrite IH. cbn [add Num_R]. lra.
Qed.

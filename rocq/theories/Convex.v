(** * Minimising functions: proofs for C118-C121 over the real numbers *)
From Coq Require Import Reals Lra Permutation.
From Verif Require Import Mem Scalar MemSpec MemLemmas Optimizer OptimizerSpec RealSpec RSum ConvexSpec PropOptimizers.
Local Open Scope R_scope.

Section Sums.
Context {Nm : Type} (ks : list Nm) (N : Nm -> Z).
Notation tot := (total ks N).
Notation dot := (dot ks N).
Notation norm2 := (norm2 ks N).
Notation agree := (agree ks N).
Implicit Types f g x y z v : @point Nm.

Lemma tot_plus f g : tot (fun k j => f k j + g k j) = tot f + tot g.
Proof. unfold total. induction ks as [|k l IH]; cbn [fold_right]; [ring|]. rewrite IH. unfold rsum. rewrite zsum_plus. ring. Qed.
Lemma tot_scal c f : tot (fun k j => c * f k j) = c * tot f.
Proof. unfold total. induction ks as [|k l IH]; cbn [fold_right]; [ring|]. rewrite IH. unfold rsum. rewrite zsum_scal. ring. Qed.
Lemma tot_minus f g : tot (fun k j => f k j - g k j) = tot f - tot g.
Proof. unfold total. induction ks as [|k l IH]; cbn [fold_right]; [ring|]. rewrite IH. unfold rsum. rewrite zsum_minus. ring. Qed.
Lemma tot_le f g : (forall k j, In k ks -> (0 <= j < N k)%Z -> f k j <= g k j) -> tot f <= tot g.
Proof.
  unfold total. induction ks as [|k l IH]; cbn [fold_right]; intros H; [lra|]. apply Rplus_le_compat.
  - apply zsum_le. intros j Hj. apply H; [now left|exact Hj].
  - apply IH. intros k' j I Hj. apply H; [now right|exact Hj].
Qed.
Lemma tot_ext f g : (forall k j, In k ks -> (0 <= j < N k)%Z -> f k j = g k j) -> tot f = tot g.
Proof. intros H. apply Rle_antisym; apply tot_le; intros k j I Hj; rewrite (H k j I Hj); lra. Qed.
Lemma tot_0 : tot (fun _ _ => 0) = 0.
Proof. unfold total. induction ks as [|k l IH]; cbn [fold_right]; [ring|]. rewrite IH. unfold rsum. rewrite zsum_zero. ring. Qed.
Lemma norm2_nonneg x : 0 <= norm2 x.
Proof. rewrite <- tot_0. apply tot_le. intros. nra. Qed.
Lemma norm2_0 x : norm2 x = 0 -> agree x (fun _ _ => 0).
Proof.
  unfold norm2, ConvexSpec.norm2, ConvexSpec.dot, total. intros H k j I Hj.
  assert (Q : forall l, fold_right (fun k s => rsum (N k) (fun j => x k j * x k j) + s) 0 l >= 0).
  { induction l as [|a l IH]; cbn [fold_right]; [lra|]. assert (0 <= rsum (N a) (fun j => x a j * x a j)) by (apply zsum_nonneg; intros; nra). lra. }
  induction ks as [|a l IH]; [destruct I|]. cbn [fold_right] in H. pose proof (Q l). assert (A : 0 <= rsum (N a) (fun j => x a j * x a j)) by (apply zsum_nonneg; intros; nra).
  destruct I as [->|I]; [|apply IH; auto; lra].
  assert (E : rsum (N k) (fun j => x k j * x k j) = 0) by lra. pose proof (zsum_zero_nonneg (N k) (fun j => x k j * x k j) ltac:(intros; nra) E j Hj) as B. cbv beta in B. nra.
Qed.
Lemma dot_sym x y : dot x y = dot y x. Proof. apply tot_ext. intros. ring. Qed.
Lemma dot_agree x x' y y' : agree x x' -> agree y y' -> dot x y = dot x' y'.
Proof. intros A B. apply tot_ext. intros k j I Hj. now rewrite (A k j I Hj), (B k j I Hj). Qed.
Lemma agree_refl x : agree x x. Proof. intros k j _ _. reflexivity. Qed.
Lemma agree_sym x y : agree x y -> agree y x. Proof. intros H k j I Hj. symmetry. auto. Qed.
Lemma agree_trans x y z : agree x y -> agree y z -> agree x z. Proof. intros H H' k j I Hj. rewrite (H k j I Hj). auto. Qed.
(** <x, b y + c z> *)
Lemma dot_lin x y z b c : dot x (fun k j => b * y k j + c * z k j) = b * dot x y + c * dot x z.
Proof. unfold ConvexSpec.dot. rewrite <- !tot_scal, <- tot_plus. apply tot_ext. intros. ring. Qed.
Lemma dot_scal x y c : dot x (fun k j => c * y k j) = c * dot x y.
Proof. unfold ConvexSpec.dot. rewrite <- tot_scal. apply tot_ext. intros. ring. Qed.
Lemma dot_minus x y z : dot x (minus y z) = dot x y - dot x z.
Proof. unfold ConvexSpec.dot, minus. rewrite <- tot_minus. apply tot_ext. intros. ring. Qed.
Lemma norm2_minus x y : norm2 (minus x y) = norm2 x - 2 * dot x y + norm2 y.
Proof. unfold ConvexSpec.norm2, ConvexSpec.dot, minus. rewrite <- tot_scal, <- tot_minus, <- tot_plus. apply tot_ext. intros. ring. Qed.

Context (F : @point Nm -> R) (G : @point Nm -> @point Nm).
Lemma smooth_ext L x y : smooth ks N L F G -> agree x y -> F x = F y.
Proof.
  intros H A. specialize (H x y).
  assert (E1 : ConvexSpec.dot ks N (G x) (minus y x) = 0). { rewrite <- tot_0. apply tot_ext. intros k j I Hj. unfold minus. rewrite (A k j I Hj). ring. }
  assert (E2 : norm2 (minus y x) = 0). { rewrite <- tot_0. apply tot_ext. intros k j I Hj. unfold minus. rewrite (A k j I Hj). ring. }
  rewrite E1, E2 in H. rewrite Rmult_0_r in H. pose proof (Rabs_pos (F y - F x - 0)). pose proof (Rle_abs (F y - F x - 0)). pose proof (Rle_abs (- (F y - F x - 0))). rewrite Rabs_Ropp in H2. lra.
Qed.
Lemma smooth_up L x y : smooth ks N L F G -> F y <= F x + dot (G x) (minus y x) + L / 2 * norm2 (minus y x).
Proof. intros H. specialize (H x y). pose proof (Rle_abs (F y - F x - dot (G x) (minus y x))). lra. Qed.
(** one step of length [a] *)
Lemma step_down L a x y g : smooth ks N L F G -> 0 <= a -> a * L <= 1 -> agree g (G x) -> agree y (fun k j => x k j - a * g k j) ->
  F y + a / 2 * norm2 g <= F x.
Proof.
  intros S A0 A1 Eg Ey. pose proof (smooth_up L x y S) as H.
  assert (E : agree (minus y x) (fun k j => (- a) * g k j)). { intros k j I Hj. unfold minus. rewrite (Ey k j I Hj). ring. }
  unfold ConvexSpec.norm2 in H. rewrite (dot_agree _ _ _ _ (agree_sym _ _ Eg) E), (dot_agree _ _ _ _ E E) in H.
  rewrite (dot_scal g g (- a)), (dot_scal (fun k j => - a * g k j) g (- a)), (dot_sym (fun k j => - a * g k j) g), (dot_scal g g (- a)) in H. fold (norm2 g) in H.
  pose proof (norm2_nonneg g) as Q. set (n := norm2 g) in *. clearbody n.
  assert (B : 0 <= (1 - a * L) * (a * n)) by (apply Rmult_le_pos; [lra|now apply Rmult_le_pos]). lra.
Qed.
Lemma step_dist a x y g z : agree y (fun k j => x k j - a * g k j) ->
  norm2 (minus y z) = norm2 (minus x z) - 2 * a * dot g (minus x z) + a ^ 2 * norm2 g.
Proof.
  intros Ey. unfold ConvexSpec.norm2, ConvexSpec.dot. rewrite <- !tot_scal, <- tot_minus, <- tot_plus. apply tot_ext. intros k j I Hj. unfold minus. rewrite (Ey k j I Hj). ring.
Qed.
Lemma convex_at x y g : F x + dot (G x) (minus y x) <= F y -> agree g (G x) -> F x - F y <= dot g (minus x y).
Proof.
  intros H E. rewrite (dot_agree _ _ _ _ (agree_sym _ _ E) (agree_refl (minus y x))) in H. rewrite !dot_minus in *. lra.
Qed.
Lemma strong_at c x y g : F x + dot (G x) (minus y x) + c / 2 * norm2 (minus y x) <= F y -> agree g (G x) ->
  F x - F y + c / 2 * norm2 (minus x y) <= dot g (minus x y).
Proof.
  intros H E. rewrite (dot_agree _ _ _ _ (agree_sym _ _ E) (agree_refl (minus y x))) in H. rewrite !norm2_minus, !dot_minus in *. rewrite (dot_sym y x) in H. lra.
Qed.
(** at a minimum of a smooth function the gradient vanishes *)
Lemma minimum_flat L z : 0 < L -> smooth ks N L F G -> minimum F z -> agree (G z) (fun _ _ => 0).
Proof.
  intros L0 S M. apply norm2_0.
  pose proof (step_down L (/ L) z (fun k j => z k j - / L * G z k j) (G z) S) as H.
  assert (I0 : 0 < / L) by now apply Rinv_0_lt_compat. specialize (H ltac:(lra) ltac:(right; field; lra) (agree_refl _) (agree_refl _)).
  pose proof (M (fun k j => z k j - / L * G z k j)). pose proof (norm2_nonneg (G z)). nra.
Qed.
(** the gap controls the gradient *)
Lemma gap_gradient L x z g : 0 < L -> smooth ks N L F G -> convex ks N F G -> minimum F z -> agree g (G x) ->
  F x - F z + norm2 g / (2 * L) <= dot g (minus x z).
Proof.
  intros L0 S C M E. pose proof (minimum_flat L z L0 S M) as Gz.
  set (y := fun k j => z k j + / L * g k j).
  pose proof (C x y) as H1. pose proof (smooth_up L z y S) as H2.
  assert (E0 : dot (G z) (minus y z) = 0). { rewrite <- tot_0. apply tot_ext. intros k j I Hj. rewrite (Gz k j I Hj). ring. }
  assert (E1 : norm2 (minus y z) = (/ L) ^ 2 * norm2 g). { unfold ConvexSpec.norm2, ConvexSpec.dot. rewrite <- tot_scal. apply tot_ext. intros k j I Hj. unfold minus, y. ring. }
  assert (E2 : dot (G x) (minus y x) = / L * norm2 g - dot g (minus x z)).
  { unfold ConvexSpec.norm2, ConvexSpec.dot. rewrite <- tot_scal, <- tot_minus. apply tot_ext. intros k j I Hj. rewrite <- (E k j I Hj). unfold minus, y. ring. }
  rewrite E0, E1 in H2. rewrite E2 in H1.
  replace (L / 2 * ((/ L) ^ 2 * norm2 g)) with (norm2 g / (2 * L)) in H2 by (field; lra).
  replace (/ L * norm2 g) with (2 * (norm2 g / (2 * L))) in H1 by (field; lra). lra.
Qed.
End Sums.

(** ** Rounds *)
Lemma over_app {Nm} (rs rs' : list (round Nm)) f : over (rs ++ rs') f = over rs f + over rs' f.
Proof. unfold over. induction rs as [|r rs IH]; cbn [app fold_right]; [ring|]. rewrite IH. ring. Qed.
Lemma over_one {Nm} (r : round Nm) f : over [r] f = f r. Proof. unfold over. cbn [fold_right]. ring. Qed.
Lemma product_app {Nm} (rs rs' : list (round Nm)) f : product_over (rs ++ rs') f = product_over rs f * product_over rs' f.
Proof. unfold product_over. induction rs as [|r rs IH]; cbn [app fold_right]; [ring|]. rewrite IH. ring. Qed.
Lemma over_nonneg {Nm} (rs : list (round Nm)) f : Forall (fun r => 0 <= f r) rs -> 0 <= over rs f.
Proof. induction 1; unfold over in *; cbn [fold_right]; lra. Qed.
Lemma over_scal {Nm} (rs : list (round Nm)) f c : over rs (fun r => c * f r) = c * over rs f.
Proof. unfold over. induction rs as [|r rs IH]; cbn [fold_right]; [ring|]. rewrite IH. ring. Qed.
Lemma over_ext {Nm} (rs : list (round Nm)) f g : (forall r, In r rs -> f r = g r) -> over rs f = over rs g.
Proof. unfold over. induction rs as [|r rs IH]; cbn [fold_right]; intros H; [ring|]. rewrite IH, (H r); auto; [now left|]. intros q Hq. apply H. now right. Qed.
Lemma over_le {Nm} (rs : list (round Nm)) f g : (forall r, In r rs -> f r <= g r) -> over rs f <= over rs g.
Proof. unfold over. induction rs as [|r rs IH]; cbn [fold_right]; intros H; [lra|]. apply Rplus_le_compat; [apply H; now left|]. apply IH. intros q Hq. apply H. now right. Qed.
Lemma over_total {Nm} (ks : list Nm) N (rs : list (round Nm)) (f : round Nm -> @point Nm) :
  over rs (fun r => total ks N (f r)) = total ks N (fun k j => over rs (fun r => f r k j)).
Proof.
  unfold over at 1. induction rs as [|r rs IH]; cbn [fold_right]; [symmetry; apply tot_0|].
  rewrite IH, <- tot_plus. apply tot_ext. intros. reflexivity.
Qed.
(** if the sum is small some term is *)
Lemma over_some {Nm} (rs : list (round Nm)) (f w : round Nm -> R) B : rs <> [] -> Forall (fun r => 0 <= w r) rs -> over rs (fun r => w r * f r) <= B ->
  exists r, In r rs /\ f r * over rs w <= B.
Proof.
  intros Ne W H.
  assert (Q : exists r, In r rs /\ forall q, In q rs -> f r <= f q).
  { clear H W. induction rs as [|r rs IH]; [contradiction|]. destruct rs as [|r' rs].
    - exists r. split; [now left|]. intros q [<-|[]]. lra.
    - destruct (IH ltac:(discriminate)) as (p & Hp & Mp). destruct (Rle_or_lt (f r) (f p)).
      + exists r. split; [now left|]. intros q [<-|Hq]; [lra|]. specialize (Mp q Hq). lra.
      + exists p. split; [now right|]. intros q [<-|Hq]; [lra|]. auto. }
  destruct Q as (r & Hr & M). exists r. split; [exact Hr|]. eapply Rle_trans; [|exact H]. rewrite <- over_scal. apply over_le.
  intros q Hq. rewrite Forall_forall in W. specialize (W q Hq). specialize (M q Hq). nra.
Qed.

Section Paths.
Context {Nm : Type} `{NI : Names Nm} (addr : ptr -> Z) (P : Nm -> ptr) (N : Nm -> Z) (ks : list Nm).
Context (ND : NoDup ks).

(** What tensor element ([k], [j]) saw in the rounds [rs]. *)
Definition inputs (rs : list (round Nm)) (k : Nm) (j : Z) : list (R * R) := map (fun r => (r_rate r, r_grad r k j)) rs.
Lemma inputs_snoc rs r k j : inputs (rs ++ [r]) k j = inputs rs k j ++ [(r_rate r, r_grad r k j)].
Proof. unfold inputs. now rewrite map_app. Qed.
(** The rounds took place along the path of the rule [ru] from [w]. *)
Definition path (ru : R -> list (R * R) -> R) (w : @point Nm) (rs : list (round Nm)) : Prop :=
  forall rs1 r rs2, rs = rs1 ++ r :: rs2 -> agree ks N (r_at r) (fun k j => ru (w k j) (inputs rs1 k j)).
Lemma path_snoc ru w rs r : path ru w (rs ++ [r]) <-> path ru w rs /\ agree ks N (r_at r) (fun k j => ru (w k j) (inputs rs k j)).
Proof.
  split.
  - intros H. split; [|now apply (H rs r [])]. intros rs1 q rs2 ->. apply (H rs1 q (rs2 ++ [r])). now rewrite <- app_assoc.
  - intros [H H'] rs1 q rs2 E. destruct (rev_ind (fun l => l = [] \/ exists l' x, l = l' ++ [x]) ltac:(now left) ltac:(intros; right; eauto) rs2) as [->|(l' & x & ->)].
    + apply app_inj_tail in E as [-> ->]. exact H'.
    + rewrite app_comm_cons, app_assoc in E. apply app_inj_tail in E as [-> _]. now apply (H rs1 q l').
Qed.

Lemma history_trans lr0 o0 (m0 : mem R) cs lr o m cs' lr' o' m' : history addr P N lr0 o0 m0 cs lr o m ->
  history addr P N lr o m cs' lr' o' m' -> history addr P N lr0 o0 m0 (cs ++ cs') lr' o' m'.
Proof.
  intros H. induction 1 as [|cs1 lr1 o1 m1 k gp g o2 m2 H1 IH Hg Hs E|cs1 lr1 o1 m1 lr2 H1 IH|cs1 lr1 o1 m1 m2 H1 IH A B].
  - now rewrite app_nil_r.
  - rewrite app_assoc. eapply h_update; eauto.
  - eapply h_learning_rate; eauto.
  - eapply h_other; eauto.
Qed.
(** a round gives each tensor one call *)
Lemma one_call (cs : list (call R Nm)) k j r : Permutation (map c_tensor cs) ks -> In k ks -> (0 <= j < N k)%Z ->
  Forall (fun c => c_lr c = r_rate r /\ forall j, (0 <= j < N (c_tensor c))%Z -> c_grad c j = r_grad r (c_tensor c) j) cs ->
  own_calls k j cs = [(r_rate r, r_grad r k j)].
Proof.
  intros Pm I Hj Fa. assert (Nd : NoDup (map c_tensor cs)) by (eapply Permutation_NoDup; [apply Permutation_sym; exact Pm|exact ND]).
  assert (I' : In k (map c_tensor cs)) by (eapply Permutation_in; [apply Permutation_sym; exact Pm|exact I]). clear Pm I ND.
  unfold own_calls. induction cs as [|c cs IH]; [destruct I'|]. cbn [map] in Nd, I'. apply NoDup_cons_iff in Nd as [Nc Nd]. apply Forall_cons_iff in Fa as [Fc Fa].
  cbn [filter]. destruct (same_spec (c_tensor c) k) as [Ec|Ne]; [subst k|].
  - cbn [map]. destruct Fc as [-> Fg]. rewrite Fg by exact Hj.
    enough (Q : filter (fun c0 : call R Nm => same (c_tensor c0) (c_tensor c)) cs = []) by now rewrite Q.
    clear -Nc. induction cs as [|d cs IH]; [reflexivity|]. cbn [filter]. cbn [map] in Nc. destruct (same_spec (c_tensor d) (c_tensor c)) as [E|_]; [exfalso; apply Nc; now left|].
    apply IH. intros H. apply Nc. now right.
  - apply IH; auto. destruct I' as [E|I']; [contradiction|exact I'].
Qed.
Lemma own_app k j (cs cs' : list (call R Nm)) : own_calls k j (cs ++ cs') = own_calls k j cs ++ own_calls k j cs'.
Proof. unfold own_calls. now rewrite filter_app, map_app. Qed.
Lemma rounds_history lr0 o0 m0 rs lr o m : rounds addr P N ks lr0 o0 m0 rs lr o m ->
  exists cs, history addr P N lr0 o0 m0 cs lr o m /\ forall k j, In k ks -> (0 <= j < N k)%Z -> own_calls k j cs = inputs rs k j.
Proof.
  induction 1 as [|rs lr o m r cs lr' o' m' H (cs0 & H0 & E0) Hx Hh Pm Fa].
  - exists []. split; [constructor|reflexivity].
  - exists (cs0 ++ cs). split; [eapply history_trans; eauto|]. intros k j I Hj. rewrite own_app, inputs_snoc, E0 by auto. f_equal. now apply one_call.
Qed.
Lemma rounds_path ru w lr0 o0 m0 : (forall cs lr o m k, history addr P N lr0 o0 m0 cs lr o m -> holds m (P k) (N k) (fun j => ru (w k j) (own_calls k j cs))) ->
  forall rs lr o m, rounds addr P N ks lr0 o0 m0 rs lr o m -> path ru w rs /\ forall k, In k ks -> holds m (P k) (N k) (fun j => ru (w k j) (inputs rs k j)).
Proof.
  intros Ru.
  assert (End : forall rs lr o m, rounds addr P N ks lr0 o0 m0 rs lr o m -> forall k, In k ks -> holds m (P k) (N k) (fun j => ru (w k j) (inputs rs k j))).
  { intros rs lr o m H k I. destruct (rounds_history lr0 o0 m0 rs lr o m H) as (cs & Hh & E). eapply holds_ext; [|exact (Ru cs lr o m k Hh)]. intros j Hj. cbv beta. now rewrite E. }
  intros rs lr o m H. split; [|exact (End _ _ _ _ H)].
  induction H as [|rs lr o m r cs lr' o' m' H IH Hx Hh Pm Fa]; [intros [|a rs1] r rs2 E; discriminate|].
  apply path_snoc. split; [exact IH|]. intros k j I Hj.
  pose proof (Hx k I j Hj) as A. pose proof (End _ _ _ _ H k I j Hj) as B. congruence.
Qed.
End Paths.

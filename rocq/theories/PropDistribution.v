(** * Property C130: how often random choices come out *)
From Coq Require Import ZArith Reals Lra Lia List.
From Flocq Require Import Core.
From Verif Require Import Mem Scalar MemSpec MemLemmas Lique LiqueSpec LinearProofs RSum InverseProofs Tool PropTool Misc PropMisc Schedule PropTraining.
Import ListNotations.
Open Scope Z_scope.

(** Specification: exactly [c] of the generator outputs 0, ..., N-1 satisfy [P]. *)
Definition occurs (N : Z) (P : Z -> Prop) (c : Z) : Prop :=
  exists l, NoDup l /\ (forall g, In g l <-> 0 <= g < N /\ P g) /\ Z.of_nat (length l) = c.

Lemma occurs_unique N P c c' : occurs N P c -> occurs N P c' -> c = c'.
Proof.
  intros (l & D & H & <-) (l' & D' & H' & <-). f_equal. apply Nat.le_antisymm; apply NoDup_incl_length; auto; intros g Hg; [apply H', H|apply H, H']; exact Hg.
Qed.
Lemma occurs_ext N (P Q : Z -> Prop) c : (forall g, 0 <= g < N -> (P g <-> Q g)) -> occurs N P c -> occurs N Q c.
Proof. intros E (l & D & H & L). exists l. split; [exact D|]. split; [|exact L]. intros g. rewrite H. split; intros [A B]; split; auto; now apply E. Qed.
Lemma occurs_interval N a b : 0 <= a <= b -> b <= N -> occurs N (fun g => a <= g < b) (b - a).
Proof. intros H1 H2. exists (zrange a b). split; [apply zrange_NoDup|]. split; [|apply zrange_length; lia]. intros g. rewrite in_zrange. lia. Qed.
Lemma occurs_or N (P Q : Z -> Prop) c d : (forall g, P g -> Q g -> False) -> occurs N P c -> occurs N Q d -> occurs N (fun g => P g \/ Q g) (c + d).
Proof.
  intros X (l & D & H & <-) (l' & D' & H' & <-). exists (l ++ l'). split; [|split].
  - clear - X D H D' H'. assert (Y : forall g, In g l -> ~ In g l') by (intros g A B; apply H in A; apply H' in B; apply (X g); tauto). clear H X.
    induction D as [|x l NI D IH]; [exact D'|]. cbn. constructor; [rewrite in_app_iff; intros [A|A]; [tauto|apply (Y x); [now left|exact A]]|apply IH; intros; apply Y; now right].
  - intros g. rewrite in_app_iff, H, H'. tauto.
  - rewrite app_length. lia.
Qed.
(** residues *)
Lemma occurs_mod N n r : 0 <= N -> 0 <= r < n -> exists c, occurs N (fun g => g mod n = r) c /\ N / n <= c <= N / n + 1.
Proof.
  intros HN Hr. set (c := (N - r + n - 1) / n). assert (C0 : 0 <= c) by (apply Z.div_pos; lia). exists c. split.
  - exists (map (fun q => q * n + r) (zrange 0 c)). split; [|split].
    + apply FinFun.Injective_map_NoDup; [|apply zrange_NoDup]. intros a b E. nia.
    + intros g. rewrite in_map_iff. assert (Dc : n * c <= N - r + n - 1 < n * c + n) by (unfold c; pose proof (Z.div_mod (N - r + n - 1) n ltac:(lia)); pose proof (Z.mod_pos_bound (N - r + n - 1) n ltac:(lia)); lia). split.
      * intros (q & <- & Hq). apply in_zrange in Hq. split; [nia|]. rewrite Z.add_comm, Z_mod_plus_full. apply Z.mod_small. lia.
      * intros [Hg E]. exists (g / n). pose proof (Z.div_mod g n ltac:(lia)) as DM. split; [rewrite E in DM; lia|]. apply in_zrange. split; [apply Z.div_pos; lia|]. rewrite E in DM. nia.
    + rewrite map_length, zrange_length; lia.
  - unfold c. split; [apply Z.div_le_mono; lia|]. replace (N / n + 1) with ((N + 1 * n) / n) by (apply Z.div_add; lia). apply Z.div_le_mono; lia.
Qed.

(** ** Integers: of the RAND_MAX + 1 outputs of the default generator every value of the range gets its share, up to one *)
Theorem C130_integral t lo hi v : int_type t -> of_type t rand_max -> of_type t lo -> of_type t hi -> width_fits t lo hi -> lo <= v <= hi ->
  let share := (rand_max + 1) / (hi - lo + 1) in
  exists c, occurs (rand_max + 1) (fun g => random_integral_range t g lo hi = Ok v) c /\ share <= c <= share + 1.
Proof.
  intros Ht [_ Hr] Hlo Hhi Hw Hv share. destruct (occurs_mod (rand_max + 1) (hi - lo + 1) (v - lo)) as (c & O & B); [unfold rand_max; lia|lia|]. exists c. split; [|exact B].
  apply occurs_ext with (2 := O). intros g Hg. assert (i_min t <= 0) by (unfold i_min; destruct (i_signed t); [|lia]; pose proof (i_range t Ht); lia).
  assert (E : i_cast t g = g) by (apply i_cast_id; auto; unfold of_type; lia). rewrite range_value by (auto; try lia; rewrite E; lia). rewrite E. split; [intros ->; f_equal; lia|]. intros X. injection X. lia.
Qed.
(** ** Samples of stochastic training: whatever the other draws, step [j] presents each of the [n] samples for its share of
    the [N] outputs of the generator, up to one. *)
Theorem C130_stochastic_sample {T} {NT : Num T} (n S j i N : Z) (g : Z -> Z) : 0 <= j < S -> 0 <= i < n -> 0 <= N ->
  exists c, occurs N (fun v => nth_error (presented (T := T) (stochastic_schedule n S (fun s => if s =? j then v else g s))) (Z.to_nat j) = Some i) c /\
    N / n <= c <= N / n + 1.
Proof.
  intros Hj Hi HN. destruct (occurs_mod N n i HN Hi) as (c & O & B). exists c. split; [|exact B]. apply occurs_ext with (2 := O). intros v _.
  rewrite (proj1 (C69_valid_samples (T := T) n S _ ltac:(lia) ltac:(lia))). rewrite nth_error_map. unfold zrange. rewrite nth_error_map.
  rewrite (nth_error_nth' (seq 0 (Z.to_nat (S - 0))) 0%nat) by (rewrite seq_length; lia). rewrite seq_nth by lia. cbn [option_map]. replace (0 + Z.of_nat (0 + Z.to_nat j)) with j by lia. rewrite Z.eqb_refl.
  split; [intros ->; reflexivity|]. intros X. now injection X.
Qed.

(** ** Reals *)
Local Open Scope R_scope.
Lemma ceil_le x g : (Zceil x <= g)%Z <-> x <= IZR g.
Proof. split; intros H; [apply Rle_trans with (1 := Zceil_ub x); now apply IZR_le|now apply Zceil_glb]. Qed.
Lemma ceil_bound x : x <= IZR (Zceil x) < x + 1.
Proof. split; [apply Zceil_ub|]. unfold Zceil. rewrite opp_IZR. pose proof (Zfloor_ub (- x)). lra. Qed.
Lemma ceil_pos x : 0 <= x -> (0 <= Zceil x)%Z.
Proof. intros H. apply le_IZR. apply Rle_trans with (1 := H), Zceil_ub. Qed.

(** random(lo, hi): the number of outputs that give a value at most [c] is that of the uniform distribution, up to one *)
Theorem C130_floating (gmax : Z) (lo hi c : R) : (0 < gmax)%Z -> lo < hi -> lo <= c < hi ->
  exists k, occurs (gmax + 1) (fun g => random_floating_range g gmax lo hi <= c) k /\
    Rabs (IZR k - (c - lo) / (hi - lo) * IZR (gmax + 1)) <= 1.
Proof.
  intros Hm Hl Hc. set (x := (c - lo) / (hi - lo)). assert (M : 0 < IZR gmax) by (now apply IZR_lt). assert (X : 0 <= x < 1).
  { unfold x. split; [apply Rmult_le_pos; [lra|left; apply Rinv_0_lt_compat; lra]|]. apply Rmult_lt_reg_r with (hi - lo); [lra|]. unfold Rdiv. rewrite Rmult_assoc, Rinv_l; lra. }
  set (k := (Zfloor (IZR gmax * x) + 1)%Z). pose proof (Zfloor_lb (IZR gmax * x)) as F1. pose proof (Zfloor_ub (IZR gmax * x)) as F2.
  assert (MX : 0 <= IZR gmax * x < IZR gmax) by (split; [apply Rmult_le_pos; lra|nra]).
  assert (K0 : (0 <= Zfloor (IZR gmax * x))%Z) by (apply Zfloor_lub; lra). assert (K1 : (Zfloor (IZR gmax * x) < gmax)%Z) by (apply lt_IZR; lra).
  exists k. split.
  - apply occurs_ext with (P := fun g => (0 <= g < k)%Z); [|pose proof (occurs_interval (gmax + 1) 0 k) as OI; rewrite Z.sub_0_r in OI; apply OI; unfold k; lia].
    intros g Hg. unfold random_floating_range, random_floating. cbn [add mul sub div ofZ Num_R]. unfold k.
    assert (Q : (hi - lo) * (IZR g / IZR gmax) + lo <= c <-> IZR g <= IZR gmax * x).
    { assert (E : (hi - lo) * (IZR g / IZR gmax) + lo - c = (IZR g - IZR gmax * x) * ((hi - lo) / IZR gmax)) by (unfold x; field; lra).
      assert (P : 0 < (hi - lo) / IZR gmax) by (apply Rdiv_lt_0_compat; lra). set (y := (hi - lo) / IZR gmax) in *. set (z := IZR g - IZR gmax * x) in *. split; intros H; [assert (z <= 0); [|unfold z in *; lra]; destruct (Rle_dec z 0); [assumption|exfalso; assert (0 < z * y) by (apply Rmult_lt_0_compat; lra); lra]|].
      assert (z <= 0) by (unfold z; lra). assert (z * y <= 0) by (rewrite <- (Rmult_0_l y); apply Rmult_le_compat_r; lra). lra. }
    rewrite Q. split.
    + intros H. apply Rle_trans with (2 := F1). apply IZR_le. lia.
    + intros H. split; [lia|]. apply Zfloor_lub in H. lia.
  - unfold k. rewrite !plus_IZR. apply Rabs_le. split; nra.
Qed.

(** multinomial: index [k] comes out for its share w_k of the outputs 0, ..., rand_max, up to one; what the weights leave below 1,
    and the output rand_max, goes to the first largest weight *)
Notation rsum n f := (zsum (T := R) (H := Num_R) n f).
Section Multinomial.
Context (p : ptr) (n : Z) (w : Z -> R) (m : mem R).
Context (Hn : (0 < n)%Z) (Hm : holds m p n w) (Hw : forall i, (0 <= i < n)%Z -> 0 <= w i).
Lemma c_mono j i : (0 <= i)%Z -> (i <= j)%Z -> (j <= n)%Z -> rsum i w <= rsum j w.
Proof.
  intros Hi. revert i Hi. assert (G : forall k i, (0 <= i)%Z -> (i + Z.of_nat k <= n)%Z -> rsum i w <= rsum (i + Z.of_nat k) w).
  { intros k. induction k as [|k IH]; intros i Hi Hk; [rewrite Z.add_0_r; lra|]. replace (i + Z.of_nat (S k))%Z with (i + Z.of_nat k + 1)%Z by lia. rewrite zsum_S by lia. cbn [add Num_R]. pose proof (IH i Hi ltac:(lia)). pose proof (Hw (i + Z.of_nat k)%Z ltac:(lia)). lra. }
  intros i Hi Hij Hjn. replace j with (i + Z.of_nat (Z.to_nat (j - i)))%Z by lia. apply G; lia.
Qed.
Lemma best_unique a b : first_best (ltb (T := R)) n w a -> first_best (ltb (T := R)) n w b -> a = b.
Proof.
  intros (A1 & A2 & A3) (B1 & B2 & B3). destruct (Z.lt_trichotomy a b) as [H|[H|H]]; [|exact H|].
  - pose proof (B3 a ltac:(lia)) as X. rewrite (A2 b B1) in X. discriminate.
  - pose proof (A3 b ltac:(lia)) as X. rewrite (B2 a A1) in X. discriminate.
Qed.
Lemma multinomial_event g rm k a : (0 <= g)%Z -> (0 < rm)%Z -> (0 <= k < n)%Z -> first_best (ltb (T := R)) n w a ->
  tl_multinomial p n g rm m = Ok (k, m) <-> (rsum k w <= IZR g / IZR rm < rsum (k + 1) w \/ (rsum n w <= IZR g / IZR rm /\ k = a)).
Proof.
  intros Hg Hrm Hk Ha. destruct (C26_multinomial p n w g rm m C21_real_order_is_strict_weak Hn Hm) as (k' & E & Hk' & C). rewrite E. cbn [div ofZ ltb Num_R] in C. set (r := IZR g / IZR rm) in *.
  assert (R0 : 0 <= r) by (apply Rmult_le_pos; [now apply IZR_le|left; apply Rinv_0_lt_compat; now apply IZR_lt]).
  assert (EV : rsum k' w <= r < rsum (k' + 1) w \/ (rsum n w <= r /\ k' = a)).
  { destruct C as [[C1 C2]|[C1 C2]].
    - left. apply Rltb_spec in C1. split; [|exact C1]. destruct (Z.eq_dec k' 0) as [->|]; [rewrite zsum_0; exact R0|]. specialize (C2 (k' - 1)%Z ltac:(lia)). apply Rltb_false in C2. now replace (k' - 1 + 1)%Z with k' in C2 by lia.
    - right. split; [|now apply best_unique]. specialize (C1 (n - 1)%Z ltac:(lia)). apply Rltb_false in C1. now replace (n - 1 + 1)%Z with n in C1 by lia. }
  split.
  - intros X. injection X as <-. exact EV.
  - intros EV'. f_equal. f_equal.
    assert (Y : forall i, (0 <= i < n)%Z -> rsum (i + 1) w <= rsum n w) by (intros; apply c_mono; lia).
    destruct EV as [[L1 L2]|[L1 ->]], EV' as [[M1 M2]|[M1 ->]].
    + destruct (Z.lt_trichotomy k' k) as [H|[H|H]]; [|exact H|].
      * pose proof (c_mono k (k' + 1)%Z ltac:(lia) ltac:(lia) ltac:(lia)). lra.
      * pose proof (c_mono k' (k + 1)%Z ltac:(lia) ltac:(lia) ltac:(lia)). lra.
    + pose proof (Y k' Hk'). lra.
    + pose proof (Y k Hk). lra.
    + reflexivity.
Qed.
Theorem C130_multinomial (rand_max k : Z) : (0 < rand_max)%Z -> rsum n w <= 1 -> (0 <= k < n)%Z ->
  exists c, occurs (rand_max + 1) (fun g => tl_multinomial p n g rand_max m = Ok (k, m)) c /\
    ((exists i, (0 <= i < n)%Z /\ (w k < w i \/ (i < k)%Z /\ w i = w k)) -> Rabs (IZR c - w k * IZR rand_max) < 1) /\
    ((forall i, (0 <= i < n)%Z -> w i <= w k /\ ((i < k)%Z -> w i < w k)) -> -1 < IZR c - (w k + 1 - rsum n w) * IZR rand_max < 2).
Proof.
  intros Hrm S1 Hk. set (M := IZR rand_max). assert (M0 : 0 < M) by (now apply IZR_lt).
  destruct (search_spec (ltb (T := R)) p n w m C21_real_order_is_strict_weak Hn Hm) as (a & _ & Ha).
  set (A := Zceil (M * rsum k w)). set (B := Zceil (M * rsum (k + 1) w)). set (C := Zceil (M * rsum n w)).
  assert (P0 : 0 <= rsum k w) by (pose proof (c_mono k 0 ltac:(lia) ltac:(lia) ltac:(lia)) as X0; rewrite zsum_0 in X0; exact X0).
  assert (P1 : rsum k w <= rsum (k + 1) w) by (apply c_mono; lia). assert (P2 : rsum (k + 1) w <= rsum n w) by (apply c_mono; lia).
  assert (A0 : (0 <= A)%Z) by (apply ceil_pos, Rmult_le_pos; lra). assert (AB : (A <= B)%Z) by (apply Zceil_le, Rmult_le_compat_l; lra). assert (BC : (B <= C)%Z) by (apply Zceil_le, Rmult_le_compat_l; lra).
  assert (CM : (C <= rand_max)%Z) by (apply ceil_le; fold M; nra).
  pose proof (ceil_bound (M * rsum k w)) as BA. pose proof (ceil_bound (M * rsum (k + 1) w)) as BB. pose proof (ceil_bound (M * rsum n w)) as BCC. fold A in BA. fold B in BB. fold C in BCC.
  assert (W : rsum (k + 1) w = rsum k w + w k) by (rewrite zsum_S by lia; reflexivity). rewrite W in BB.
  assert (EQ : forall g s, (0 <= g)%Z -> (s <= IZR g / IZR rand_max <-> (Zceil (M * s) <= g)%Z)).
  { intros g s Hg. rewrite ceil_le. fold M. replace (IZR g / M) with (IZR g * / M) by reflexivity. assert (I0 : 0 < / M) by (now apply Rinv_0_lt_compat). split; intros H.
    - replace (IZR g) with (M * (IZR g * / M)) by (field; lra). apply Rmult_le_compat_l; lra.
    - replace s with (M * s * / M) by (field; lra). apply Rmult_le_compat_r; lra. }
  assert (I1 : occurs (rand_max + 1) (fun g => (A <= g < B)%Z) (B - A)) by (apply occurs_interval; lia).
  destruct (Z.eq_dec k a) as [->|Ne].
  - exists (B - A + (rand_max + 1 - C))%Z. split; [|split].
    + apply occurs_ext with (P := fun g => (A <= g < B)%Z \/ (C <= g < rand_max + 1)%Z).
      * intros g Hg. rewrite (multinomial_event g rand_max a a ltac:(lia) Hrm Hk Ha). rewrite (EQ g (rsum n w)) by lia. fold C.
        assert (Q : rsum a w <= IZR g / IZR rand_max < rsum (a + 1) w <-> (A <= g < B)%Z). { rewrite (EQ g (rsum a w)) by lia. fold A. split; intros [H1 H2]; (split; [exact H1|]); [destruct (Z_lt_le_dec g B) as [|H]; [assumption|apply EQ in H; [lra|lia]]|destruct (Rlt_le_dec (IZR g / IZR rand_max) (rsum (a + 1) w)) as [|H]; [assumption|apply EQ in H; [fold B in H; lia|lia]]]. }
        rewrite Q. split; intros [H|H]; try (left; lia); right; lia.
      * apply occurs_or; [intros; lia|exact I1|apply occurs_interval; lia].
    + intros (i & Hi & X). exfalso. destruct Ha as (_ & H1 & H2). specialize (H1 i Hi). apply Rltb_false in H1. destruct X as [X|[X1 X2]]; [lra|]. specialize (H2 i ltac:(lia)). apply Rltb_spec in H2. lra.
    + intros _. rewrite plus_IZR, !minus_IZR, plus_IZR. fold M. nra.
  - exists (B - A)%Z. split; [|split].
    + apply occurs_ext with (2 := I1). intros g Hg. rewrite (multinomial_event g rand_max k a ltac:(lia) Hrm Hk Ha).
      assert (Q : rsum k w <= IZR g / IZR rand_max < rsum (k + 1) w <-> (A <= g < B)%Z). { rewrite (EQ g (rsum k w)) by lia. fold A. split; intros [H1 H2]; (split; [exact H1|]); [destruct (Z_lt_le_dec g B) as [|H]; [assumption|apply EQ in H; [lra|lia]]|destruct (Rlt_le_dec (IZR g / IZR rand_max) (rsum (k + 1) w)) as [|H]; [assumption|apply EQ in H; [fold B in H; lia|lia]]]. }
      rewrite Q. split; [tauto|]. intros [H|[_ H]]; [exact H|contradiction].
    + intros _. rewrite minus_IZR. apply Rabs_def1; nra.
    + intros X. exfalso. apply Ne. apply best_unique; [|exact Ha]. split; [exact Hk|]. split; intros i Hi; cbn [ltb Num_R]; [apply Rltb_false, X, Hi|apply Rltb_spec; apply X; lia].
Qed.
End Multinomial.

Module Examples.
Open Scope Z_scope.
(** a die: of the 2^31 outputs of rand each face gets 357913941 or 357913942 *)
Example die v : 1 <= v <= 6 -> exists c, occurs (rand_max + 1) (fun g => random_integral_range c_int g 1 6 = Ok v) c /\ 357913941 <= c <= 357913942.
Proof. intros Hv. apply (C130_integral c_int 1 6 v); unfold int_type, of_type, width_fits; cbn; lia. Qed.
(** weights 1/2, 1/4, 1/4 and a generator with 0..100: 50 + the output 100, 25, 25 *)
Definition memR : mem R := [Some (map Some [(/ 2)%R; (/ 4)%R; (/ 4)%R])].
Definition w3 (i : Z) : R := nth (Z.to_nat i) [(/ 2)%R; (/ 4)%R; (/ 4)%R] 0%R.
Lemma hw : holds memR (Ptr 0 0) 3 w3. Proof. exact (holds_list memR 0 [(/ 2)%R; (/ 4)%R; (/ 4)%R] 0%R eq_refl). Qed.
Lemma w30 : w3 0 = (/ 2)%R. Proof. reflexivity. Qed.
Lemma w31 : w3 1 = (/ 4)%R. Proof. reflexivity. Qed.
Lemma w32 : w3 2 = (/ 4)%R. Proof. reflexivity. Qed.
Example shares : exists c, occurs 101 (fun g => tl_multinomial (Ptr 0 0) 3 g 100 memR = Ok (2, memR)) c /\ c = 25.
Proof.
  destruct (C130_multinomial (Ptr 0 0) 3 w3 memR ltac:(lia) hw) with (rand_max := 100) (k := 2) as (c & O & H & _).
  - intros i Hi. assert (X : i = 0 \/ i = 1 \/ i = 2) by lia. destruct X as [->|[->| ->]]; rewrite ?w30, ?w31, ?w32; lra.
  - lia.
  - change 3 with (0 + 1 + 1 + 1). rewrite !zsum_S, zsum_0 by lia. cbn [add zero Num_R]. change (0 + 1) with 1. change (1 + 1) with 2. rewrite w30, w31, w32. lra.
  - lia.
  - exists c. split; [exact O|]. specialize (H (ex_intro _ 0 (conj (conj (Z.le_refl 0) eq_refl) (or_introl (ltac:(rewrite w30, w32; lra) : (w3 2 < w3 0)%R))))).
    rewrite w32 in H. apply Rabs_def2 in H. destruct H as [H1 H2]. assert (X1 : (IZR c < IZR 26)%R) by lra. assert (X2 : (IZR 24 < IZR c)%R) by lra. apply lt_IZR in X1. apply lt_IZR in X2. lia.
Qed.
End Examples.
Print Assumptions C130_integral.
Print Assumptions C130_stochastic_sample.
Print Assumptions C130_floating.
Print Assumptions C130_multinomial.

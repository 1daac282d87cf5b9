(** * Matrix inversion and the training of regressions in any arithmetic (for C127) *)
From Verif Require Import Mem Scalar MemSpec MemLemmas Lique LiqueSpec LiqueProofs LiqueProofs2 Linear LinearProofs InverseProofs
  OptimizerProofs PropLinear Regression RegressionProofs PropRegression.
Open Scope Z_scope.

(** ** What [inverse] computes: Gauss-Jordan elimination as a function of the entries *)
Section Pure.
Context {T : Type} `{NT : Num T}.
Notation matrix := (Z -> Z -> T).
Definition row_swap (k p lo : Z) (f : matrix) : matrix := fun i j => if lo <=? j then if i =? k then f p j else if i =? p then f k j else f i j else f i j.
Definition row_scale (k lo : Z) (c : T) (f : matrix) : matrix := fun i j => if (i =? k) && (lo <=? j) then mul (f i j) c else f i j.
Definition row_elim (r k lo : Z) (c : T) (f : matrix) : matrix := fun i j => if (i =? r) && (lo <=? j) then sub (f i j) (mul (f k j) c) else f i j.
(** the row of the first largest entry of column [k] among the rows [k], ..., [k + n] *)
Fixpoint pivot_row (k : Z) (f : matrix) (n : nat) : Z :=
  match n with
  | O => k
  | S n => let p := pivot_row k f n in let i := k + 1 + Z.of_nat n in if ltb (nabs (f p k)) (nabs (f i k)) then i else p
  end.
Fixpoint clear_rows (k : Z) (n : nat) (E M : matrix) : matrix * matrix :=
  match n with
  | O => (E, M)
  | S n => let '(E, M) := clear_rows k n E M in let i := Z.of_nat n in
      if i =? k then (E, M) else (row_elim i k 0 (M i k) E, row_elim i k k (M i k) M)
  end.
Definition jordan_step (N k : Z) (E M : matrix) : matrix * matrix :=
  let p := pivot_row k M (Z.to_nat (N - k - 1)) in
  let E1 := if p =? k then E else row_swap k p 0 E in
  let M1 := if p =? k then M else row_swap k p k M in
  let c := div one (M1 k k) in
  clear_rows k (Z.to_nat N) (row_scale k 0 c E1) (row_scale k k c M1).
Fixpoint jordan (N : Z) (n : nat) (A : matrix) : matrix * matrix :=
  match n with
  | O => (fun i j => if i =? j then one else zero, A)
  | S n => let '(E, M) := jordan N n A in jordan_step N (Z.of_nat n) E M
  end.
Definition inverse_of (N : Z) (A : matrix) : matrix := fst (jordan N (Z.to_nat N) A).
(** (D^T D)^-1 D^T y, evaluated in the order of the program *)
Definition solution (h N : Z) (D : matrix) (y : Z -> T) (i : Z) : T :=
  zsum h (fun j => mul (zsum N (fun k => mul (inverse_of N (fun a b => zsum h (fun l => mul (D l a) (D l b))) i k) (D j k))) (y j)).
End Pure.

(** ** the program computes it *)
Section Mem.
Context {T : Type} `{NT : Num T}.
Implicit Types m : mem T.
Definition two (r t : tensor) (N : Z) (EM : (Z -> Z -> T) * (Z -> Z -> T)) m m' : Prop :=
  holds2 m' (t_data r) N N (fst EM) /\ holds2 m' (t_data t) N N (snd EM) /\ only (both (t_data r) (t_data t) (N * N)) m m'.
Lemma two_left r t N E M E' m m1 m2 : 0 <= N -> disjoint (t_data r) (N * N) (t_data t) (N * N) ->
  two r t N (E, M) m m1 -> sets2 (t_data r) N N E' m1 m2 -> two r t N (E', M) m m2.
Proof.
  intros HN D (A & B & C) [F G]. split; [exact F|]. split.
  - eapply only_holds2_disj; eauto.
  - eapply only_trans; [apply C|]. eapply only_weaken; [|apply G]. unfold both. auto.
Qed.
Lemma two_right r t N E M M' m m1 m2 : 0 <= N -> disjoint (t_data r) (N * N) (t_data t) (N * N) ->
  two r t N (E, M) m m1 -> sets2 (t_data t) N N M' m1 m2 -> two r t N (E, M') m m2.
Proof.
  intros HN D (A & B & C) [F G]. split.
  - eapply only_holds2_disj; eauto. now apply disjoint_sym.
  - split; [exact F|]. eapply only_trans; [apply C|]. eapply only_weaken; [|apply G]. unfold both. auto.
Qed.
Lemma pivot_range k (f : Z -> Z -> T) n : k <= pivot_row k f n <= k + Z.of_nat n.
Proof. induction n as [|n IH]; cbn [pivot_row]; [lia|]. cbv zeta. destruct (ltb _ _); lia. Qed.
Lemma wp_pivot t N k m (M : Z -> Z -> T) : mat_is t N N -> 0 <= k < N -> holds2 m (t_data t) N N M ->
  wp (inv_pivot t N k) m (fun p m' => m' = m /\ p = pivot_row k M (Z.to_nat (N - k - 1))).
Proof.
  intros Ht Hk HM. unfold inv_pivot.
  apply (wp_mfold _ (k + 1) N _ (fun l p m' => m' = m /\ p = pivot_row k M (Z.to_nat (l - k - 1)))); [lia| | |].
  - split; [reflexivity|]. replace (k + 1 - k - 1) with 0 by lia. reflexivity.
  - intros l p m' Hl (-> & ->). set (n := Z.to_nat (l - k - 1)). pose proof (pivot_range k M n) as Rg.
    replace (Z.to_nat (l + 1 - k - 1)) with (S n) by lia. cbn [pivot_row]. cbv zeta. replace (k + 1 + Z.of_nat n) with l by lia.
    eapply wp_bind, wp_mat_get; eauto; try lia. eapply wp_bind, wp_mat_get; eauto; try lia. apply wp_ret. auto.
  - intros p m' H. exact H.
Qed.
Lemma wp_jordan_step r t N k E M m m1 : mat_is r N N -> mat_is t N N -> disjoint (t_data r) (N * N) (t_data t) (N * N) -> 0 <= k < N ->
  two r t N (E, M) m m1 -> wp (inv_step r t N k) m1 (fun _ m2 => two r t N (jordan_step N k E M) m m2).
Proof.
  intros Hr Ht D Hk S0. assert (HN : 0 <= N) by lia. unfold inv_step, jordan_step.
  eapply wp_bind'. { apply (wp_pivot t N k m1 M); auto. apply S0. } intros p m1' (-> & ->).
  set (p := pivot_row k M (Z.to_nat (N - k - 1))). pose proof (pivot_range k M (Z.to_nat (N - k - 1))) as Rg. fold p in Rg.
  apply wp_bind. eapply wp_conseq with (Q := fun _ m2 => two r t N (if p =? k then E else row_swap k p 0 E, if p =? k then M else row_swap k p k M) m m2).
  { destruct (Z.eqb_spec p k) as [Hpk|Hpk]; [now apply wp_ret|].
    eapply wp_bind'. { apply (wp_inv_swap t N k p k m1 M); auto; try lia. apply S0. } intros [] m2 S2. cbn beta in S2.
    pose proof (two_right _ _ _ _ _ _ _ _ _ HN D S0 S2) as S2'.
    eapply wp_conseq. { apply (wp_inv_swap r N k p 0 m2 E); auto; try lia. apply S2'. } intros [] m3 S3. cbn beta in S3. exact (two_left _ _ _ _ _ _ _ _ _ HN D S2' S3). }
  intros [] m2. cbv zeta. generalize (if p =? k then E else row_swap k p 0 E) (if p =? k then M else row_swap k p k M). intros E1 M1 S2.
  eapply wp_bind, (wp_mat_get t N N k k m2 M1); eauto; try lia. { apply S2. } cbv zeta. set (c := div one (M1 k k)).
  eapply wp_bind'. { apply (wp_inv_scale t N k k c m2 M1); auto; try lia. apply S2. } intros [] m3 S3. cbn beta in S3. apply (two_right _ _ _ _ _ _ _ _ _ HN D S2) in S3.
  eapply wp_bind'. { apply (wp_inv_scale r N k 0 c m3 E1); auto; try lia. apply S3. } intros [] m4 S4. cbn beta in S4. apply (two_left _ _ _ _ _ _ _ _ _ HN D S3) in S4.
  eapply (wp_mfor 0 N _ (fun l m' => two r t N (clear_rows k (Z.to_nat l) (row_scale k 0 c E1) (row_scale k k c M1)) m m')); [lia| | |].
  - exact S4.
  - intros i m5 Hi S5. replace (Z.to_nat (i + 1)) with (S (Z.to_nat i)) by lia. cbn [clear_rows]. destruct (clear_rows k (Z.to_nat i) _ _) as [E5 M5]. rewrite Z2Nat.id by lia.
    destruct (Z.eqb_spec i k) as [->|Hik]; [now apply wp_ret|].
    eapply wp_bind, (wp_mat_get t N N i k m5 M5); eauto; try lia. { apply S5. }
    eapply wp_bind'. { apply (wp_inv_elim t N i k k (M5 i k) m5 M5); auto; try lia. apply S5. } intros [] m6 S6. cbn beta in S6. apply (two_right _ _ _ _ _ _ _ _ _ HN D S5) in S6.
    eapply wp_conseq. { apply (wp_inv_elim r N i k 0 (M5 i k) m6 E5); auto; try lia. apply S6. } intros [] m7 S7. cbn beta in S7. exact (two_left _ _ _ _ _ _ _ _ _ HN D S6 S7).
  - intros m5 S5. exact S5.
Qed.
Lemma wp_jordan r t N A m : mat_is r N N -> mat_is t N N -> disjoint (t_data r) (N * N) (t_data t) (N * N) ->
  room m (t_data r) (N * N) -> holds2 m (t_data t) N N A ->
  wp (lin_inverse r t) m (fun _ m' => holds2 m' (t_data r) N N (inverse_of N A) /\ only (both (t_data r) (t_data t) (N * N)) m m').
Proof.
  intros Hr Ht D Rr HA. pose proof Ht as (EN & _ & _ & HN & _). unfold lin_inverse. rewrite EN.
  eapply wp_bind'. { apply wp_inv_identity; auto. } intros [] m1 [S1 O1]. cbn beta in *.
  eapply (wp_mfor 0 N _ (fun k m' => two r t N (jordan N (Z.to_nat k) A) m m')); auto.
  - split; [exact S1|]. split; [eapply only_holds2_disj; eauto|]. eapply only_weaken; [|apply O1]. unfold both; auto.
  - intros k m' Hk S2. replace (Z.to_nat (k + 1)) with (S (Z.to_nat k)) by lia. cbn [jordan]. destruct (jordan N (Z.to_nat k) A) as [E M]. rewrite Z2Nat.id by lia. now apply wp_jordan_step with (m := m).
  - intros m' (S2 & _ & O). split; [exact S2|exact O].
Qed.
Lemma inverse_ret_any (t : tensor) m (N : Z) A b : mat_is t N N -> s_depth (t_shape t) = 1 -> t_data t = Ptr b 0 -> holds2 m (t_data t) N N A ->
  exists r m', lin_inverse_ret t m = Ok (r, m') /\ mat_is r N N /\ holds2 m' (t_data r) N N (inverse_of N A) /\
    t_data r = Ptr (length m) 0 /\ only (fun b' i => b' = length m \/ b' = b) (m ++ [Some (repeat None (Z.to_nat (N * N)))]) m'.
Proof.
  intros Ht Ed Eb HA. pose proof Ht as (Eh & Ew & _ & HN & _ & Hs). assert (HN2 : N < 2 ^ 64) by nia.
  unfold lin_inverse_ret, mat_shape_new, mat_new. rewrite Ed, Eh, Ew, Z.mul_1_l, (u64_small N) by lia.
  pose proof (mat_is_shape2 (Ptr (length m) 0) N N HN HN Hs) as Hr.
  set (r := mk_tensor (Ptr (length m) 0) (shape2 N N)) in *. assert (Esz : s_size (shape2 N N) = N * N) by apply Hr.
  set (m0 := m ++ [Some (repeat None (Z.to_nat (N * N)))]).
  assert (D : disjoint (t_data r) (N * N) (t_data t) (N * N)) by (eapply disjoint_fresh2; eauto).
  assert (HA0 : holds2 m0 (t_data t) N N A) by (apply holds2_app; auto).
  destruct (wp_elim _ _ _ _ (wp_jordan r t N A m0 Hr Ht D (room_alloc m (N * N)) HA0)) as ([] & m' & E & F & O).
  exists r, m'. split; [|split; [exact Hr|split; [exact F|split; [reflexivity|]]]].
  - revert E. unfold bind, alloc, ret. rewrite Esz. fold m0 r. intros ->. auto.
  - eapply only_weaken; [|exact O]. intros b' i [Q|Q]; [left|right]; [cbn in Q; tauto|]. rewrite Eb in Q. cbn in Q. tauto.
Qed.
Lemma reg_solve_any m r X odata h N D y bX bW :
  mat_is X h N -> t_data X = Ptr bX 0 -> holds2 m (t_data X) h N D -> N * N < 2 ^ 64 ->
  t_size odata = h -> holds m (t_data odata) h y ->
  t_size (r_W r) = N -> t_data (r_W r) = Ptr bW 0 -> live m bW N -> bW <> bX -> ~ owns_block (t_data odata) bW ->
  exists m', reg_solve r X odata m = Ok (tt, m') /\ holds m' (t_data (r_W r)) N (solution h N D y) /\
    keeps (fun b => b = bW) m m' /\ live m' bW N /\ forall b, (length m <= b < length m')%nat -> freed m' b.
Proof.
  intros HX EX FX HN To Fo TW EW LW NX NO. pose proof HX as (_ & _ & _ & Hh & HN0 & HhN).
  assert (BW : (bW < length m)%nat) by (destruct LW as (l & E & _); apply nth_error_Some; congruence).
  unfold reg_solve.
  destruct (C18_transpose X m h N D HX FX) as (XT & m1 & E1 & HXT & (P1 & L1 & F1 & K1 & N1)).
  erewrite bind_eq by exact E1. cbv beta.
  assert (FX1 : holds2 m1 (t_data X) h N D) by (eapply keeps_holds2; eauto).
  destruct (C16_matrix_product_ret XT X m1 N h N (fun i j => D j i) D HXT HX HN F1 FX1) as (G & m2 & E2 & HG & (P2 & L2 & F2 & K2 & N2)).
  erewrite bind_eq by exact E2. cbv beta.
  assert (Ng : length m2 = S (S (length m))) by lia.
  destruct (inverse_ret_any G m2 N _ (length m1) HG (dot_mm_depth _ _ _ _ _ E2) P2 F2) as (I & m3 & E3 & HI & F3 & P3 & O3).
  cbv beta in F3. set (B := inverse_of N _) in F3.
  erewrite bind_eq by exact E3. cbv beta.
  set (ma := m2 ++ [Some (repeat None (Z.to_nat (N * N)))]) in *.
  assert (Na : length m3 = S (length m2)). { destruct O3 as [Sk _]. apply skel_length in Sk. rewrite Sk. unfold ma. rewrite app_length. cbn. lia. }
  assert (Blk3 : forall b, (b < length m2)%nat -> b <> length m1 -> nth_error m3 b = nth_error m2 b).
  { intros b Hb Nb. rewrite (only_block _ ma m3 b O3) by (intros _; lia). unfold ma. now rewrite nth_error_app1. }
  assert (K03 : keeps (fun _ => False) m m3).
  { split; [lia|]. intros b Hb _. rewrite Blk3 by lia. destruct K2 as [_ K2]. rewrite K2 by (auto; lia). destruct K1 as [_ K1]. apply K1; auto. }
  assert (F1' : holds2 m3 (t_data XT) N h (fun i j => D j i)).
  { intros i j Hi Hj. rewrite <- (F1 i j Hi Hj). rewrite P1. cbn [elem]. unfold cell. rewrite Blk3 by lia. destruct K2 as [_ K2]. rewrite K2 by (auto; lia). reflexivity. }
  assert (HNh : N * h < 2 ^ 64) by lia.
  destruct (C16_matrix_product_ret I XT m3 N N h B (fun i j => D j i) HI HXT HNh F3 F1') as (P & m4 & E4 & HP & (P4 & L4 & F4 & K4 & N4)).
  erewrite bind_eq by exact E4. cbv beta.
  assert (K04 : keeps (fun _ => False) m m4) by (eapply keeps_trans; eauto).
  assert (W5 : wp (lin_dot_mv (r_W r) P odata) m4 (fun _ => sets (t_data (r_W r)) N (fun i => zsum h (fun j => mul (zsum N (fun k => mul (B i k) (D j k))) (y j))) m4)).
  { pose proof (wp_dot_mv (r_W r) P odata m4 y (fun i j => zsum N (fun k => mul (B i k) (D j k)))) as Q. cbv zeta in Q. rewrite TW, To in Q. apply Q; auto.
    - eapply keeps_holds; eauto.
    - eapply keeps_room; [exact K04|]. rewrite EW. destruct LW as (l & El & Ll). intros i Hi. cbn. unfold cell. rewrite El. destruct (znth_some _ l i) as [c ->]; [lia|discriminate].
    - intros b i A1 A2. rewrite EW in A1. cbn in A1. destruct A1 as [-> _]. apply NO. destruct (t_data odata); cbn in *; tauto.
    - rewrite EW, P4. apply disjoint_blocks. lia. }
  destruct (wp_elim _ _ _ _ W5) as ([] & m5 & E5 & F5 & O5). erewrite bind_eq by exact E5. cbv beta.
  assert (N5 : length m5 = length m4) by (destruct O5 as [Sk _]; now apply skel_length in Sk).
  assert (Lv : forall b, (length m <= b < length m + 4)%nat -> liveb m5 b).
  { intros b Hb. eapply liveb_only; [exact O5|].
    assert (b = length m \/ b = length m1 \/ b = length m2 \/ b = length m3) as [-> | [-> | [-> | ->]]] by lia.
    - eapply liveb_keeps; [exact K4|]. assert (Q : liveb m1 (length m)) by (eapply live_liveb; eauto). destruct (liveb_keeps _ _ _ K2 Q) as [l El]. exists l. rewrite Blk3 by lia. exact El.
    - eapply liveb_keeps; [exact K4|]. eapply liveb_only; [exact O3|]. unfold ma. eapply liveb_keeps; [apply keeps_app|]. eapply live_liveb; eauto.
    - eapply liveb_keeps; [exact K4|]. eapply liveb_only; [exact O3|]. unfold ma. eexists. rewrite nth_error_app2, Nat.sub_diag by lia. reflexivity.
    - eapply live_liveb; eauto. }
  unfold vec_destroy. rewrite P4, P3, P2, P1.
  erewrite bind_eq by (apply free_live, Lv; lia). cbv beta. set (m6 := set_nth (length m3) None m5).
  erewrite bind_eq by (apply free_live; unfold m6; apply liveb_set; [lia|apply Lv; lia]). cbv beta. set (m7 := set_nth (length m2) None m6).
  erewrite bind_eq by (apply free_live; unfold m7, m6; repeat (apply liveb_set; [lia|]); apply Lv; lia). cbv beta. set (m8 := set_nth (length m1) None m7).
  exists (set_nth (length m) None m8).
  assert (L8 : liveb m8 (length m)) by (unfold m8, m7, m6; repeat (apply liveb_set; [lia|]); apply Lv; lia).
  split; [apply free_live; exact L8|].
  assert (Old : forall b, (b < length m)%nat -> nth_error (set_nth (length m) None m8) b = nth_error m5 b).
  { intros b Hb. unfold m8, m7, m6. rewrite !nth_set_nth_other by lia. reflexivity. }
  split.
  { intros i Hi. rewrite EW. cbn [elem]. unfold cell. rewrite Old by lia. specialize (F5 i Hi). rewrite EW in F5. exact F5. }
  split.
  { split. { unfold m8, m7, m6. rewrite !set_nth_length. lia. }
    intros b Hb Nb. rewrite Old by auto. rewrite (only_block _ m4 m5 b O5). { destruct K04 as [_ K]. apply K; auto. }
    intros i. rewrite EW. cbn. intros [-> _]. apply Nb. reflexivity. }
  split.
  { assert (L4W : live m4 bW N) by (destruct LW as (l & El & Ll); exists l; split; [destruct K04 as [_ K]; rewrite K by auto; exact El|exact Ll]).
    destruct (live_skel m4 m5 bW N) as (l & El & Ll); [apply O5|exact L4W|]. exists l. split; [|exact Ll]. rewrite Old by exact BW. exact El. }
  intros b Hb. assert (Hl : (b < length m + 4)%nat). { revert Hb. unfold m8, m7, m6. rewrite !set_nth_length. lia. }
  assert (b = length m \/ b = length m1 \/ b = length m2 \/ b = length m3) as [-> | [-> | [-> | ->]]] by lia.
  - apply freed_set. exact L8.
  - apply freed_set_other. unfold m8. apply freed_set. unfold m7, m6. repeat (apply liveb_set; [lia|]). apply Lv. lia.
  - apply freed_set_other. unfold m8. apply freed_set_other. unfold m7. apply freed_set. unfold m6. apply liveb_set; [lia|]. apply Lv. lia.
  - apply freed_set_other. unfold m8. apply freed_set_other. unfold m7. apply freed_set_other. unfold m6. apply freed_set. apply Lv. lia.
Qed.
(** the whole training call *)
Lemma train_any m r n b odata h y D (mk : M T tensor) :
  reg_at m r n b -> 0 <= h -> h * (n + 1) < 2 ^ 64 -> (n + 1) * (n + 1) < 2 ^ 64 ->
  t_size odata = h -> holds m (t_data odata) h y -> ~ owns_block (t_data odata) b ->
  (exists X m1, mk m = Ok (X, m1) /\ mat_is X h (n + 1) /\ made2 m h (n + 1) D (t_data X) m1) ->
  exists m', bind (T := T) mk (fun X => reg_solve r X odata ;;; vec_destroy X) m = Ok (tt, m') /\
    holds m' (t_data (r_W r)) (n + 1) (solution h (n + 1) D y) /\ keeps (fun b' => b' = b) m m' /\ no_leak m m' /\ reg_at m' r n b.
Proof.
  intros (EN & ET & Hn & Hs & EW & LW) Hh Hhn Hnn To Fo NO (X0 & m1 & E1 & HX & (PX & LX & FX & KX & NX)).
  assert (Hb : (b < length m)%nat) by (destruct LW as (l & El & _); apply nth_error_Some; congruence).
  assert (LW1 : live m1 b (n + 1)). { destruct LW as (l & El & Ll). exists l. split; [|exact Ll]. destruct KX as [_ K]. rewrite K by (auto; lia). exact El. }
  destruct (reg_solve_any m1 r X0 odata h (n + 1) D y (length m) b) as (m2 & E2 & F2 & K2 & L2 & Fr2); auto.
  { eapply keeps_holds; eauto. } { lia. }
  assert (LX2 : liveb m2 (length m)). { destruct LX as (l & El & _). exists l. destruct K2 as [_ K2]. rewrite K2 by lia. exact El. }
  exists (set_nth (length m) None m2). split.
  { erewrite bind_eq by exact E1. cbv beta. erewrite bind_eq by exact E2. cbv beta. unfold vec_destroy. rewrite PX. now apply free_live. }
  assert (Le : (length m1 <= length m2)%nat) by apply K2.
  assert (KW : forall b', (b' < length m)%nat -> nth_error (set_nth (length m) None m2) b' = nth_error m2 b') by (intros; apply nth_set_nth_other; lia).
  split.
  { intros i Hi. specialize (F2 i Hi). rewrite EW in *. cbn [elem] in *. unfold cell in *. rewrite KW by lia. exact F2. }
  split.
  { split; [rewrite set_nth_length; lia|]. intros b' Hb' Nb. rewrite KW by auto. destruct K2 as [_ K2]. rewrite K2 by (auto; lia). destruct KX as [_ KX]. apply KX; auto. }
  split.
  { intros b' Hb'. rewrite set_nth_length in Hb'. destruct (Nat.eq_dec b' (length m)) as [->|]; [now apply freed_set|]. apply freed_set_other. apply Fr2. lia. }
  split; [exact EN|]. split; [exact ET|]. split; [exact Hn|]. split; [exact Hs|]. split; [exact EW|].
  destruct L2 as (l & El & Ll). exists l. split; [|exact Ll]. rewrite KW by exact Hb. exact El.
Qed.
End Mem.

(** * Lemmas about Regression.v *)
From Coq Require Import Reals Lra.
From Verif Require Import Mem Scalar MemSpec MemLemmas Lique LiqueSpec LiqueProofs LiqueProofs2 Linear LinearProofs RSum InverseProofs
  OptimizerProofs PropLinear Regression RealSpec LossProofs Vjp LeastSquares.
Open Scope Z_scope.

Section Fill.
Context {T : Type} `{NT : Num T}.
Implicit Types m : mem T.
(** filling a row from column [lo] on, with an accumulator *)
Lemma wp_row_acc A dst w lo (g : Z -> T) (acc : Z -> A) (body : Z -> A -> M T A) m :
  room m dst w -> 0 <= lo <= w -> holds m dst lo g ->
  (forall j m1, lo <= j < w -> only (inside dst w) m m1 -> body j (acc j) m1 = Ok (acc (j + 1), mset m1 dst j (g j))) ->
  wp (mfold lo w body (acc lo)) m (fun _ => sets dst w g m).
Proof.
  intros Hr Hlo H0 Hb.
  apply (wp_mfold _ lo w _ (fun j a m' => a = acc j /\ holds m' dst j g /\ only (inside dst w) m m')); [lia| | |].
  - split; [reflexivity|]. split; [exact H0|apply only_refl].
  - intros j a m1 Hj (-> & Hh & Ho). eapply wp_intro; [apply Hb; auto|]. split; [reflexivity|]. split.
    + intros i Hi. destruct (Z.eq_dec i j) as [->|Hij].
      * apply elem_mset_same. eapply elem_exists_skel; [|apply Hr; lia]. symmetry. apply Ho.
      * rewrite elem_mset_other; [apply Hh; lia|right; lia|]. intros b o b' o' -> [= -> ->] _ ?. lia.
    + eapply only_trans; [exact Ho|apply only_mset_in; lia].
  - intros a m1 (_ & Hh & Ho). split; auto.
Qed.
Lemma mat_set_row X h w i j x m : mat_is X h w -> room m (t_data X) (h * w) -> 0 <= i < h -> 0 <= j < w ->
  mat_set X i j x m = Ok (tt, mset m (padd (t_data X) (i * w)) j x).
Proof.
  intros HX Hr Hi Hj. rewrite (mat_set_eq X h w i j) by auto. rewrite mset_padd. apply store_mset. apply Hr. nia.
Qed.
End Fill.


Section Design.
Context {T : Type} `{NT : Num T}.
Implicit Types m : mem T.
Definition gpow (x : T) (j : Z) : T := Nat.iter (Z.to_nat j) (fun p => mul p x) one.
Lemma gpow_0 x : gpow x 0 = one. Proof. reflexivity. Qed.
Lemma gpow_S x j : 0 <= j -> gpow x (j + 1) = mul (gpow x j) x.
Proof. intros. unfold gpow. replace (Z.to_nat (j + 1)) with (S (Z.to_nat j)) by lia. reflexivity. Qed.

(** allocating [X] and filling it row by row *)
Lemma design_made m h w (g : Z -> Z -> T) (fill : tensor -> M T unit) (X := mk_tensor (Ptr (length m) 0) (shape2 h w)) :
  0 <= h -> 0 <= w -> h * w < 2 ^ 64 ->
  (forall m0, m0 = m ++ [Some (repeat None (Z.to_nat (h * w)))] -> room m0 (t_data X) (h * w) ->
     wp (fill X) m0 (fun _ => sets2 (t_data X) h w g m0)) ->
  exists m', bind (T := T) (mat_new h w) (fun X => fill X ;;; ret X) m = Ok (X, m') /\ mat_is X h w /\ made2 m h w g (t_data X) m'.
Proof.
  intros Hh Hw Hs Hf. pose proof (mat_is_shape2 (Ptr (length m) 0) h w Hh Hw Hs) as HX. fold X in HX.
  assert (Esz : s_size (shape2 h w) = h * w) by apply HX.
  destruct (wp_elim _ _ _ _ (Hf _ eq_refl (room_alloc m (h * w)))) as ([] & m' & E & S).
  exists m'. split; [|split; [exact HX|apply made_of_sets2; auto]].
  unfold mat_new, bind, alloc, ret. rewrite Esz. fold X. now rewrite E.
Qed.

Lemma sets_store0 dst w (x : T) m : 1 <= w -> room m dst w -> holds (mset m dst 0 x) dst 1 (fun _ => x) /\ only (inside dst w) m (mset m dst 0 x).
Proof.
  intros Hw Hr. split; [|apply only_mset_in; lia]. intros i Hi. replace i with 0 by lia. apply elem_mset_same. apply Hr. lia.
Qed.
Lemma linreg_design_ok m idata h n (x : Z -> Z -> T) : mat_is idata h n -> h * (n + 1) < 2 ^ 64 -> n + 1 < 2 ^ 64 -> holds2 m (t_data idata) h n x ->
  exists X m', linreg_design idata (n + 1) m = Ok (X, m') /\ mat_is X h (n + 1) /\
    made2 m h (n + 1) (fun i j => if j =? 0 then one else x i (j - 1)) (t_data X) m'.
Proof.
  intros HI Hs Hs1 Hx. pose proof HI as (Eh & Ew & _ & Hh & Hn & _). unfold linreg_design. rewrite Eh.
  destruct (design_made m h (n + 1) (fun i j => if j =? 0 then one else x i (j - 1))
    (fun X => mfor 0 (s_height (t_shape X)) (fun i => mat_set X i 0 one ;;; mfor 1 (n + 1) (fun j => let* v := mat_get idata i (u64 (j - 1)) in mat_set X i j v))))
    as (m' & E & HX & M); [lia|lia|lia| |eauto].
  intros m0 -> Hr. set (X := mk_tensor (Ptr (length m) 0) (shape2 h (n + 1))) in *. set (m0 := m ++ _) in *.
  pose proof (mat_is_shape2 (Ptr (length m) 0) h (n + 1) Hh ltac:(lia) Hs) as HX. fold X in HX.
  change (s_height (t_shape X)) with h. apply wp_rows; [lia|lia|exact Hr|].
  intros i m1 Hi O1. set (dst := padd (t_data X) (i * (n + 1))).
  assert (Hrow : room m1 dst (n + 1)). { eapply only_room; [exact O1|]. apply (room_rows m0 (t_data X) h (n + 1)); auto. lia. }
  eapply wp_bind, wp_intro; [apply (mat_set_row X h (n + 1)); auto; try lia; eapply only_room; eauto|].
  destruct (sets_store0 dst (n + 1) one m1 ltac:(lia) Hrow) as [S0 O0]. fold dst. set (m2 := mset m1 dst 0 one) in *.
  eapply wp_conseq; [apply (wp_row_acc unit dst (n + 1) 1 (fun j => if j =? 0 then one else x i (j - 1)) (fun _ => tt))|].
  - eapply only_room; eauto.
  - lia.
  - eapply holds_ext; [|exact S0]. intros k Hk. destruct (Z.eqb_spec k 0); [reflexivity|lia].
  - intros j m3 Hj O3. rewrite u64_small by lia.
    assert (R3 : room m3 (t_data X) (h * (n + 1))). { eapply only_room; [exact O3|]. eapply only_room; [exact O0|]. eapply only_room; eauto. }
    unfold bind. rewrite (mat_get_ok idata h n i (j - 1) m3 x); [|auto| |lia|lia].
    + rewrite (mat_set_row X h (n + 1)) by (auto; lia). destruct (Z.eqb_spec j 0); [lia|]. reflexivity.
    + assert (Dj : disjoint (t_data X) (h * (n + 1)) (t_data idata) (h * n)) by (eapply disjoint_fresh2; eauto).
      assert (H0 : holds2 m0 (t_data idata) h n x) by (apply holds2_app; auto).
      assert (Sub : forall b o, inside dst (n + 1) b o -> inside (t_data X) (h * (n + 1)) b o) by (intros b o; apply inside_padd; nia).
      eapply only_holds2; [exact O3|intros b o A B; exact (Dj b o (Sub b o B) A)|lia|lia|].
      eapply only_holds2; [exact O0|intros b o A B; exact (Dj b o (Sub b o B) A)|lia|lia|].
      eapply only_holds2; [exact O1| |lia|lia|exact H0]. intros b o A B. apply (Dj b o); [|exact A].
      revert B. cbn. intros [-> B]. split; [reflexivity|]. nia.
  - intros _ m3 [A B]. split; [exact A|]. eapply only_trans; eauto.
Qed.
(** both polynomial fills *)
Lemma poly_fill_ok m idata h n (x : Z -> T) (row : tensor -> Z -> T -> M T unit) : t_size idata = h -> 0 <= h -> 0 <= n -> h * (n + 1) < 2 ^ 64 ->
  holds m (t_data idata) h x ->
  (forall X m1 i, mat_is X h (n + 1) -> room m1 (t_data X) (h * (n + 1)) -> 0 <= i < h ->
     wp (row X i (x i)) m1 (fun _ => sets (padd (t_data X) (i * (n + 1))) (n + 1) (gpow (x i)) m1)) ->
  exists X m', bind (T := T) (mat_new h (n + 1)) (fun X => mfor 0 h (fun i => let* sample := tb_get idata i in row X i sample) ;;; ret X) m = Ok (X, m') /\
    mat_is X h (n + 1) /\ made2 m h (n + 1) (fun i => gpow (x i)) (t_data X) m'.
Proof.
  intros Ts Hh Hn Hs Hx Hrow.
  destruct (design_made m h (n + 1) (fun i => gpow (x i)) (fun X => mfor 0 h (fun i => let* sample := tb_get idata i in row X i sample)))
    as (m' & E & HX & M); [lia|lia|lia| |eauto].
  intros m0 -> Hr. set (X := mk_tensor (Ptr (length m) 0) (shape2 h (n + 1))) in *. set (m0 := m ++ _) in *.
  pose proof (mat_is_shape2 (Ptr (length m) 0) h (n + 1) Hh ltac:(lia) Hs) as HX. fold X in HX.
  apply wp_rows; [lia|lia|exact Hr|]. intros i m1 Hi O1.
  eapply wp_bind, wp_load; [|apply Hrow; auto; eapply only_room; eauto].
  assert (Dj : disjoint (t_data X) (h * (n + 1)) (t_data idata) h) by (eapply disjoint_fresh; eauto).
  assert (H0 : holds m0 (t_data idata) h x) by (apply holds_app; auto).
  refine (only_holds _ _ _ _ _ _ O1 _ H0 i Hi). intros b o A B. apply (Dj b o); [|exact A].
  revert B. cbn. intros [-> B]. split; [reflexivity|]. nia.
Qed.
Lemma polyreg_design_ok m idata h n (x : Z -> T) : t_size idata = h -> 0 <= h -> 0 <= n -> h * (n + 1) < 2 ^ 64 -> holds m (t_data idata) h x ->
  exists X m', polyreg_design idata (n + 1) m = Ok (X, m') /\ mat_is X h (n + 1) /\ made2 m h (n + 1) (fun i => gpow (x i)) (t_data X) m'.
Proof.
  intros Ts Hh Hn Hs Hx. unfold polyreg_design. rewrite Ts.
  apply (poly_fill_ok m idata h n x (fun X i sample => mat_set X i 0 one ;;; let* _ := mfold 1 (n + 1) (fun j power =>
      let power := mul power sample in mat_set X i j power ;;; ret power) one in ret tt)); auto.
  intros X m1 i HX Hr Hi. set (dst := padd (t_data X) (i * (n + 1))).
  assert (Hrow : room m1 dst (n + 1)) by (apply (room_rows m1 (t_data X) h (n + 1)); auto; lia).
  eapply wp_bind, wp_intro; [apply (mat_set_row X h (n + 1)); auto; lia|].
  destruct (sets_store0 dst (n + 1) one m1 ltac:(lia) Hrow) as [S0 O0]. fold dst. set (m2 := mset m1 dst 0 one) in *.
  eapply wp_bind'.
  { apply (wp_row_acc T dst (n + 1) 1 (gpow (x i)) (fun j => gpow (x i) (j - 1))).
    - eapply only_room; eauto.
    - lia.
    - eapply holds_ext; [|exact S0]. intros k Hk. replace k with 0 by lia. reflexivity.
    - intros j m3 Hj O3. unfold bind. rewrite (mat_set_row X h (n + 1)); auto; [| |lia].
      + fold dst. replace (j + 1 - 1) with (j - 1 + 1) by lia. rewrite gpow_S by lia.
        replace (gpow (x i) j) with (gpow (x i) (j - 1 + 1)) by (f_equal; lia). rewrite gpow_S by lia. reflexivity.
      + eapply only_room; [exact O3|]. eapply only_room; [exact O0|]. exact Hr. }
  intros _ m3 [A B]. apply wp_ret. split; [exact A|]. eapply only_trans; eauto.
Qed.
Lemma polyreg_train_design_ok m idata h n (x : Z -> T) : t_size idata = h -> 0 <= h -> 0 <= n -> h * (n + 1) < 2 ^ 64 -> holds m (t_data idata) h x ->
  exists X m', polyreg_train_design idata (n + 1) m = Ok (X, m') /\ mat_is X h (n + 1) /\ made2 m h (n + 1) (fun i => gpow (x i)) (t_data X) m'.
Proof.
  intros Ts Hh Hn Hs Hx. unfold polyreg_train_design. rewrite Ts.
  apply (poly_fill_ok m idata h n x (fun X i sample => let* _ := mfold 0 (n + 1) (fun j power =>
      mat_set X i j power ;;; ret (mul power sample)) one in ret tt)); auto.
  intros X m1 i HX Hr Hi. set (dst := padd (t_data X) (i * (n + 1))).
  assert (Hrow : room m1 dst (n + 1)) by (apply (room_rows m1 (t_data X) h (n + 1)); auto; lia).
  eapply wp_bind'.
  { apply (wp_row_acc T dst (n + 1) 0 (gpow (x i)) (fun j => gpow (x i) j)); auto; [lia|intros k Hk; lia|].
    intros j m3 Hj O3. unfold bind. rewrite (mat_set_row X h (n + 1)); auto; [|eapply only_room; eauto].
    fold dst. rewrite gpow_S by lia. reflexivity. }
  intros a m3 Q. apply wp_ret. exact Q.
Qed.
End Design.

(** ** releasing temporaries *)
Section Free.
Context {T : Type} `{NT : Num T}.
Implicit Types m : mem T.
Definition liveb m b : Prop := exists l, nth_error m b = Some (Some l).
Lemma free_live m b : liveb m b -> free (Ptr b 0) m = Ok (tt, set_nth b None m).
Proof. intros [l E]. cbn. rewrite E. reflexivity. Qed.
Lemma liveb_set m b b' : b <> b' -> liveb m b' -> liveb (set_nth b None m) b'.
Proof. intros N [l E]. exists l. rewrite nth_set_nth_other; auto. Qed.
Lemma freed_set m b : liveb m b -> freed (set_nth b None m) b.
Proof. intros [l E]. unfold freed. apply nth_set_nth_same. apply nth_error_Some. congruence. Qed.
Lemma freed_set_other m b b' : freed m b' -> freed (set_nth b None m) b'.
Proof.
  intros E. unfold freed in *. destruct (Nat.eq_dec b b') as [->|N]; [|rewrite nth_set_nth_other; auto].
  apply nth_set_nth_same. apply nth_error_Some. congruence.
Qed.
Lemma liveb_keeps m m' b : keeps (fun _ => False) m m' -> liveb m b -> liveb m' b.
Proof. intros [_ K] [l E]. exists l. rewrite K; [exact E|apply nth_error_Some; congruence|tauto]. Qed.
Lemma liveb_only W m m' b : only W m m' -> liveb m b -> liveb m' b.
Proof. intros [E _] [l H]. destruct (skel_live m m' b) as [l' H']; eauto. exists l'. exact H'. Qed.
Lemma live_liveb m b n : live m b n -> liveb m b. Proof. intros (l & E & _). exists l. exact E. Qed.
Lemma keeps_holds2 m m' p h w f : keeps (fun _ => False) m m' -> holds2 m p h w f -> holds2 m' p h w f.
Proof.
  intros K H i j Hi Hj. specialize (H i j Hi Hj). destruct p as [|b o]; [discriminate|]. cbn in *. eapply keeps_cell; eauto.
Qed.
Lemma dot_mm_depth A B m r m' : lin_dot_mm_ret (T := T) A B m = Ok (r, m') -> s_depth (t_shape r) = 1.
Proof.
  unfold lin_dot_mm_ret, mat_fill, bind, ret, alloc. cbv beta.
  match goal with |- context [tb_fill ?a ?b ?c] => destruct (tb_fill a b c) as [[[] m1]|] end; [|discriminate].
  match goal with |- context [lin_dot_mm ?a ?b ?c ?d] => destruct (lin_dot_mm a b c d) as [[[] m2]|] end; [|discriminate].
  intros [= <- _]. reflexivity.
Qed.
End Free.

Section Solve.
Context (junk : R -> R).
Local Notation NJ := (Num_Rj junk).
Lemma zsum_Rj n (f : Z -> R) : zsum (T := R) (H := NJ) n f = rsum n f.
Proof. unfold rsum, zsum. induction (Z.to_nat n) as [|k IH]; [reflexivity|]. cbn [gsum]. rewrite IH. reflexivity. Qed.

Lemma reg_solve_ok (m : mem R) r X odata h N D y bX bW :
  mat_is X h N -> t_data X = Ptr bX 0 -> holds2 m (t_data X) h N D -> N * N < 2 ^ 64 ->
  t_size odata = h -> holds m (t_data odata) h y ->
  t_size (r_W r) = N -> t_data (r_W r) = Ptr bW 0 -> live m bW N -> bW <> bX -> ~ owns_block (t_data odata) bW ->
  full_rank h N D ->
  exists m' w, reg_solve (NT := NJ) r X odata m = Ok (tt, m') /\ holds m' (t_data (r_W r)) N w /\ normal h N D y w /\
    keeps (fun b => b = bW) m m' /\ live m' bW N /\ forall b, (length m <= b < length m')%nat -> freed m' b.
Proof.
  intros HX EX FX HN To Fo TW EW LW NX NO FR. pose proof HX as (_ & _ & _ & Hh & HN0 & HhN).
  assert (BW : (bW < length m)%nat) by (destruct LW as (l & E & _); apply nth_error_Some; congruence).
  unfold reg_solve.
  destruct (C18_transpose X m h N D HX FX) as (XT & m1 & E1 & HXT & (P1 & L1 & F1 & K1 & N1)).
  erewrite bind_eq by exact E1. cbv beta.
  assert (FX1 : holds2 m1 (t_data X) h N D) by (eapply keeps_holds2; eauto).
  destruct (C16_matrix_product_ret (NT := NJ) XT X m1 N h N (fun i j => D j i) D HXT HX HN F1 FX1) as (G & m2 & E2 & HG & (P2 & L2 & F2 & K2 & N2)).
  erewrite bind_eq by exact E2. cbv beta.
  assert (FG : holds2 m2 (t_data G) N N (fun j k => rsum h (fun i => (D i j * D i k)%R))).
  { eapply holds2_ext; [|exact F2]. intros i j _ _. cbv beta. rewrite zsum_Rj. apply rsum_ext. intros. reflexivity. }
  assert (Ng : length m2 = S (S (length m))) by lia.
  destruct (inverse_ret_injective junk G m2 N _ (length m1) HG (dot_mm_depth (NT:=NJ) _ _ _ _ _ E2) P2 FG (gram_injective h N D FR)) as (I & m3 & B & E3 & HI & F3 & _ & PB & P3 & O3).
  erewrite bind_eq by exact E3. cbv beta.
  set (ma := m2 ++ [Some (repeat None (Z.to_nat (N * N)))]) in *.
  assert (Na : length m3 = S (length m2)). { destruct O3 as [Sk _]. apply skel_length in Sk. rewrite Sk. unfold ma. rewrite app_length. cbn. lia. }
  assert (Blk3 : forall b, (b < length m2)%nat -> b <> length m1 -> nth_error m3 b = nth_error m2 b).
  { intros b Hb Nb. rewrite (only_block _ ma m3 b O3) by (intros _; lia). unfold ma. now rewrite nth_error_app1. }
  assert (K03 : keeps (fun _ => False) m m3).
  { split; [lia|]. intros b Hb _. rewrite Blk3 by lia. destruct K2 as [_ K2]. rewrite K2 by (auto; lia). destruct K1 as [_ K1]. apply K1; auto. }
  assert (F1' : holds2 m3 (t_data XT) N h (fun i j => D j i)).
  { intros i j Hi Hj. rewrite <- (F1 i j Hi Hj). rewrite P1. cbn [elem]. unfold cell. rewrite Blk3 by lia. destruct K2 as [_ K2]. rewrite K2 by (auto; lia). reflexivity. }
  assert (HNh : N * h < 2 ^ 64) by lia.
  destruct (C16_matrix_product_ret (NT := NJ) I XT m3 N N h B (fun i j => D j i) HI HXT HNh F3 F1') as (P & m4 & E4 & HP & (P4 & L4 & F4 & K4 & N4)).
  erewrite bind_eq by exact E4. cbv beta.
  assert (K04 : keeps (fun _ => False) m m4) by (eapply keeps_trans; eauto).
  assert (W5 : wp (lin_dot_mv (NT := NJ) (r_W r) P odata) m4 (fun _ => sets (t_data (r_W r)) N (fun i => zsum (T := R) (H := NJ) h (fun j => @mul R NJ (zsum (T := R) (H := NJ) N (fun k => @mul R NJ (B i k) (D j k))) (y j))) m4)).
  { pose proof (wp_dot_mv (NT := NJ) (r_W r) P odata m4 y (fun i j => zsum (T := R) (H := NJ) N (fun k => @mul R NJ (B i k) (D j k)))) as Q. cbv zeta in Q. rewrite TW, To in Q. apply Q; auto.
    - eapply keeps_holds; eauto.
    - eapply keeps_room; [exact K04|]. rewrite EW. destruct LW as (l & El & Ll). intros i Hi. cbn. unfold cell. rewrite El. destruct (znth_some _ l i) as [c ->]; [lia|discriminate].
    - intros b i A1 A2. rewrite EW in A1. cbn in A1. destruct A1 as [-> _]. apply NO. destruct (t_data odata); cbn in *; tauto.
    - rewrite EW, P4. apply disjoint_blocks. lia. }
  destruct (wp_elim _ _ _ _ W5) as ([] & m5 & E5 & F5 & O5). erewrite bind_eq by exact E5. cbv beta.
  assert (N5 : length m5 = length m4) by (destruct O5 as [Sk _]; now apply skel_length in Sk).
  assert (Lv : forall b, (length m <= b < length m + 4)%nat -> liveb m5 b).
  { intros b Hb. eapply liveb_only; [exact O5|].
    assert (b = length m \/ b = length m1 \/ b = length m2 \/ b = length m3) as [-> | [-> | [-> | ->]]] by lia.
    - eapply liveb_keeps; [exact K4|]. assert (Q : liveb m1 (length m)) by (eapply live_liveb; eauto). destruct (liveb_keeps _ _ _ K2 Q) as [l El]. exists l. rewrite Blk3 by lia. exact El.
    - eapply liveb_keeps; [exact K4|]. eapply liveb_only; [exact O3|]. unfold ma. eapply liveb_keeps; [apply keeps_app|]. eapply live_liveb; eauto.
    - eapply liveb_keeps; [exact K4|]. eapply liveb_only; [exact O3|]. unfold ma. eexists. rewrite nth_error_app2, Nat.sub_diag by lia. reflexivity.
    - eapply live_liveb; eauto. }
  unfold vec_destroy. rewrite P4, P3, P2, P1.
  erewrite bind_eq by (apply free_live, Lv; lia). cbv beta. set (m6 := set_nth (length m3) None m5).
  erewrite bind_eq by (apply free_live; unfold m6; apply liveb_set; [lia|apply Lv; lia]). cbv beta. set (m7 := set_nth (length m2) None m6).
  erewrite bind_eq by (apply free_live; unfold m7, m6; repeat (apply liveb_set; [lia|]); apply Lv; lia). cbv beta. set (m8 := set_nth (length m1) None m7).
  exists (set_nth (length m) None m8), (fun i => rsum h (fun j => (rsum N (fun k => B i k * D j k) * y j)%R)).
  assert (L8 : liveb m8 (length m)) by (unfold m8, m7, m6; repeat (apply liveb_set; [lia|]); apply Lv; lia).
  split; [apply free_live; exact L8|].
  assert (Old : forall b, (b < length m)%nat -> nth_error (set_nth (length m) None m8) b = nth_error m5 b).
  { intros b Hb. unfold m8, m7, m6. rewrite !nth_set_nth_other by lia. reflexivity. }
  split.
  { intros i Hi. rewrite EW. cbn [elem]. unfold cell. rewrite Old by lia. specialize (F5 i Hi). rewrite EW in F5. cbn [elem] in F5. unfold cell in F5. rewrite F5.
    do 2 f_equal. rewrite zsum_Rj. apply rsum_ext. intros j _. cbn [mul Num_Rj]. f_equal. rewrite zsum_Rj. reflexivity. }
  split.
  { apply (solve_normal h N D y B); [|reflexivity]. intros j k Hj Hk. exact (PB j k Hj Hk). }
  split.
  { split. { unfold m8, m7, m6. rewrite !set_nth_length. lia. }
    intros b Hb Nb. rewrite Old by auto. rewrite (only_block _ m4 m5 b O5). { destruct K04 as [_ K]. apply K; auto. }
    intros i. rewrite EW. cbn. intros [-> _]. apply Nb. reflexivity. }
  split.
  { assert (L4W : live m4 bW N) by (destruct LW as (l & El & Ll); exists l; split; [destruct K04 as [_ K]; rewrite K by auto; exact El|exact Ll]).
    destruct (live_skel m4 m5 bW N) as (l & El & Ll); [apply O5|exact L4W|]. exists l. split; [|exact Ll]. rewrite Old by exact BW. exact El. }
  intros b Hb. assert (Hl : (b < length m + 4)%nat). { revert Hb. unfold m8, m7, m6. rewrite !set_nth_length. lia. }
  assert (b = length m \/ b = length m1 \/ b = length m2 \/ b = length m3) as [-> | [-> | [-> | ->]]] by lia.
  - apply freed_set. exact L8.
  - apply freed_set_other. unfold m8. apply freed_set. unfold m7, m6. repeat (apply liveb_set; [lia|]). apply Lv. lia.
  - apply freed_set_other. unfold m8. apply freed_set_other. unfold m7. apply freed_set. unfold m6. apply liveb_set; [lia|]. apply Lv. lia.
  - apply freed_set_other. unfold m8. apply freed_set_other. unfold m7. apply freed_set_other. unfold m6. apply freed_set. apply Lv. lia.
Qed.
End Solve.

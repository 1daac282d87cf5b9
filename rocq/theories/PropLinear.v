(** * Properties C14-C20: linear algebra *)
From Coq Require Import QArith Reals Lra.
From Verif Require Import Mem Scalar MemSpec MemLemmas Lique LiqueSpec LiqueProofs LiqueProofs2 Linear LinearProofs RSum InverseProofs.
Open Scope Z_scope.

Section Props.
Context {T : Type} `{NT : Num T}.
Implicit Types (m : mem T).

(** ** C14: row vector times matrix, any scalar type (floats included), in index order *)
Theorem C14_row_vector_times_matrix (r v A : tensor) m (n w : Z) (fv : Z -> T) (fa : Z -> Z -> T) :
  t_size v = n -> t_size r = w -> mat_is A n w ->
  holds m (t_data v) n fv -> holds2 m (t_data A) n w fa -> room m (t_data r) w ->
  disjoint (t_data r) w (t_data v) n -> disjoint (t_data r) w (t_data A) (n * w) ->
  exists m', lin_dot_vm r v A m = Ok (tt, m') /\
    sets (t_data r) w (fun j => zsum n (fun i => mul (fv i) (fa i j))) m m'.
Proof.
  intros <- <- HA Fv Fa Rr D1 D2. pose proof HA as (_ & _ & _ & Hn & Hw & _).
  destruct (wp_elim _ _ _ _ (wp_dot_vm r v A m fv fa Hn Hw HA Fv Fa Rr D1 D2)) as ([] & m' & E & S). eauto.
Qed.
(** the returning form: a fresh vector, everything else untouched *)
Theorem C14_row_vector_times_matrix_ret (v A : tensor) m (n w : Z) (fv : Z -> T) (fa : Z -> Z -> T) :
  t_size v = n -> mat_is A n w ->
  holds m (t_data v) n fv -> holds2 m (t_data A) n w fa ->
  exists r m', lin_dot_vm_ret v A m = Ok (r, m') /\ t_size r = w /\
    made m w (fun j => zsum n (fun i => mul (fv i) (fa i j))) (t_data r) m'.
Proof.
  intros <- HA Fv Fa. pose proof HA as (_ & Ew & _ & Hn & Hw & _). unfold lin_dot_vm_ret, vec_new.
  rewrite Ew. set (r := mk_tensor (Ptr (length m) 0) (shape1 w)).
  assert (W : wp (lin_dot_vm r v A) (m ++ [Some (repeat None (Z.to_nat w))]) (fun _ m' =>
     sets (t_data r) w (fun j => zsum (t_size v) (fun i => mul (fv i) (fa i j))) (m ++ [Some (repeat None (Z.to_nat w))]) m')).
  { apply (wp_dot_vm r v A); auto.
    - apply holds_app; auto.
    - apply holds2_app; auto.
    - apply room_alloc.
    - eapply disjoint_fresh; eauto.
    - eapply disjoint_fresh2; eauto. }
  apply wp_elim in W as ([] & m' & E & S). exists r, m'. split; [|split; [auto|]].
  - unfold bind at 1 2, alloc, ret at 1. cbn [s_size shape1]. fold r. erewrite bind_eq by apply E. auto.
  - apply made_of_sets; auto.
Qed.

(** ** C15 *)
Theorem C15_matrix_times_column_vector (r A v : tensor) m (h n : Z) (fv : Z -> T) (fa : Z -> Z -> T) :
  t_size r = h -> t_size v = n -> mat_is A h n ->
  holds m (t_data v) n fv -> holds2 m (t_data A) h n fa -> room m (t_data r) h ->
  disjoint (t_data r) h (t_data v) n -> disjoint (t_data r) h (t_data A) (h * n) ->
  exists m', lin_dot_mv r A v m = Ok (tt, m') /\
    sets (t_data r) h (fun i => zsum n (fun j => mul (fa i j) (fv j))) m m'.
Proof.
  intros <- <- HA Fv Fa Rr D1 D2. pose proof HA as (_ & _ & _ & Hh & Hn & _).
  destruct (wp_elim _ _ _ _ (wp_dot_mv r A v m fv fa Hn Hh HA Fv Fa Rr D1 D2)) as ([] & m' & E & S). eauto.
Qed.
Theorem C15_matrix_times_column_vector_ret (A v : tensor) m (h n : Z) (fv : Z -> T) (fa : Z -> Z -> T) :
  t_size v = n -> mat_is A h n ->
  holds m (t_data v) n fv -> holds2 m (t_data A) h n fa ->
  exists r m', lin_dot_mv_ret A v m = Ok (r, m') /\ t_size r = h /\
    made m h (fun i => zsum n (fun j => mul (fa i j) (fv j))) (t_data r) m'.
Proof.
  intros <- HA Fv Fa. pose proof HA as (Eh & _ & _ & Hh & Hn & _). unfold lin_dot_mv_ret, vec_new.
  rewrite Eh. set (r := mk_tensor (Ptr (length m) 0) (shape1 h)).
  assert (W : wp (lin_dot_mv r A v) (m ++ [Some (repeat None (Z.to_nat h))]) (fun _ m' =>
     sets (t_data r) h (fun i => zsum (t_size v) (fun j => mul (fa i j) (fv j))) (m ++ [Some (repeat None (Z.to_nat h))]) m')).
  { apply (wp_dot_mv r A v); auto.
    - apply holds_app; auto.
    - apply holds2_app; auto.
    - apply room_alloc.
    - eapply disjoint_fresh; eauto.
    - eapply disjoint_fresh2; eauto. }
  apply wp_elim in W as ([] & m' & E & S). exists r, m'. split; [|split; [auto|]].
  - unfold bind at 1 2, alloc, ret at 1. cbn [s_size shape1]. fold r. erewrite bind_eq by apply E. auto.
  - apply made_of_sets; auto.
Qed.

(** ** C16: the returning product *)
Lemma mat_is_shape2 p h w : 0 <= h -> 0 <= w -> h * w < 2 ^ 64 -> mat_is (mk_tensor p (shape2 h w)) h w.
Proof. intros. unfold mat_is, t_size. cbn. rewrite u64_small by nia. auto 6. Qed.

Theorem C16_matrix_product_ret (A B : tensor) m (h n w : Z) (fa fb : Z -> Z -> T) :
  mat_is A h n -> mat_is B n w -> h * w < 2 ^ 64 ->
  holds2 m (t_data A) h n fa -> holds2 m (t_data B) n w fb ->
  exists r m', lin_dot_mm_ret A B m = Ok (r, m') /\ mat_is r h w /\
    made2 m h w (fun i j => zsum n (fun k => mul (fa i k) (fb k j))) (t_data r) m'.
Proof.
  intros HA HB Hs Fa Fb. pose proof HA as (Eh & _ & _ & Hh & Hn & _). pose proof HB as (_ & Ew & _ & _ & Hw & _).
  unfold lin_dot_mm_ret, mat_fill. rewrite Eh, Ew.
  pose proof (mat_is_shape2 (Ptr (length m) 0) h w Hh Hw Hs) as Hr.
  set (r := mk_tensor (Ptr (length m) 0) (shape2 h w)) in *.
  pose proof Hr as (_ & _ & Es & _).
  assert (Esz : s_size (shape2 h w) = h * w) by apply Es.
  set (m0 := m ++ [Some (repeat None (Z.to_nat (h * w)))]).
  assert (W : wp (tb_fill r zero ;;; lin_dot_mm r A B) m0 (fun _ m' =>
     sets2 (t_data r) h w (fun i j => zsum n (fun k => mul (fa i k) (fb k j))) m0 m')).
  { eapply wp_bind'. { unfold tb_fill. rewrite Es. apply wp_assign_val_cpy. apply room_alloc. }
    intros [] m1 [F0 O0]. cbn beta in *.
    assert (D1 : disjoint (t_data r) (h * w) (t_data A) (h * n)) by (eapply disjoint_fresh2; eauto).
    assert (D2 : disjoint (t_data r) (h * w) (t_data B) (n * w)) by (eapply disjoint_fresh2; eauto).
    eapply wp_conseq.
    { apply (wp_dot_mm r A B m1 h n w (fun _ _ => zero) fa fb); auto.
      - eapply holds2_ext; [|apply holds_2; [auto|auto|apply F0]]. auto.
      - eapply (only_holds2_disj m0 m1); eauto. apply holds2_app; auto.
      - eapply (only_holds2_disj m0 m1); eauto. apply holds2_app; auto. }
    intros [] m2 [F2 O2]. split.
    - eapply holds2_ext; [|apply F2]. intros i j Hi Hj. apply zsum_from_zero.
    - eapply only_trans; eauto. }
  apply wp_elim in W as ([] & m' & E & S). exists r, m'. split; [|split; [auto|]].
  - revert E. unfold bind, alloc, ret. rewrite Esz. fold m0 r.
    destruct (tb_fill r zero m0) as [[[] m1]|k]; [|discriminate]. intros ->. auto.
  - apply made_of_sets2; auto.
Qed.

(** The in-place form adds the product to what [result] held. *)
Theorem C16_matrix_product_inplace_partial (r A B : tensor) m (h n w : Z) (fr fa fb : Z -> Z -> T) :
  mat_is r h w -> mat_is A h n -> mat_is B n w ->
  holds2 m (t_data r) h w fr -> holds2 m (t_data A) h n fa -> holds2 m (t_data B) n w fb ->
  disjoint (t_data r) (h * w) (t_data A) (h * n) -> disjoint (t_data r) (h * w) (t_data B) (n * w) ->
  exists m', lin_dot_mm r A B m = Ok (tt, m') /\
    sets2 (t_data r) h w (fun i j => zsum_from (fr i j) n (fun k => mul (fa i k) (fb k j))) m m'.
Proof.
  intros. destruct (wp_elim _ _ _ _ (wp_dot_mm r A B m h n w fr fa fb ltac:(auto) ltac:(auto) ltac:(auto)
    ltac:(auto) ltac:(auto) ltac:(auto) ltac:(auto) ltac:(auto))) as ([] & m' & E & S). eauto.
Qed.

(** ** C17 *)
Theorem C17_outer_product (r c v : tensor) m (h w : Z) (fc fv : Z -> T) :
  t_size c = h -> t_size v = w -> mat_is r h w -> room m (t_data r) (h * w) ->
  holds m (t_data c) h fc -> holds m (t_data v) w fv ->
  disjoint (t_data r) (h * w) (t_data c) h -> disjoint (t_data r) (h * w) (t_data v) w ->
  exists m', lin_tensordot r c v m = Ok (tt, m') /\
    sets2 (t_data r) h w (fun i j => mul (fc i) (fv j)) m m'.
Proof.
  intros <- <- Hr Rr Fc Fv D1 D2. pose proof Hr as (_ & _ & _ & Hh & Hw & _).
  destruct (wp_elim _ _ _ _ (wp_tensordot r c v m fc fv Hh Hw Rr Fc Fv D1 D2)) as ([] & m' & E & S). eauto.
Qed.
Theorem C17_outer_product_ret (c v : tensor) m (h w : Z) (fc fv : Z -> T) :
  t_size c = h -> t_size v = w -> 0 <= h -> 0 <= w -> h * w < 2 ^ 64 ->
  holds m (t_data c) h fc -> holds m (t_data v) w fv ->
  exists r m', lin_tensordot_ret c v m = Ok (r, m') /\ mat_is r h w /\
    made2 m h w (fun i j => mul (fc i) (fv j)) (t_data r) m'.
Proof.
  intros <- <- Hh Hw Hs Fc Fv. unfold lin_tensordot_ret, mat_new.
  pose proof (mat_is_shape2 (Ptr (length m) 0) _ _ Hh Hw Hs) as Hr.
  set (r := mk_tensor (Ptr (length m) 0) (shape2 (t_size c) (t_size v))) in *.
  assert (Esz : s_size (shape2 (t_size c) (t_size v)) = t_size c * t_size v) by apply Hr.
  set (m0 := m ++ [Some (repeat None (Z.to_nat (t_size c * t_size v)))]).
  assert (W : wp (lin_tensordot r c v) m0 (fun _ => sets2 (t_data r) (t_size c) (t_size v) (fun i j => mul (fc i) (fv j)) m0)).
  { apply wp_tensordot; auto.
    - apply room_alloc.
    - apply holds_app; auto.
    - apply holds_app; auto.
    - eapply disjoint_fresh; eauto.
    - eapply disjoint_fresh; eauto. }
  apply wp_elim in W as ([] & m' & E & S). exists r, m'. split; [|split; [auto|]].
  - revert E. unfold bind, alloc, ret. rewrite Esz. fold m0 r. intros ->. auto.
  - apply made_of_sets2; auto.
Qed.

(** ** C18 *)
Theorem C18_transpose (A : tensor) m (h w : Z) (f : Z -> Z -> T) :
  mat_is A h w -> holds2 m (t_data A) h w f ->
  exists r m', lin_transpose_ret A m = Ok (r, m') /\ mat_is r w h /\
    made2 m w h (fun i j => f j i) (t_data r) m'.
Proof.
  intros HA Fa. pose proof HA as (Eh & Ew & _ & Hh & Hw & Hs). unfold lin_transpose_ret, mat_new. rewrite Eh, Ew.
  pose proof (mat_is_shape2 (Ptr (length m) 0) w h Hw Hh ltac:(lia)) as Hr.
  set (r := mk_tensor (Ptr (length m) 0) (shape2 w h)) in *.
  assert (Esz : s_size (shape2 w h) = w * h) by apply Hr.
  set (m0 := m ++ [Some (repeat None (Z.to_nat (w * h)))]).
  assert (W : wp (lin_transpose r A) m0 (fun _ => sets2 (t_data r) w h (fun i j => f j i) m0)).
  { apply (wp_transpose r A m0 h w f); auto.
    - apply room_alloc.
    - apply holds2_app; auto.
    - eapply disjoint_fresh2; eauto. }
  apply wp_elim in W as ([] & m' & E & S). exists r, m'. split; [|split; [auto|]].
  - revert E. unfold bind, alloc, ret. rewrite Esz. fold m0 r. intros ->. auto.
  - apply made_of_sets2; auto.
Qed.
Theorem C18_transpose_inplace (r A : tensor) m (h w : Z) (f : Z -> Z -> T) :
  mat_is r w h -> mat_is A h w -> room m (t_data r) (w * h) -> holds2 m (t_data A) h w f ->
  disjoint (t_data r) (w * h) (t_data A) (h * w) ->
  exists m', lin_transpose r A m = Ok (tt, m') /\ sets2 (t_data r) w h (fun i j => f j i) m m'.
Proof.
  intros. destruct (wp_elim _ _ _ _ (wp_transpose r A m h w f ltac:(auto) ltac:(auto) ltac:(auto)
    ltac:(auto) ltac:(auto))) as ([] & m' & E & S). eauto.
Qed.
Theorem C18_transpose_twice (A : tensor) m (h w : Z) (f : Z -> Z -> T) :
  mat_is A h w -> holds2 m (t_data A) h w f ->
  exists B m1 C m2, lin_transpose_ret A m = Ok (B, m1) /\ lin_transpose_ret B m1 = Ok (C, m2) /\
    mat_is C h w /\ holds2 m2 (t_data C) h w f.
Proof.
  intros HA Fa. destruct (C18_transpose A m h w f HA Fa) as (B & m1 & E1 & HB & (_ & _ & FB & _)).
  destruct (C18_transpose B m1 w h _ HB FB) as (C & m2 & E2 & HC & (_ & _ & FC & _)).
  exists B, m1, C, m2. auto.
Qed.

(** ** C20 *)
Theorem C20_inner_product (a b : tensor) m (n : Z) (fa fb : Z -> T) :
  t_size a = n -> 0 <= n -> holds m (t_data a) n fa -> holds m (t_data b) n fb ->
  lin_dot_vv a b m = Ok (zsum n (fun i => mul (fa i) (fb i)), m).
Proof. intros <- Hn Fa Fb. now apply wp_dot_vv. Qed.
End Props.

(** ** C16, negative part: with exact arithmetic the in-place product is wrong at every
    element where [result] was not zero before. *)
Theorem C16_matrix_product_inplace_refuted (r A B : tensor) (m : mem R) (h n w : Z) (fr fa fb : Z -> Z -> R) :
  mat_is r h w -> mat_is A h n -> mat_is B n w ->
  holds2 m (t_data r) h w fr -> holds2 m (t_data A) h n fa -> holds2 m (t_data B) n w fb ->
  disjoint (t_data r) (h * w) (t_data A) (h * n) -> disjoint (t_data r) (h * w) (t_data B) (n * w) ->
  exists m' f', lin_dot_mm r A B m = Ok (tt, m') /\ holds2 m' (t_data r) h w f' /\
    forall i j, 0 <= i < h -> 0 <= j < w ->
      (f' i j = zsum n (fun k => (fa i k * fb k j)%R) <-> fr i j = 0%R).
Proof.
  intros. destruct (C16_matrix_product_inplace_partial r A B m h n w fr fa fb) as (m' & E & S & _); auto.
  eexists m', _. split; [eauto|]. split; [apply S|]. intros i j Hi Hj. cbn beta.
  rewrite zsum_from_R. cbn [mul Num_R]. split; intros; lra.
Qed.

(** ** C19: inversion in exact arithmetic, whatever a division by zero would give *)
Definition delta (i j : Z) : R := if i =? j then 1%R else 0%R.
(** [P] is the product of [A] and [B], up to index [N]. *)
Definition is_product (N : Z) (A B P : Z -> Z -> R) : Prop :=
  forall i j, 0 <= i < N -> 0 <= j < N -> zsum N (fun k => (A i k * B k j)%R) = P i j.

Lemma left_inverse_injective N A C : is_product N C A delta ->
  forall x, (forall i, 0 <= i < N -> zsum N (fun j => (A i j * x j)%R) = 0%R) -> forall i, 0 <= i < N -> x i = 0%R.
Proof.
  intros HC x Hx i Hi. rewrite <- (S_id N i x Hi).
  rewrite (zsum_ext N _ (fun j => zsum N (fun k => (C i k * (A k j * x j))%R))).
  - rewrite zsum_swap. apply zsum_all0. intros k Hk. rewrite zsum_scal, Hx by auto. lra.
  - intros j Hj. change (idm i j) with (delta i j). rewrite <- (HC i j Hi Hj), <- zsum_scal_r.
    apply zsum_ext. intros k Hk. cbn. lra.
Qed.

Theorem C19_inverse (junk : R -> R) (r t : tensor) (m : mem R) (N : Z) (A C : Z -> Z -> R) :
  mat_is r N N -> mat_is t N N -> disjoint (t_data r) (N * N) (t_data t) (N * N) ->
  room m (t_data r) (N * N) -> holds2 m (t_data t) N N A ->
  is_product N C A delta (* A is invertible *) ->
  exists m' B, lin_inverse (NT := Num_Rj junk) r t m = Ok (tt, m') /\
    holds2 m' (t_data r) N N B /\ is_product N B A delta /\ is_product N A B delta /\
    only (fun b i => inside (t_data r) (N * N) b i \/ inside (t_data t) (N * N) b i) m m'.
Proof.
  intros Hr Ht D Rr HA HC.
  destruct (wp_elim _ _ _ _ (wp_inverse junk r t N A m Hr Ht D Rr HA (left_inverse_injective N A C HC)))
    as ([] & m' & E & B & (F & _ & O) & P1 & P2).
  exists m', B. repeat split; auto; apply O.
Qed.

(** the form that needs only that [A] is injective *)
Lemma inverse_ret_injective (junk : R -> R) (t : tensor) (m : mem R) (N : Z) (A : Z -> Z -> R) b :
  mat_is t N N -> s_depth (t_shape t) = 1 -> t_data t = Ptr b 0 -> holds2 m (t_data t) N N A ->
  (forall x, (forall i, 0 <= i < N -> zsum N (fun j => (A i j * x j)%R) = 0%R) -> forall i, 0 <= i < N -> x i = 0%R) ->
  exists r m' B, lin_inverse_ret (NT := Num_Rj junk) t m = Ok (r, m') /\ mat_is r N N /\
    holds2 m' (t_data r) N N B /\ is_product N B A delta /\ is_product N A B delta /\
    t_data r = Ptr (length m) 0 /\ only (fun b' i => b' = length m \/ b' = b) (m ++ [Some (repeat None (Z.to_nat (N * N)))]) m'.
Proof.
  intros Ht Ed Eb HA HC. pose proof Ht as (Eh & Ew & _ & HN & _ & Hs).
  assert (HN2 : N < 2 ^ 64) by nia.
  unfold lin_inverse_ret, mat_shape_new, mat_new. rewrite Ed, Eh, Ew, Z.mul_1_l, (u64_small N) by lia.
  pose proof (mat_is_shape2 (Ptr (length m) 0) N N HN HN Hs) as Hr.
  set (r := mk_tensor (Ptr (length m) 0) (shape2 N N)) in *.
  assert (Esz : s_size (shape2 N N) = N * N) by apply Hr.
  set (m0 := m ++ [Some (repeat None (Z.to_nat (N * N)))]).
  assert (D : disjoint (t_data r) (N * N) (t_data t) (N * N)) by (eapply disjoint_fresh2; eauto).
  assert (HA0 : holds2 m0 (t_data t) N N A) by (apply holds2_app; auto).
  destruct (wp_elim _ _ _ _ (wp_inverse junk r t N A m0 Hr Ht D (room_alloc m (N * N)) HA0 HC)) as ([] & m' & E & B & (F & _ & O) & P1 & P2).
  exists r, m', B. split; [|split; [exact Hr|split; [exact F|split; [exact P1|split; [exact P2|split; [reflexivity|]]]]]].
  - revert E. unfold bind, alloc, ret. rewrite Esz. fold m0 r. intros ->. auto.
  - eapply only_weaken; [|exact O]. intros b' i [Q|Q]; [left|right]; [cbn in Q; tauto|]. rewrite Eb in Q. cbn in Q. tauto.
Qed.

(** the returning form: a fresh matrix; apart from it only [t] changes *)
Theorem C19_inverse_ret (junk : R -> R) (t : tensor) (m : mem R) (N : Z) (A C : Z -> Z -> R) b :
  mat_is t N N -> s_depth (t_shape t) = 1 -> t_data t = Ptr b 0 -> holds2 m (t_data t) N N A -> is_product N C A delta ->
  exists r m' B, lin_inverse_ret (NT := Num_Rj junk) t m = Ok (r, m') /\ mat_is r N N /\
    holds2 m' (t_data r) N N B /\ is_product N B A delta /\ is_product N A B delta /\
    t_data r = Ptr (length m) 0 /\ only (fun b' i => b' = length m \/ b' = b) (m ++ [Some (repeat None (Z.to_nat (N * N)))]) m'.
Proof. intros Ht Ed Eb HA HC. exact (inverse_ret_injective junk t m N A b Ht Ed Eb HA (left_inverse_injective N A C HC)). Qed.

Module Examples.
Lemma holds2_list {T} (m : mem T) b (l : list T) h w d : nth_error m b = Some (Some (map Some l)) ->
  0 <= h -> 0 <= w -> Z.of_nat (length l) = h * w ->
  holds2 m (Ptr b 0) h w (fun i j => nth (Z.to_nat (i * w + j)) l d).
Proof. intros H Hh Hw E. apply (holds_2 m _ h w (fun o => nth (Z.to_nat o) l d)); auto. rewrite <- E. now apply holds_list. Qed.

(** Runs on concrete rational data (also the product/inverse tests of the repository's kind):
    [[1 2 3][4 5 6]] and friends. *)
Open Scope Q_scope.
Definition memQ : mem Q := [Some (map Some [1;2;3;4;5;6]); Some (map Some [1;0;2]); Some (map Some [0;1;2;0;5;6;7;8;10])].
Definition A23 := mk_tensor (Ptr 0 0) (shape2 2 3).
Definition A32 := mk_tensor (Ptr 0 0) (shape2 3 2).
Definition v3 := mk_tensor (Ptr 1 0) (shape1 3).
Definition B33 := mk_tensor (Ptr 2 0) (shape2 3 3).
Definition out {T} (r : res (tensor * mem T)) : option (option (list (option T))) :=
  match r with Ok (t, m') => match t_data t with Ptr b _ => nth_error m' b | Null => None end | UB _ => None end.
Example run_vm : out (lin_dot_vm_ret v3 A32 memQ) = Some (Some [Some 11; Some 14]).
Proof. vm_compute. reflexivity. Qed.
Example run_mv : out (lin_dot_mv_ret A23 v3 memQ) = Some (Some [Some 7; Some 16]).
Proof. vm_compute. reflexivity. Qed.
Example run_mm : out (lin_dot_mm_ret A23 A32 memQ) = Some (Some [Some 22; Some 28; Some 49; Some 64]).
Proof. vm_compute. reflexivity. Qed.
Example run_transpose : out (lin_transpose_ret A23 memQ) = Some (Some (map Some [1;4;2;5;3;6])).
Proof. vm_compute. reflexivity. Qed.
(** the hypotheses of C14/C16 on this memory *)
Example hyp_C14 : mat_is A32 3 2 /\ t_size v3 = 3%Z /\
  holds memQ (t_data v3) 3 (fun i => nth (Z.to_nat i) [1;0;2] 0) /\
  holds2 memQ (t_data A32) 3 2 (fun i j => nth (Z.to_nat (i * 2 + j)) [1;2;3;4;5;6] 0).
Proof.
  split. { unfold mat_is. vm_compute. repeat split; congruence. } split; [reflexivity|].
  split; [exact (holds_list memQ 1 [1;0;2] 0 eq_refl)|]. now apply holds2_list.
Qed.
(** the inverse of a matrix whose first pivot is zero: B33 * inverse = identity *)
Example run_inverse :
  match lin_inverse_ret B33 memQ with
  | Ok (r, m') =>
    out (lin_dot_mm_ret r (mk_tensor (Ptr 4 0) (shape2 3 3)) (m' ++ [Some (map Some [0;1;2;0;5;6;7;8;10])]))
    = Some (Some (map Some [1;0;0;0;1;0;0;0;1]))
  | UB _ => False
  end.
Proof. vm_compute. reflexivity. Qed.
Close Scope Q_scope.
(** hypotheses of C19 are met by [[0 1][2 0]] with inverse [[0 1/2][1 0]] *)
Example hyp_C19 : exists (m : mem R) (t r : tensor) A C,
  mat_is t 2 2 /\ mat_is r 2 2 /\ s_depth (t_shape t) = 1 /\ disjoint (t_data r) 4 (t_data t) 4 /\
  room m (t_data r) 4 /\ holds2 m (t_data t) 2 2 A /\ is_product 2 C A delta.
Proof.
  exists [Some (map Some [0;1;2;0]%R); Some (repeat None 4)], (mk_tensor (Ptr 0 0) (shape2 2 2)), (mk_tensor (Ptr 1 0) (shape2 2 2)),
    (fun i j => nth (Z.to_nat (i * 2 + j)) [0;1;2;0]%R 0%R), (fun i j => nth (Z.to_nat (i * 2 + j)) [0;1/2;1;0]%R 0%R).
  split. { unfold mat_is. vm_compute. repeat split; congruence. }
  split. { unfold mat_is. vm_compute. repeat split; congruence. }
  split; [reflexivity|]. split; [apply disjoint_blocks; auto|].
  split. { intros i Hi. assert (i = 0 \/ i = 1 \/ i = 2 \/ i = 3) as [-> | [-> | [-> | ->]]] by lia; cbv; discriminate. }
  split; [apply holds2_list; auto; lia|].
  intros i j Hi Hj. assert (i = 0 \/ i = 1) as [-> | ->] by lia; assert (j = 0 \/ j = 1) as [-> | ->] by lia;
    change 2 with (0 + 1 + 1) at 1; rewrite !zsum_S, zsum_0 by lia; unfold delta; cbn -[Pos.to_nat]; change (Pos.to_nat 1) with 1%nat; change (Pos.to_nat 2) with 2%nat; change (Pos.to_nat 3) with 3%nat; cbn; lra.
Qed.
End Examples.

Print Assumptions C14_row_vector_times_matrix.
Print Assumptions C14_row_vector_times_matrix_ret.
Print Assumptions C15_matrix_times_column_vector.
Print Assumptions C15_matrix_times_column_vector_ret.
Print Assumptions C16_matrix_product_ret.
Print Assumptions C16_matrix_product_inplace_partial.
Print Assumptions C16_matrix_product_inplace_refuted.
Print Assumptions C17_outer_product.
Print Assumptions C17_outer_product_ret.
Print Assumptions C18_transpose.
Print Assumptions C18_transpose_inplace.
Print Assumptions C18_transpose_twice.
Print Assumptions C19_inverse.
Print Assumptions C19_inverse_ret.
Print Assumptions C20_inner_product.

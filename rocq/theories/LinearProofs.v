(** * Proofs about Linear.v (products, transpose) *)
From Verif Require Import Mem Scalar MemSpec MemLemmas Lique LiqueSpec LiqueProofs LiqueProofs2 Linear.

Section P.
Context {T : Type} `{NT : Num T}.
Implicit Types (m : mem T).

(** ** pointer arithmetic *)
Lemma padd_padd p a b : padd (padd p a) b = padd p (a + b).
Proof. destruct p; simpl; [reflexivity|]. apply (f_equal (Ptr _)). lia. Qed.
Lemma padd_0 p : padd p 0 = p.
Proof. destruct p; simpl; [reflexivity|]. apply (f_equal (Ptr _)). lia. Qed.
Lemma elem_padd m p k i : elem m (padd p k) i = elem m p (k + i).
Proof. destruct p; simpl; auto. f_equal. lia. Qed.
Lemma load_padd p k i : load (T := T) (padd p k) i = load p (k + i).
Proof. destruct p; [reflexivity|]. unfold load, padd. replace (o + k + i) with (o + (k + i)) by lia. auto. Qed.
Lemma store_padd p k i x : store (T := T) (padd p k) i x = store p (k + i) x.
Proof. destruct p; [reflexivity|]. unfold store, padd. replace (o + k + i) with (o + (k + i)) by lia. auto. Qed.
Lemma mset_padd m p k i x : mset m (padd p k) i x = mset m p (k + i) x.
Proof. unfold mset. now rewrite store_padd. Qed.
Lemma inside_padd p k n N b i : 0 <= k -> k + n <= N -> inside (padd p k) n b i -> inside p N b i.
Proof. destruct p; simpl; auto. intros ? ? [-> ?]. split; auto. lia. Qed.

Lemma row_bound h w i : 0 <= i < h -> 0 <= w -> 0 <= i * w /\ i * w + w <= h * w.
Proof. intros. nia. Qed.

Lemma holds_sub m p N v k n : 0 <= k -> k + n <= N -> holds m p N v -> holds m (padd p k) n (fun i => v (k + i)).
Proof. intros Hk Hn H i Hi. rewrite elem_padd. apply H. lia. Qed.
Lemma room_sub m p N k n : 0 <= k -> k + n <= N -> room m p N -> room m (padd p k) n.
Proof. intros Hk Hn H i Hi. rewrite elem_padd. apply H. lia. Qed.
Lemma holds_0 m p n v : n <= 0 -> holds m p n v.
Proof. intros Hn i Hi. lia. Qed.

Lemma disjoint_sub p N q K k n k' n' : 0 <= k -> k + n <= N -> 0 <= k' -> k' + n' <= K ->
  disjoint p N q K -> disjoint (padd p k) n (padd q k') n'.
Proof. intros ? ? ? ? H b i A B. apply (H b i); [apply (inside_padd p k n N)|apply (inside_padd q k' n' K)]; auto. Qed.
Lemma disjoint_sub_l p N q K k n : 0 <= k -> k + n <= N ->
  disjoint p N q K -> disjoint (padd p k) n q K.
Proof. intros ? ? H b i A B. apply (H b i); auto. eapply inside_padd; [| |exact A]; lia. Qed.

(** ** flat and two-dimensional views of the same elements *)
Lemma holds2_row m p h w f i : holds2 m p h w f -> 0 <= i < h -> holds m (padd p (i * w)) w (f i).
Proof. intros H Hi j Hj. rewrite elem_padd. auto. Qed.
Lemma holds2_of_rows m p h w f : (forall i, 0 <= i < h -> holds m (padd p (i * w)) w (f i)) -> holds2 m p h w f.
Proof. intros H i j Hi Hj. rewrite <- elem_padd. now apply H. Qed.
Lemma flat_split h w o : 0 <= o < h * w -> 0 <= h -> 0 <= w -> 0 <= o / w < h /\ 0 <= o mod w < w /\ o = o / w * w + o mod w.
Proof.
  intros Ho Hh Hw. assert (0 < w) by nia.
  split. { split; [apply Z.div_pos; lia|apply Z.div_lt_upper_bound; nia]. }
  split. { apply Z.mod_pos_bound; lia. }
  pose proof (Z.div_mod o w). lia.
Qed.
Lemma holds2_flat m p h w f : 0 <= h -> 0 <= w -> holds2 m p h w f ->
  holds m p (h * w) (fun o => f (o / w) (o mod w)).
Proof.
  intros Hh Hw H o Ho. destruct (flat_split h w o Ho Hh Hw) as (A & B & E). rewrite E at 1. auto.
Qed.
Lemma holds_2 m p h w v : 0 <= h -> 0 <= w -> holds m p (h * w) v -> holds2 m p h w (fun i j => v (i * w + j)).
Proof. intros Hh Hw H i j Hi Hj. apply H. nia. Qed.
Lemma holds2_ext m p h w f g : (forall i j, 0 <= i < h -> 0 <= j < w -> f i j = g i j) ->
  holds2 m p h w f -> holds2 m p h w g.
Proof. intros E H i j Hi Hj. rewrite H by auto. now rewrite E. Qed.
Lemma holds2_room m p h w f : 0 <= h -> 0 <= w -> holds2 m p h w f -> room m p (h * w).
Proof. intros Hh Hw H. eapply holds_room, holds2_flat; eauto. Qed.
Lemma holds2_unique m p h w f g i j : holds2 m p h w f -> holds2 m p h w g ->
  0 <= i < h -> 0 <= j < w -> f i j = g i j.
Proof. intros A B Hi Hj. specialize (A i j Hi Hj). specialize (B i j Hi Hj). congruence. Qed.

Lemma only_holds_disj m m' p n q k v : only (inside p n) m m' -> disjoint p n q k ->
  holds m q k v -> holds m' q k v.
Proof. intros Ho Hd. eapply only_holds; eauto. Qed.
Lemma only_holds2 W m m' q h w f : only W m m' ->
  (forall b i, inside q (h * w) b i -> ~ W b i) -> 0 <= h -> 0 <= w ->
  holds2 m q h w f -> holds2 m' q h w f.
Proof.
  intros Ho Hd Hh Hw H i j Hi Hj. rewrite <- (H i j Hi Hj). eapply only_elem; eauto. intros b o Hb.
  apply Hd. eapply inside_padd; [| |exact Hb]; nia.
Qed.
Lemma only_holds2_disj m m' p n q h w f : only (inside p n) m m' -> disjoint p n q (h * w) ->
  0 <= h -> 0 <= w -> holds2 m q h w f -> holds2 m' q h w f.
Proof. intros Ho Hd. eapply only_holds2; eauto. Qed.

(** ** matrix element access *)
Lemma mat_get_eq t h w i j : mat_is t h w -> 0 <= i < h -> 0 <= j < w ->
  mat_get (T := T) t i j = load (t_data t) (i * w + j).
Proof.
  intros (Eh & Ew & Es & Hh & Hw & Hb) Hi Hj. unfold mat_get.
  destruct (mat_at_flat h w i j (t_shape t)) as [-> _]; auto.
Qed.
Lemma mat_set_eq t h w i j x : mat_is t h w -> 0 <= i < h -> 0 <= j < w ->
  mat_set (T := T) t i j x = store (t_data t) (i * w + j) x.
Proof.
  intros (Eh & Ew & Es & Hh & Hw & Hb) Hi Hj. unfold mat_set.
  destruct (mat_at_flat h w i j (t_shape t)) as [-> _]; auto.
Qed.
Lemma mat_get_ok t h w i j m f : mat_is t h w -> holds2 m (t_data t) h w f -> 0 <= i < h -> 0 <= j < w ->
  mat_get t i j m = Ok (f i j, m).
Proof. intros Hm Hf Hi Hj. rewrite (mat_get_eq t h w); auto. apply load_ok. auto. Qed.

(** ** sums *)
Lemma gsum_ext n (f g : Z -> T) : (forall i, 0 <= i < Z.of_nat n -> f i = g i) -> gsum n f = gsum n g.
Proof.
  induction n; simpl; intros H; auto. rewrite IHn by (intros; apply H; lia). rewrite H by lia. auto.
Qed.
Lemma zsum_ext n (f g : Z -> T) : (forall i, 0 <= i < n -> f i = g i) -> zsum n f = zsum n g.
Proof. intros H. apply gsum_ext. intros. apply H. lia. Qed.
Lemma zsum_S n (f : Z -> T) : 0 <= n -> zsum (n + 1) f = add (zsum n f) (f n).
Proof.
  intros Hn. unfold zsum. replace (Z.to_nat (n + 1)) with (S (Z.to_nat n)) by lia. simpl.
  now rewrite Z2Nat.id.
Qed.
Lemma zsum_0 (f : Z -> T) : zsum 0 f = zero.
Proof. reflexivity. Qed.
Lemma zsum_from_S a n (f : Z -> T) : 0 <= n -> zsum_from a (n + 1) f = add (zsum_from a n f) (f n).
Proof.
  intros Hn. unfold zsum_from. replace (Z.to_nat (n + 1)) with (S (Z.to_nat n)) by lia. simpl.
  now rewrite Z2Nat.id.
Qed.
Lemma zsum_from_zero n (f : Z -> T) : zsum_from zero n f = zsum n f.
Proof. unfold zsum_from, zsum. induction (Z.to_nat n); simpl; congruence. Qed.
Lemma zsum_from_ext a n (f g : Z -> T) : (forall i, 0 <= i < n -> f i = g i) -> zsum_from a n f = zsum_from a n g.
Proof.
  intros H. unfold zsum_from. assert (G : forall i, 0 <= i < Z.of_nat (Z.to_nat n) -> f i = g i) by (intros; apply H; lia).
  clear H. induction (Z.to_nat n); simpl; auto. rewrite IHn0 by (intros; apply G; lia). rewrite G by lia. auto.
Qed.

Lemma sets_holds_ext dst n f g m m' : (forall i, 0 <= i < n -> f i = g i) -> sets dst n f m m' -> sets dst n g m m'.
Proof. intros E [A B]. split; auto. eapply holds_ext; eauto. Qed.
Lemma sets_trans dst n f g m1 m2 m3 : sets dst n f m1 m2 -> sets dst n g m2 m3 -> sets dst n g m1 m3.
Proof. intros [_ A] [B C]. split; auto. eapply only_trans; eauto. Qed.

(** ** products *)
(** the row accumulation [result(j) += a * row(j)] *)
Lemma wp_axpy_row dst w (a : T) m (r x : Z -> T) (body : Z -> M T unit) :
  holds m dst w r ->
  (forall j m1, 0 <= j < w -> only (inside dst j) m m1 -> elem m1 dst j = Some (Some (r j)) ->
     body j m1 = Ok (tt, mset m1 dst j (add (r j) (mul a (x j))))) ->
  wp (mfor 0 w body) m (fun _ => sets dst w (fun j => add (r j) (mul a (x j))) m).
Proof.
  intros Hr Hb. apply wp_map_loop; [eapply holds_room; eauto|]. intros j m1 Hj Ho. apply Hb; auto.
  eapply dst_elem; eauto.
Qed.

Lemma wp_dot_vm r v M m (vv : Z -> T) (mm : Z -> Z -> T) :
  let n := t_size v in let w := t_size r in
  0 <= n -> 0 <= w -> mat_is M n w -> holds m (t_data v) n vv -> holds2 m (t_data M) n w mm ->
  room m (t_data r) w ->
  disjoint (t_data r) w (t_data v) n -> disjoint (t_data r) w (t_data M) (n * w) ->
  wp (lin_dot_vm r v M) m (fun _ => sets (t_data r) w (fun j => zsum n (fun i => mul (vv i) (mm i j))) m).
Proof.
  intros n w Hn Hw HM Hv Hm Hr D1 D2. unfold lin_dot_vm. fold n w.
  eapply wp_bind'. { apply wp_assign_val_cpy, Hr. } intros [] m0 H0. cbn beta in H0.
  eapply (wp_mfor 0 n _ (fun i => sets (t_data r) w (fun j => zsum i (fun i => mul (vv i) (mm i j))) m)); auto.
  intros i m1 Hi [Hh Ho].
  eapply wp_bind, wp_load. { eapply (only_holds_disj m m1); eauto. }
  eapply wp_conseq.
  { apply (wp_axpy_row (t_data r) w (vv i) m1 (fun j => zsum i (fun i => mul (vv i) (mm i j))) (mm i)); auto.
    intros j m2 Hj Ho2 Ej. unfold tb_get, tb_set.
    erewrite bind_eq by (apply load_ok; eauto).
    erewrite bind_eq.
    2:{ eapply (mat_get_ok M n w); eauto; try lia.
        eapply (only_holds2_disj m m2 (t_data r) w); eauto.
        eapply only_trans; [apply Ho|]. eapply only_weaken; [|apply Ho2].
        intros b o. destruct (t_data r); simpl; auto. lia. }
    apply store_mset. congruence. }
  intros [] m2 H2. eapply sets_holds_ext; [|eapply sets_trans; [split; [apply Hh|apply Ho]|apply H2]].
  intros j Hj. cbn beta. now rewrite zsum_S by lia.
Qed.

Lemma wp_dot_mv r M v m (vv : Z -> T) (mm : Z -> Z -> T) :
  let h := t_size r in let n := t_size v in
  0 <= n -> 0 <= h -> mat_is M h n -> holds m (t_data v) n vv -> holds2 m (t_data M) h n mm ->
  room m (t_data r) h ->
  disjoint (t_data r) h (t_data v) n -> disjoint (t_data r) h (t_data M) (h * n) ->
  wp (lin_dot_mv r M v) m (fun _ => sets (t_data r) h (fun i => zsum n (fun j => mul (mm i j) (vv j))) m).
Proof.
  intros h n Hn Hh HM Hv Hm Hr D1 D2. unfold lin_dot_mv. fold n h.
  eapply wp_bind'. { apply wp_assign_val_cpy, Hr. } intros [] m0 [H0 O0].
  set (res := fun i => zsum n (fun j => mul (mm i j) (vv j))).
  eapply (wp_mfor 0 h _ (fun i => sets (t_data r) h (fun k => if k <? i then res k else zero) m)); auto.
  { split; auto. eapply holds_ext; [|apply H0]. intros i Hi. cbn beta. destruct (Z.ltb_spec i 0); auto; lia. }
  2:{ intros m' H. eapply sets_holds_ext; [|apply H]. intros i Hi. cbn beta. destruct (Z.ltb_spec i h); auto; lia. }
  intros i m1 Hi [Hh1 Ho1].
  eapply (wp_mfor 0 n _ (fun j => sets (t_data r) h (fun k => if k <? i then res k else
             if k =? i then zsum j (fun j => mul (mm i j) (vv j)) else zero) m)); auto.
  { split; auto. eapply holds_ext; [|apply Hh1]. intros k Hk. cbn beta. destruct (k <? i); auto. destruct (k =? i); auto. }
  2:{ intros m' H. eapply sets_holds_ext; [|apply H]. intros k Hk. cbn beta.
      destruct (Z.ltb_spec k i), (Z.ltb_spec k (i + 1)), (Z.eqb_spec k i); try lia; subst; auto. }
  intros j m2 Hj [Hh2 Ho2].
  eapply wp_bind, wp_load. { apply Hh2; auto. }
  eapply wp_bind. eapply wp_intro.
  { eapply (mat_get_ok M h n); eauto; try lia. eapply (only_holds2_disj m m2 (t_data r) h); eauto. }
  eapply wp_bind, wp_load. { eapply (only_holds_disj m m2); eauto. }
  apply wp_store. { eapply holds_room; eauto. }
  split; [|eapply only_trans; [apply Ho2|apply only_mset_in; auto]].
  intros k Hk. destruct (Z.eq_dec k i) as [->|Hki].
  - rewrite elem_mset_same by (eapply holds_room; eauto). cbn beta.
    rewrite Z.ltb_irrefl, Z.eqb_refl. now rewrite zsum_S by lia.
  - rewrite elem_mset_other.
    + rewrite Hh2 by auto. cbn beta. destruct (k <? i); auto. destruct (Z.eqb_spec k i); [lia|auto].
    + right; lia.
    + intros b o b' o' -> [= -> ->] _ ?. lia.
Qed.

(** writing row [i] of a matrix *)
Lemma sets_row m m1 m' p h w f g i :
  0 <= h -> 0 <= w -> 0 <= i < h ->
  sets2 p h w f m m1 -> sets (padd p (i * w)) w g m1 m' ->
  sets2 p h w (fun i' j => if i' =? i then g j else f i' j) m m'.
Proof.
  intros Hh Hw Hi [A B] [C D]. destruct (row_bound h w i Hi Hw) as [B1 B2]. split.
  - intros i' j Hi' Hj. destruct (Z.eqb_spec i' i) as [->|Hne].
    + rewrite <- elem_padd. apply C. auto.
    + rewrite <- (A i' j Hi' Hj). eapply only_elem; [apply D|]. intros b o.
      destruct p as [|b' o']; simpl; auto. intros [-> Hb] [_ Hb']. assert (i' < i \/ i < i') as [?|?] by lia; nia.
  - eapply only_trans; [apply B|]. eapply only_weaken; [|apply D]. intros b o Hb.
    eapply inside_padd; [| |exact Hb]; auto.
Qed.
Lemma sets2_ext dst h w f g m m' : (forall i j, 0 <= i < h -> 0 <= j < w -> f i j = g i j) ->
  sets2 dst h w f m m' -> sets2 dst h w g m m'.
Proof. intros E [A B]. split; auto. eapply holds2_ext; eauto. Qed.
Lemma sets2_refl dst h w f m : holds2 m dst h w f -> sets2 dst h w f m m.
Proof. split; auto. apply only_refl. Qed.

Lemma wp_dot_mm r A B m (h n w : Z) (fr fa fb : Z -> Z -> T) :
  mat_is r h w -> mat_is A h n -> mat_is B n w ->
  holds2 m (t_data r) h w fr -> holds2 m (t_data A) h n fa -> holds2 m (t_data B) n w fb ->
  disjoint (t_data r) (h * w) (t_data A) (h * n) -> disjoint (t_data r) (h * w) (t_data B) (n * w) ->
  wp (lin_dot_mm r A B) m (fun _ => sets2 (t_data r) h w
        (fun i j => zsum_from (fr i j) n (fun k => mul (fa i k) (fb k j))) m).
Proof.
  intros Hr HA HB Fr Fa Fb D1 D2. unfold lin_dot_mm.
  pose proof HA as (EAh & EAw & _ & Hh & Hn & _). pose proof HB as (_ & EBw & _ & _ & Hw & _).
  rewrite EAh, EAw, EBw.
  set (res := fun k i j => zsum_from (fr i j) k (fun k => mul (fa i k) (fb k j))).
  eapply (wp_mfor 0 h _ (fun i => sets2 (t_data r) h w (fun i' j => if i' <? i then res n i' j else fr i' j) m)); auto.
  { apply sets2_refl. eapply holds2_ext; [|apply Fr]. intros i j Hi Hj. destruct (Z.ltb_spec i 0); auto; lia. }
  2:{ intros m'. apply sets2_ext. intros i j Hi Hj. destruct (Z.ltb_spec i h); auto; lia. }
  intros i m1 Hi S1.
  eapply (wp_mfor 0 n _ (fun k => sets2 (t_data r) h w (fun i' j =>
     if i' =? i then res k i j else if i' <? i then res n i' j else fr i' j) m)); auto.
  { eapply sets2_ext; [|apply S1]. intros i' j Hi' Hj. cbn beta. destruct (Z.eqb_spec i' i), (Z.ltb_spec i' i); subst; auto; lia. }
  2:{ intros m'. apply sets2_ext. intros i' j Hi' Hj. cbn beta.
      destruct (Z.eqb_spec i' i), (Z.ltb_spec i' i), (Z.ltb_spec i' (i + 1)); subst; auto; lia. }
  intros k m2 Hk S2. destruct (row_bound h w i Hi Hw) as [B1 B2].
  eapply wp_bind, wp_intro.
  { eapply (mat_get_ok A h n); eauto; try lia. eapply (only_holds2_disj m m2 (t_data r) (h * w)); eauto. apply S2. }
  eapply wp_conseq.
  { apply (wp_axpy_row (padd (t_data r) (i * w)) w (fa i k) m2 (res k i) (fb k)).
    { eapply holds_ext; [|eapply (holds2_row m2 _ h w); [apply S2|auto]]. intros j Hj. cbn beta. now rewrite Z.eqb_refl. }
    intros j m3 Hj Ho3 Ej.
    assert (O3 : only (inside (t_data r) (h * w)) m m3).
    { eapply only_trans; [apply S2|]. eapply only_weaken; [|apply Ho3]. intros b o Hb.
      eapply inside_padd; [| |exact Hb]; lia. }
    rewrite (mat_get_eq r h w) by auto. rewrite <- load_padd.
    erewrite bind_eq by (apply load_ok; eauto).
    erewrite bind_eq.
    2:{ eapply (mat_get_ok B n w); eauto; try lia. eapply (only_holds2_disj m m3 (t_data r) (h * w)); eauto. }
    rewrite (mat_set_eq r h w) by auto. rewrite <- store_padd. apply store_mset. congruence. }
  intros [] m3 S3. eapply sets2_ext; [|eapply sets_row; eauto].
  intros i' j Hi' Hj. cbn beta. destruct (Z.eqb_spec i' i); auto.
  unfold res. now rewrite zsum_from_S by lia.
Qed.

Lemma room_rows m p h w : 0 <= w -> room m p (h * w) -> forall i, 0 <= i < h -> room m (padd p (i * w)) w.
Proof. intros Hw Hr i Hi. destruct (row_bound h w i Hi Hw). eapply (room_sub m p (h*w)); eauto. Qed.

(** Setting a matrix row by row. *)
Lemma wp_rows p h w (g : Z -> Z -> T) (body : Z -> M T unit) m :
  0 <= h -> 0 <= w -> room m p (h * w) ->
  (forall i m1, 0 <= i < h -> only (inside p (i * w)) m m1 ->
     wp (body i) m1 (fun _ => sets (padd p (i * w)) w (g i) m1)) ->
  wp (mfor 0 h body) m (fun _ => sets2 p h w g m).
Proof.
  intros Hh Hw Hr Hb.
  eapply (wp_mfor 0 h _ (fun i m' => holds2 m' p i w g /\ only (inside p (i * w)) m m')); auto.
  { split; [intros i j Hi; lia|apply only_refl]. }
  intros i m1 Hi [A B]. eapply wp_conseq; [apply Hb; auto|]. intros [] m2 [C D]. split.
  - intros i' j Hi' Hj. destruct (Z.eq_dec i' i) as [->|Hne].
    + rewrite <- elem_padd. auto.
    + rewrite <- (A i' j) by (auto; lia). eapply only_elem; [apply D|]. intros b o.
      destruct p as [|b' o']; simpl; auto. intros [-> X] [_ Y]. nia.
  - eapply only_trans; [eapply only_weaken; [|apply B]|eapply only_weaken; [|apply D]].
    + intros b o. destruct p; simpl; auto. intros [-> ?]. split; auto. nia.
    + intros b o Hbo. eapply inside_padd; [| |exact Hbo]; nia.
Qed.

Lemma wp_tensordot r c v m (fc fv : Z -> T) :
  let h := t_size c in let w := t_size v in
  0 <= h -> 0 <= w -> room m (t_data r) (h * w) ->
  holds m (t_data c) h fc -> holds m (t_data v) w fv ->
  disjoint (t_data r) (h * w) (t_data c) h -> disjoint (t_data r) (h * w) (t_data v) w ->
  wp (lin_tensordot r c v) m (fun _ => sets2 (t_data r) h w (fun i j => mul (fc i) (fv j)) m).
Proof.
  intros h w Hh Hw Hr Fc Fv D1 D2. unfold lin_tensordot. fold h w.
  apply wp_rows; auto. intros i m1 Hi Ho. destruct (row_bound h w i Hi Hw) as [B1 B2].
  assert (Ho' : only (inside (t_data r) (h * w)) m m1).
  { eapply only_weaken; [|apply Ho]. intros b o. destruct (t_data r); simpl; auto. lia. }
  eapply wp_bind, wp_load. { eapply (only_holds_disj m m1); eauto. }
  apply (wp_assign_val_src _ w OpMul (fc i) (t_data v) m1 fv).
  - apply (room_rows m1 (t_data r) h w); auto. eapply only_room; eauto.
  - eapply (only_holds_disj m m1); eauto.
  - right. eapply disjoint_sub_l; eauto.
Qed.

Lemma wp_transpose r A m (h w : Z) (f : Z -> Z -> T) :
  mat_is r w h -> mat_is A h w -> room m (t_data r) (w * h) -> holds2 m (t_data A) h w f ->
  disjoint (t_data r) (w * h) (t_data A) (h * w) ->
  wp (lin_transpose r A) m (fun _ => sets2 (t_data r) w h (fun i j => f j i) m).
Proof.
  intros Hr HA Rr Fa D. unfold lin_transpose.
  pose proof Hr as (Erh & Erw & _ & Hw & Hh & _). rewrite Erh, Erw.
  apply wp_rows; auto. intros i m1 Hi Ho. destruct (row_bound w h i Hi Hh) as [B1 B2].
  assert (Ho' : only (inside (t_data r) (w * h)) m m1).
  { eapply only_weaken; [|apply Ho]. intros b o. destruct (t_data r); simpl; auto. lia. }
  apply wp_map_loop. { apply (room_rows m1 (t_data r) w h); auto. eapply only_room; eauto. }
  intros j m2 Hj Ho2.
  assert (Ho2' : only (inside (t_data r) (w * h)) m m2).
  { eapply only_trans; [apply Ho'|]. eapply only_weaken; [|apply Ho2]. intros b o Hb.
      eapply inside_padd; [| |exact Hb]; lia. }
  erewrite bind_eq.
  2:{ eapply (mat_get_ok A h w); eauto; try lia. eapply (only_holds2_disj m m2 (t_data r) (w * h)); eauto. }
  rewrite (mat_set_eq r w h) by auto. rewrite <- store_padd. apply store_mset.
  eapply elem_exists_skel; [symmetry; apply Ho2'|]. rewrite elem_padd. apply Rr. nia.
Qed.

Lemma wp_dot_vv a b m (fa fb : Z -> T) :
  let n := t_size a in 0 <= n -> holds m (t_data a) n fa -> holds m (t_data b) n fb ->
  lin_dot_vv a b m = Ok (zsum n (fun i => mul (fa i) (fb i)), m).
Proof.
  intros n Hn Fa Fb. unfold lin_dot_vv. fold n.
  match goal with |- ?c m = _ =>
  assert (W : wp c m (fun x m' => x = zsum n (fun i => mul (fa i) (fb i)) /\ m' = m)) end.
  { apply (wp_mfold _ 0 n _ (fun i x m' => x = zsum i (fun i => mul (fa i) (fb i)) /\ m' = m)); auto.
    intros i x m' Hi [-> ->]. eapply wp_bind, wp_load; [apply Fa; auto|].
    eapply wp_bind, wp_load; [apply Fb; auto|]. apply wp_ret. split; auto. now rewrite zsum_S by lia. }
  apply wp_elim in W as (x & m' & -> & -> & ->). auto.
Qed.

(** ** results in fresh storage *)
Lemma disjoint_fresh m n p v k : holds m p k v -> disjoint (Ptr (length m) 0) n p k.
Proof.
  intros H b i [-> Hi] Hp. destruct p as [|b' o]; simpl in *; auto.
  destruct Hp as [<- Hi']. apply holds_lt in H; lia.
Qed.
Lemma disjoint_fresh2 m n p h w f : 0 <= h -> 0 <= w -> holds2 m p h w f -> disjoint (Ptr (length m) 0) n p (h * w).
Proof. intros ? ? H. eapply disjoint_fresh, holds2_flat; eauto. Qed.
Lemma holds2_app m x p h w f : holds2 m p h w f -> holds2 (m ++ [x]) p h w f.
Proof. intros H i j Hi Hj. apply elem_app. auto. Qed.
Lemma made_of_sets2 m h w f m' : 0 <= h -> 0 <= w ->
  sets2 (Ptr (length m) 0) h w f (m ++ [Some (repeat None (Z.to_nat (h * w)))]) m' ->
  made2 m h w f (Ptr (length m) 0) m'.
Proof.
  intros Hh Hw [A B].
  destruct (made_of_sets m (h * w) (fun o => f (o / w) (o mod w)) m') as (_ & X & Y & Z & W).
  { nia. }
  { split; auto. apply holds2_flat; auto. }
  repeat split; auto; apply Z.
Qed.
End P.

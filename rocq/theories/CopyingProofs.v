(** * Proofs about the lifetime of layers and networks *)
From Coq Require Import Permutation.
From Verif Require Import Mem Scalar MemSpec MemLemmas Lique LiqueProofs Functions Optimizer Layer Net Skel FCProofs Copying RegressionProofs.
Open Scope Z_scope.

Section CopyingProofs.
Context {T : Type} `{NT : Num T}.
Implicit Types (m : mem T).

(** ** releasing a list of distinct blocks *)
Definition freed_exactly (bs : list nat) m m' : Prop :=
  length m' = length m /\ forall b, (In b bs -> freed m' b) /\ (~ In b bs -> nth_error m' b = nth_error m b).
Lemma freed_exactly_nil m : freed_exactly [] m m.
Proof. split; auto. intros b. split; [intros []|auto]. Qed.
Lemma freed_exactly_app l1 l2 m1 m2 m3 : freed_exactly l1 m1 m2 -> freed_exactly l2 m2 m3 -> freed_exactly (l1 ++ l2) m1 m3.
Proof.
  intros [E1 F1] [E2 F2]. split; [congruence|]. intros b. split.
  - intros H. destruct (in_dec Nat.eq_dec b l2) as [I|I]; [now apply F2|].
    unfold freed. rewrite (proj2 (F2 b)) by auto. apply F1. apply in_app_or in H. tauto.
  - intros H. rewrite (proj2 (F2 b)), (proj2 (F1 b)); auto; intros I; apply H, in_or_app; auto.
Qed.
Lemma freed_exactly_live bs m m' b : freed_exactly bs m m' -> ~ In b bs -> liveb m b -> liveb m' b.
Proof. intros [_ F] N [l E]. exists l. now rewrite (proj2 (F b)). Qed.
Lemma freed_exactly_elem bs m m' b o i : freed_exactly bs m m' -> ~ In b bs -> elem m' (Ptr b o) i = elem m (Ptr b o) i.
Proof. intros [_ F] N. cbn. unfold cell. now rewrite (proj2 (F b)). Qed.
Lemma free_exactly m b : liveb m b -> free (Ptr b 0) m = Ok (tt, set_nth b None m) /\ freed_exactly [b] m (set_nth b None m).
Proof.
  intros H. split; [now apply free_live|]. split; [apply set_nth_length|]. intros b'. split.
  - intros [<-|[]]. now apply freed_set.
  - intros N. apply nth_set_nth_other. intros ->. apply N. now left.
Qed.
(** pointers to the starts of the blocks [bs] *)
Definition starts (bs : list nat) : list ptr := map (fun b => Ptr b 0) bs.
Lemma free_list ts bs m : map t_data ts = starts bs -> NoDup bs -> (forall b, In b bs -> liveb m b) ->
  exists m', mlist ts (fun t (_ : unit) => free (t_data t)) tt m = Ok (tt, m') /\ freed_exactly bs m m'.
Proof.
  revert bs m. induction ts as [|t ts IH]; intros [|b bs] m E ND L; try discriminate.
  - exists m. split; [reflexivity|apply freed_exactly_nil].
  - injection E as Et Ets. inversion ND as [|x y NI ND' E1]; subst. destruct (free_exactly m b) as [F1 F2]; [apply L; now left|].
    destruct (IH bs (set_nth b None m)) as (m' & R & F3); auto.
    { intros b' Hb. eapply freed_exactly_live; [exact F2| |apply L; now right]. intros [<-|[]]. auto. }
    exists m'. split; [|exact (freed_exactly_app [b] bs _ _ _ F2 F3)]. cbn [mlist]. unfold bind at 1. rewrite Et, F1. exact R.
Qed.

(** ** objects *)
Definition initialised m (p : ptr) : Prop := exists x, elem m p 0 = Some (Some x).
Lemma initialised_live m b : initialised m (Ptr b 0) -> liveb m b.
Proof. intros [x E]. cbn in E. apply cell_live in E as (l & E & _). now exists l. Qed.
Lemma load_initialised m p : initialised m p -> exists x, load p 0 m = Ok (x, m).
Proof. intros [x E]. exists x. destruct (wp_elim _ _ _ _ (wp_load p 0 x m (fun y m' => y = x /\ m' = m) E (conj eq_refl eq_refl))) as (a & m' & H & -> & ->). exact H. Qed.

(** the blocks of an object: itself, its activation, its tensors *)
Definition has_blocks (o : lobj) (bs : list nat) : Prop :=
  exists b ba bt, lo_this o = Ptr b 0 /\ (lo_act o = Null /\ ba = [] \/ exists a, lo_act o = Ptr a 0 /\ ba = [a]) /\
    map t_data (members (lo_layer o)) = starts bt /\ bs = b :: ba ++ bt.
(** the memory of [o] is intact *)
Definition object_ok m (o : lobj) : Prop :=
  initialised m (lo_this o) /\ (lo_act o = Null \/ initialised m (lo_act o)) /\
  forall t, In t (members (lo_layer o)) -> owned m (t_data t) /\ t_data t <> Null.

Lemma In_starts b bs : In (Ptr b 0) (starts bs) <-> In b bs.
Proof. unfold starts. rewrite in_map_iff. split; [intros (x & [= ->] & H); exact H|eauto]. Qed.

Lemma delete_object_ok m b : initialised m (Ptr b 0) -> exists m', delete_object (Ptr b 0) m = Ok (tt, m') /\ freed_exactly [b] m m'.
Proof.
  intros I. destruct (load_initialised _ _ I) as [x L]. destruct (free_exactly m b) as [F1 F2]; [now apply initialised_live|].
  exists (set_nth b None m). split; [|exact F2]. unfold delete_object, bind. rewrite L. exact F1.
Qed.
Lemma freed_exactly_perm bs bs' m m' : (forall b, In b bs <-> In b bs') -> freed_exactly bs m m' -> freed_exactly bs' m m'.
Proof. intros H [E F]. split; auto. intros b. rewrite <- H. auto. Qed.

Lemma delete_layer_ok m o bs : has_blocks o bs -> NoDup bs -> object_ok m o ->
  exists m', delete_layer o m = Ok (tt, m') /\ freed_exactly bs m m'.
Proof.
  intros (b & ba & bt & Et & Ea & Em & ->) ND (I & Ia & It).
  assert (ND1 : ~ In b (ba ++ bt)) by (inversion ND; auto). assert (ND2 : NoDup (ba ++ bt)) by (inversion ND; auto).
  unfold delete_layer. rewrite Et in *. destruct (load_initialised _ _ I) as [x L].
  assert (exists m1, delete_object (lo_act o) m = Ok (tt, m1) /\ freed_exactly ba m m1) as (m1 & D1 & F1).
  { destruct Ea as [[Ea ->]|(a & Ea & ->)]; rewrite Ea in *.
    - exists m. split; [reflexivity|apply freed_exactly_nil].
    - destruct Ia as [Ia|Ia]; [discriminate|]. now apply delete_object_ok. }
  assert (NDt : NoDup bt) by (clear -ND2; induction ba; auto; inversion ND2; auto).
  assert (Na : forall c, In c ba -> In c bt -> False).
  { clear -ND2. induction ba as [|a ba IH]; [intros c []|]. cbn in ND2. inversion ND2 as [|? ? H1 H2]; subst. intros c [->|H] Hb; [apply H1, in_or_app; now right|eauto]. }
  assert (Lt : forall c, In c bt -> liveb m c).
  { intros c Hc. apply In_starts in Hc. rewrite <- Em in Hc. apply in_map_iff in Hc as (t & E & Hin). destruct (It t Hin) as [O _]. rewrite E in O. destruct O as [_ [l O]]. now exists l. }
  destruct (free_list (rev (members (lo_layer o))) (rev bt) m1) as (m2 & D2 & F2).
  { rewrite map_rev, Em. unfold starts. now rewrite map_rev. }
  { now apply NoDup_rev. }
  { intros c Hc. apply in_rev in Hc. eapply freed_exactly_live; [exact F1| |auto]. intros H. eapply Na; eauto. }
  destruct (free_exactly m2 b) as [F3 F4].
  { eapply freed_exactly_live; [exact F2| |]. { intros H. apply ND1, in_or_app. right. now apply in_rev. }
    eapply freed_exactly_live; [exact F1| |]. { intros H. apply ND1, in_or_app. now left. } now apply initialised_live. }
  exists (set_nth b None m2). split.
  - unfold bind. rewrite L, D1, D2. exact F3.
  - pose proof (freed_exactly_app _ _ _ _ _ (freed_exactly_app _ _ _ _ _ F1 F2) F4) as F.
    eapply freed_exactly_perm; [|exact F]. intros c. cbn. rewrite !in_app_iff, <- in_rev. cbn. tauto.
Qed.
Lemma object_ok_freed m m' o bs bs' : has_blocks o bs -> freed_exactly bs' m m' -> (forall b, In b bs -> ~ In b bs') -> object_ok m o -> object_ok m' o.
Proof.
  intros (b & ba & bt & Et & Ea & Em & ->) F N (I & Ia & It).
  assert (P : forall c, ~ In c bs' -> initialised m (Ptr c 0) -> initialised m' (Ptr c 0)).
  { intros c Hc [x E]. exists x. rewrite <- E. eapply freed_exactly_elem; eauto. }
  split; [|split].
  - rewrite Et in *. apply P; auto. apply N. now left.
  - destruct Ea as [[Ea _]|(a & Ea & ->)]; [now left|]. destruct Ia as [Ia|Ia]; [now left|]. right. rewrite Ea in *. apply P; auto. apply N. right. now left.
  - intros t Ht. destruct (It t Ht) as [O NN]. split; [|exact NN].
    assert (In (t_data t) (starts bt)) as H by (rewrite <- Em; now apply in_map). unfold starts in H. apply in_map_iff in H as (c & E & Hc). rewrite <- E in *.
    destruct O as [_ [l O]]. split; auto. exists l. rewrite (proj2 (proj2 F c)); auto. apply N. right. apply in_or_app. now right.
Qed.

Lemma net_destroy_ok m N bss : Forall2 has_blocks N bss -> NoDup (concat bss) -> Forall (object_ok m) N ->
  exists m', net_destroy N m = Ok (tt, m') /\ freed_exactly (concat bss) m m'.
Proof.
  intros H. revert m. induction H as [|o bs N bss Ho HN IH]; intros m ND OK.
  - exists m. split; [reflexivity|apply freed_exactly_nil].
  - cbn [concat] in ND. inversion OK as [|? ? O1 O2]; subst.
    assert (ND1 : NoDup bs) by (clear -ND; induction bs; [constructor|]; cbn in ND; inversion ND as [|? ? X Y]; subst; constructor; auto; intros Z; apply X, in_or_app; auto).
    assert (ND2 : NoDup (concat bss)) by (clear -ND; induction bs; auto; inversion ND; auto).
    assert (Nd : forall b, In b bs -> ~ In b (concat bss)).
    { clear -ND. induction bs as [|a bs IH]; [intros b []|]. cbn in ND. inversion ND as [|? ? X Y]; subst. intros b [->|H]; [intros Z; apply X, in_or_app; auto|eauto]. }
    destruct (delete_layer_ok m o bs Ho ND1 O1) as (m1 & D1 & F1).
    assert (OK1 : Forall (object_ok m1) N).
    { clear -HN O2 F1 Nd. revert bss HN Nd. induction N as [|o' N IHN]; intros bss HN Nd; constructor.
      - inversion O2; subst. inversion HN as [|? bs' ? ? HB HN']; subst. eapply object_ok_freed; eauto. intros b Hb Hin. eapply Nd; eauto. cbn. apply in_or_app. now left.
      - inversion O2; subst. inversion HN as [|? bs' ? bss' HB HN']; subst. eapply IHN; eauto. intros b Hb Hin. eapply Nd; eauto. cbn. apply in_or_app. now right. }
    destruct (IH m1 ND2 OK1) as (m2 & D2 & F2). exists m2. split.
    + unfold net_destroy in *. cbn [mlist]. unfold bind at 1. rewrite D1. exact D2.
    + exact (freed_exactly_app _ _ _ _ _ F1 F2).
Qed.

(** ** construction: one block per tensor, numbered consecutively *)
(** [m'] extends [m] by live blocks *)
Definition extends m m' : Prop := (length m <= length m')%nat /\ (forall b, (b < length m)%nat -> nth_error m' b = nth_error m b) /\
  forall b, (length m <= b < length m')%nat -> liveb m' b.
Lemma extends_refl m : extends m m. Proof. split; [auto|]. split; [auto|]. intros. lia. Qed.
Lemma extends_trans m1 m2 m3 : extends m1 m2 -> extends m2 m3 -> extends m1 m3.
Proof.
  intros (A1 & B1 & C1) (A2 & B2 & C2). split; [lia|]. split.
  - intros b H. rewrite B2 by lia. auto.
  - intros b H. destruct (Nat.lt_ge_cases b (length m2)) as [L|L]; [|apply C2; lia].
    destruct (C1 b) as [l E]; [lia|]. exists l. now rewrite B2.
Qed.
Lemma extends_init m m' b : extends m m' -> initialised m (Ptr b 0) -> initialised m' (Ptr b 0).
Proof.
  intros (_ & X & _) [x E]. exists x. rewrite <- E. cbn in *. unfold cell in *. rewrite X; auto.
  apply nth_error_Some. intros H. rewrite H in E. discriminate.
Qed.
(** the tensor was given the next block *)
Definition fresh m (t : tensor) m' : Prop := t_data t = Ptr (length m) 0 /\ extends m m' /\ length m' = S (length m).
Lemma made_extends m n v p m' : made m n v p m' -> p = Ptr (length m) 0 /\ extends m m' /\ length m' = S (length m).
Proof.
  intros (A & B & C & [D E] & F). split; auto. split; auto. split; [lia|]. split; [auto|].
  intros b H. replace b with (length m) by lia. destruct B as (l & B & _). now exists l.
Qed.
Lemma u64_nonneg z : 0 <= u64 z. Proof. apply Z.mod_pos_bound. reflexivity. Qed.
Lemma wp_ten_fresh m s : wp (ten_zeros (T := T) tb_default s) m (fun t m' => fresh m t m').
Proof.
  unfold ten_zeros, ten_resize_shape, ten_resize. cbn [t_data tb_default].
  apply wp_bind, wp_bind. unfold free. cbn [wp]. apply wp_bind, wp_alloc, wp_ret, wp_bind.
  eapply wp_conseq; [apply wp_alloc_fill; apply u64_nonneg|]. intros [] m' H. apply wp_ret.
  apply made_extends in H as (_ & A & B). split; [reflexivity|auto].
Qed.
Lemma wp_mat_fresh m h w : wp (mat_zeros (T := T) tb_default h w) m (fun t m' => fresh m t m').
Proof.
  unfold mat_zeros, mat_resize. cbn [t_data tb_default].
  apply wp_bind, wp_bind. unfold free. cbn [wp]. apply wp_bind, wp_alloc, wp_ret, wp_bind.
  eapply wp_conseq; [apply wp_alloc_fill; apply u64_nonneg|]. intros [] m' H. apply wp_ret.
  apply made_extends in H as (_ & A & B). split; [reflexivity|auto].
Qed.
Lemma wp_vec_fresh m w : 0 <= w < 2 ^ 64 -> wp (vec_zeros (T := T) tb_default w) m (fun t m' => fresh m t m').
Proof.
  intros Hw. eapply wp_conseq; [apply wp_vec_zeros; exact Hw|]. intros t m' [[_ H] _].
  apply made_extends in H as (E & A & B). split; auto.
Qed.
(** the tensors [ts] have exactly the blocks allocated from [m] to [m'] *)
Definition all_fresh m (ts : list tensor) m' : Prop :=
  extends m m' /\ exists bt, map t_data ts = starts bt /\ NoDup bt /\ forall b, In b bt <-> (length m <= b < length m')%nat.
Lemma fresh_seq m ts m' : extends m m' -> map t_data ts = starts (seq (length m) (length ts)) -> (length m' = length m + length ts)%nat -> all_fresh m ts m'.
Proof.
  intros X E L. split; auto. exists (seq (length m) (length ts)). split; auto. split; [apply seq_NoDup|]. intros b. rewrite in_seq. lia.
Qed.
Lemma all_fresh_perm m ts ts' m' : Permutation ts ts' -> all_fresh m ts m' -> all_fresh m ts' m'.
Proof.
  intros P (X & bt & E & ND & H). split; auto.
  pose proof (Permutation_map t_data P) as P'. rewrite E in P'. unfold starts in P'. symmetry in P'.
  apply Permutation_map_inv in P' as (bt' & E' & P'). exists bt'. split; [exact E'|]. split; [eapply Permutation_NoDup; eauto|].
  intros b. rewrite <- H. split; intros I; [eapply Permutation_in; [symmetry; exact P'|]|eapply Permutation_in; [exact P'|]]; exact I.
Qed.
Lemma wp_mmap_fresh m s k : wp (mmap (T := T) (fun t => ten_zeros t s) (repeat tb_default k)) m (fun ts m' =>
  extends m m' /\ length ts = k /\ (length m' = length m + k)%nat /\ map t_data ts = starts (seq (length m) k)).
Proof.
  revert m. induction k as [|k IH]; intros m; cbn [repeat mmap].
  - apply wp_ret. split; [apply extends_refl|]. repeat split. lia.
  - apply wp_bind. eapply wp_conseq; [apply wp_ten_fresh|]. intros t m1 (E1 & X1 & L1).
    apply wp_bind. eapply wp_conseq; [apply IH|]. intros ts m2 (X2 & Lt & L2 & E2). apply wp_ret.
    split; [eapply extends_trans; eauto|]. split; [cbn; lia|]. split; [lia|]. cbn. rewrite E1, E2, L1. reflexivity.
Qed.

Lemma wp_fc_new_fresh m n k a : 0 <= n < 2 ^ 64 -> 0 <= k < 2 ^ 64 -> wp (fc_new (T := T) n k a) m (fun L m' => all_fresh m (members (LFC L)) m').
Proof.
  intros Hn Hk. unfold fc_new.
  apply wp_bind. eapply wp_conseq; [apply wp_vec_fresh; exact Hk|]. intros B m1 (E1 & X1 & L1).
  apply wp_bind. eapply wp_conseq; [apply wp_mat_fresh|]. intros W m2 (E2 & X2 & L2).
  unfold fc_prepare. cbn [f_isize f_osize f_value f_buff f_gradBs f_gradWs f_gradB f_gradW f_delta f_B f_W f_act shape3 s_width].
  apply wp_bind. eapply wp_conseq; [apply wp_ten_fresh|]. intros v m3 (E3 & X3 & L3).
  apply wp_bind. eapply wp_conseq; [apply wp_vec_fresh; exact Hk|]. intros bu m4 (E4 & X4 & L4).
  apply wp_bind. eapply wp_conseq; [apply wp_vec_fresh; exact Hk|]. intros gbs m5 (E5 & X5 & L5).
  apply wp_bind. eapply wp_conseq; [apply wp_mat_fresh|]. intros gws m6 (E6 & X6 & L6).
  apply wp_bind. eapply wp_conseq; [apply wp_vec_fresh; exact Hk|]. intros gb m7 (E7 & X7 & L7).
  apply wp_bind. eapply wp_conseq; [apply wp_mat_fresh|]. intros gw m8 (E8 & X8 & L8).
  apply wp_bind. eapply wp_conseq; [apply wp_ten_fresh|]. intros d m9 (E9 & X9 & L9).
  apply wp_ret. cbn [members f_isize f_osize f_value f_buff f_gradBs f_gradWs f_gradB f_gradW f_delta f_B f_W f_act].
  apply (all_fresh_perm _ [B; W; v; bu; gbs; gws; gb; gw; d]).
  { do 4 apply perm_skip. apply (Permutation_app_tail [d] (Permutation_app_comm [gbs; gws] [gb; gw])). }
  apply fresh_seq; [repeat (eapply extends_trans; [eassumption|]); apply extends_refl| |cbn; lia].
  cbn. rewrite E1, E2, E3, E4, E5, E6, E7, E8, E9, L8, L7, L6, L5, L4, L3, L2, L1. reflexivity.
Qed.

Lemma wp_pool_new_fresh m d h w vs hs a : vs <> 0 -> hs <> 0 -> wp (pool_new (T := T) d h w vs hs a) m (fun L m' => all_fresh m (members (LPool L)) m').
Proof.
  intros Hv Hh. unfold pool_new. apply Z.eqb_neq in Hv. apply Z.eqb_neq in Hh. rewrite Hv, Hh. cbn [orb].
  apply wp_bind. eapply wp_conseq; [apply wp_ten_fresh|]. intros v m1 (E1 & X1 & L1).
  unfold pool_prepare. cbn [p_delta p_mask p_buff p_isize p_osize].
  apply wp_bind. eapply wp_conseq; [apply wp_ten_fresh|]. intros de m2 (E2 & X2 & L2).
  apply wp_bind. eapply wp_conseq; [apply wp_ten_fresh|]. intros ma m3 (E3 & X3 & L3).
  apply wp_bind. eapply wp_conseq; [apply wp_ten_fresh|]. intros bu m4 (E4 & X4 & L4).
  apply wp_ret. cbn [members p_value p_buff p_mask p_delta].
  apply (all_fresh_perm _ [v; de; ma; bu]).
  { apply perm_skip. transitivity [bu; de; ma]; [symmetry; apply (Permutation_middle [de; ma] [] bu)|]. apply perm_skip. apply perm_swap. }
  apply fresh_seq; [repeat (eapply extends_trans; [eassumption|]); apply extends_refl| |cbn; lia].
  cbn. rewrite E1, E2, E3, E4, L3, L2, L1. reflexivity.
Qed.

Lemma wp_conv_new_fresh m s f fh fw p vs hs : 1 <= f < 2 ^ 64 -> vs <> 0 -> hs <> 0 ->
  wp (conv_new (T := T) s f fh fw p vs hs) m (fun L m' => all_fresh m (members (LConv L)) m').
Proof.
  intros Hf Hv Hh. unfold conv_new. apply Z.eqb_neq in Hv. apply Z.eqb_neq in Hh. rewrite Hv, Hh. cbn [orb].
  apply wp_bind. eapply wp_conseq; [apply wp_vec_fresh; lia|]. intros B m1 (E1 & X1 & L1).
  apply wp_bind. eapply wp_conseq; [apply wp_mmap_fresh|]. intros Ws m2 (X2 & LW & L2 & E2).
  unfold conv_prepare. cbn [c_Ws c_osize c_isize c_vs c_hs c_value c_gradB c_delta c_buff c_B c_pad].
  assert (exists W0, znth Ws 0 = Some W0) as [W0 E0] by (apply znth_some; lia).
  apply wp_bind. unfold nth_of. rewrite E0. apply wp_ret.
  apply wp_bind. eapply wp_conseq; [apply wp_ten_fresh|]. intros v m3 (E3 & X3 & L3).
  apply wp_bind. eapply wp_conseq; [apply wp_mmap_fresh|]. intros Gs m4 (X4 & LG & L4 & E4).
  apply wp_bind. eapply wp_conseq; [apply wp_vec_fresh; lia|]. intros gb m5 (E5 & X5 & L5).
  apply wp_bind. eapply wp_conseq; [apply wp_ten_fresh|]. intros de m6 (E6 & X6 & L6).
  apply wp_bind. eapply wp_conseq; [apply wp_ten_fresh|]. intros bu m7 (E7 & X7 & L7).
  apply wp_ret. cbn [members c_Ws c_value c_gradB c_gradWs c_delta c_buff c_B].
  apply fresh_seq; [repeat (eapply extends_trans; [eassumption|]); apply extends_refl| |cbn; rewrite app_length; cbn; rewrite app_length; cbn; lia].
  cbn [length map]. rewrite !app_length. cbn [length]. rewrite !app_length. cbn [length seq].
  rewrite !map_app. cbn [map]. rewrite !map_app. cbn [map].
  rewrite seq_app. cbn [seq]. rewrite seq_app. cbn [seq]. unfold starts in *. cbn [map]. rewrite !map_app. cbn [map]. rewrite !map_app. cbn [map].
  rewrite E1, E2, E3, E4, E5, E6, E7, L6, L5, L4, L3, L2, L1, LW, LG. 
  repeat (f_equal; try lia).
Qed.

Lemma wp_new_object m : wp (new_object (T := T)) m (fun p m' => p = Ptr (length m) 0 /\ initialised m' p /\ extends m m' /\ length m' = S (length m)).
Proof.
  unfold new_object. apply wp_bind, wp_alloc. apply wp_bind. apply wp_store.
  { apply (room_alloc m 1 0). lia. }
  apply wp_ret. split; [reflexivity|]. split; [exists zero; apply elem_mset_same; apply (room_alloc m 1 0); lia|].
  pose proof (skel_mset (m ++ [Some (repeat None (Z.to_nat 1))]) (Ptr (length m) 0) 0 zero) as Sk.
  assert (L : length (mset (m ++ [Some (repeat None (Z.to_nat 1))]) (Ptr (length m) 0) 0 zero) = S (length m)).
  { pose proof (f_equal (@length _) Sk) as E. unfold skel in E. rewrite !map_length, app_length in E. cbn [length] in E. lia. }
  split; [|exact L]. split; [lia|]. split.
  - intros b Hb. unfold mset, store. rewrite nth_error_app2, Nat.sub_diag by lia. cbn [nth_error]. 
    change (znth (repeat (@None T) (Z.to_nat 1)) (0 + 0)) with (Some (@None T)). cbn iota beta. rewrite nth_set_nth_other by lia. now rewrite nth_error_app1.
  - intros b Hb. rewrite L in Hb. replace b with (length m) by lia. eapply skel_live; [symmetry; exact Sk|].
    eexists. rewrite nth_error_app2, Nat.sub_diag by lia. reflexivity.
Qed.

(** layer expressions with a defined meaning: sizes are size_t values, strides are not zero, and a
    convolution has a filter *)
Definition expr_ok (e : layer_expr) : Prop :=
  match e with
  | NewFC n k _ => 0 <= n < 2 ^ 64 /\ 0 <= k < 2 ^ 64
  | NewConv _ f _ _ _ vs hs => 1 <= f < 2 ^ 64 /\ vs <> 0 /\ hs <> 0
  | NewPool _ _ _ vs hs _ => vs <> 0 /\ hs <> 0
  end.

Lemma object_ok_extends m m' o bs : has_blocks o bs -> extends m m' -> object_ok m o -> object_ok m' o.
Proof.
  intros (b & ba & bt & Et & Ea & Em & ->) X (I & Ia & It). split; [|split].
  - rewrite Et in *. eapply extends_init; eauto.
  - destruct Ia as [Ia|Ia]; [now left|]. right. destruct Ea as [[Ea _]|(a & Ea & _)]; rewrite Ea in *; [destruct Ia; discriminate|]. eapply extends_init; eauto.
  - intros t Ht. destruct (It t Ht) as [O NN]. split; [|exact NN]. destruct (t_data t) as [|c o']; [congruence|]. destruct O as [E [l O]]. split; auto. exists l.
    destruct X as (_ & X & _). rewrite X; auto. apply nth_error_Some. congruence.
Qed.
Lemma all_fresh_members m0 m m' ts bt : extends m0 m -> all_fresh m ts m' -> map t_data ts = starts bt ->
  forall t, In t ts -> owned m' (t_data t) /\ t_data t <> Null.
Proof.
  intros _ ((_ & _ & X) & bt' & E & _ & H) _ t Ht. assert (I : In (t_data t) (starts bt')) by (rewrite <- E; now apply in_map).
  unfold starts in I. apply in_map_iff in I as (b & Eb & Ib). rewrite <- Eb. split; [|discriminate]. split; auto.
  apply H in Ib. destruct (X b Ib) as [l El]. now exists l.
Qed.

Lemma wp_new_layer m e : expr_ok e -> wp (new_layer (T := T) e) m (fun o m' =>
  extends m m' /\ object_ok m' o /\ exists bs, has_blocks o bs /\ NoDup bs /\ forall b, In b bs <-> (length m <= b < length m')%nat).
Proof.
  intros He. unfold new_layer. apply wp_bind. eapply wp_conseq; [apply wp_new_object|]. intros this m1 (-> & I1 & X1 & L1).
  assert (P : forall a L ma m2 ba, extends m1 ma -> (length ma = length m1 + length ba)%nat ->
     (a = Null /\ ba = [] \/ a = Ptr (length m1) 0 /\ ba = [length m1] /\ initialised ma a) ->
     all_fresh ma (members L) m2 ->
     let o := mk_lobj (Ptr (length m) 0) L a in
     extends m m2 /\ object_ok m2 o /\ exists bs, has_blocks o bs /\ NoDup bs /\ forall b, In b bs <-> (length m <= b < length m2)%nat).
  { intros a L ma m2 ba Xa La Ha F o. pose proof F as (X2 & bt & E & ND & Hb).
    assert (X12 : extends m1 m2) by (eapply extends_trans; eauto). split; [eapply extends_trans; eauto|]. split; [split; [|split]|].
    - cbn. eapply extends_init; eauto.
    - cbn. destruct Ha as [[-> _]|(-> & _ & Ia)]; [now left|]. right. exact (extends_init _ _ _ X2 Ia).
    - cbn. exact (all_fresh_members _ _ _ _ _ Xa F E).
    - exists (length m :: ba ++ bt). split; [exists (length m), ba, bt|split].
      + split; [reflexivity|]. split; [|auto]. cbn. destruct Ha as [Ha|(-> & -> & _)]; [now left|]. right. exists (length m1). auto.
      + assert (Lx : (length ma <= length m2)%nat) by apply X2. constructor.
        * intros H. apply in_app_or in H as [H|H]; [|apply Hb in H; lia]. destruct Ha as [[_ ->]|(_ & -> & _)]; [destruct H|]. destruct H as [H|[]]. lia.
        * destruct Ha as [[_ ->]|(_ & -> & _)]; [exact ND|]. cbn. constructor; auto. intros H. apply Hb in H. cbn in La. lia.
      + intros b. cbn. rewrite in_app_iff, Hb. assert (Lx : (length ma <= length m2)%nat) by apply X2.
        destruct Ha as [[_ ->]|(_ & -> & _)]; cbn in *; lia. }
  destruct e as [n k a|s f fh fw p vs hs|d h w vs hs a]; cbn [expr_ok] in He.
  - apply wp_bind. eapply wp_conseq; [apply wp_new_object|]. intros act m2 (-> & I2 & X2 & L2).
    apply wp_bind. eapply wp_conseq; [apply wp_fc_new_fresh; tauto|]. intros L m3 F. apply wp_ret.
    apply (P _ _ m2 m3 [length m1]); auto. cbn. lia.
  - apply wp_bind. eapply wp_conseq; [apply wp_conv_new_fresh; tauto|]. intros L m3 F. apply wp_ret.
    apply (P _ _ m1 m3 []); auto; [apply extends_refl|cbn; lia].
  - apply wp_bind. eapply wp_conseq; [apply wp_new_object|]. intros act m2 (-> & I2 & X2 & L2).
    apply wp_bind. eapply wp_conseq; [apply wp_pool_new_fresh; tauto|]. intros L m3 F. apply wp_ret.
    apply (P _ _ m2 m3 [length m1]); auto. cbn. lia.
Qed.

Lemma NoDup_app_intro A (l1 l2 : list A) : NoDup l1 -> NoDup l2 -> (forall x, In x l1 -> In x l2 -> False) -> NoDup (l1 ++ l2).
Proof.
  induction l1 as [|a l1 IH]; cbn; auto. intros N1 N2 H. inversion N1; subst. constructor; [|apply IH; eauto].
  intros I. apply in_app_or in I as [I|I]; eauto.
Qed.
Lemma wp_build_net m es : Forall expr_ok es -> wp (build_net (T := T) es) m (fun N m' =>
  extends m m' /\ length N = length es /\ Forall (object_ok m') N /\
  exists bss, Forall2 has_blocks N bss /\ NoDup (concat bss) /\ forall b, In b (concat bss) <-> (length m <= b < length m')%nat).
Proof.
  intros He. unfold build_net.
  apply (wp_mlist _ _ es _ (fun done N m' => extends m m' /\ length N = length done /\ Forall (object_ok m') N /\
    exists bss, Forall2 has_blocks N bss /\ NoDup (concat bss) /\ forall b, In b (concat bss) <-> (length m <= b < length m')%nat)).
  - split; [apply extends_refl|]. split; [reflexivity|]. split; [constructor|]. exists []. split; [constructor|]. split; [constructor|].
    intros b. cbn. lia.
  - intros done e todo N m' -> (X & L & O & bss & HB & ND & Hb). apply wp_bind.
    eapply wp_conseq; [apply wp_new_layer|]. { rewrite Forall_forall in He. apply He, in_or_app. right. now left. }
    intros o m2 (X2 & O2 & bs & H2 & ND2 & Hb2). apply wp_ret. split; [eapply extends_trans; eauto|].
    split; [rewrite !app_length; cbn; lia|]. split.
    + apply Forall_app. split; [|constructor; auto]. clear -HB O X2. induction HB as [|o bs N bss H HB IH]; constructor; inversion O; subst; auto. eapply object_ok_extends; eauto.
    + exists (bss ++ [bs]). split; [apply Forall2_app; auto|]. rewrite concat_app. cbn [concat]. rewrite app_nil_r. split.
      * apply NoDup_app_intro; auto. intros b B1 B2. apply Hb in B1. apply Hb2 in B2. lia.
      * intros b. rewrite in_app_iff, Hb, Hb2. assert ((length m <= length m')%nat) by apply X. assert ((length m' <= length m2)%nat) by apply X2. lia.
  - intros N m' H. exact H.
Qed.
End CopyingProofs.

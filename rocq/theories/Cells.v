(** * Cell-wise commands on a layer's tensors (proof technique)

    A loop nest that assigns to elements of a layer's tensors, reading only data it does not
    assign, acts on each element separately: element [o] of the tensor in role [r] goes from [v]
    to [H r o v].  This file composes such descriptions. *)
From Verif Require Import Mem Scalar MemSpec MemLemmas Lique LiqueSpec LiqueProofs LiqueProofs2 Linear LinearProofs FunctionSpec FunctionProofs Layer LayerSpec FCProofs.
Open Scope Z_scope.

Section Folds.
Context {A : Type}.
Lemma zfold_neg n (g : Z -> A -> A) a : n <= 0 -> zfold n g a = a.
Proof. intros. unfold zfold. now replace (Z.to_nat n) with O by lia. Qed.
Lemma zfold_miss n (g : Z -> A -> A) a : (forall i v, 0 <= i < n -> g i v = v) -> zfold n g a = a.
Proof.
  intros H. destruct (Z.le_gt_cases n 0); [now apply zfold_neg|]. assert (Hn : 0 <= n) by lia. clear H0. revert n Hn H.
  apply (natlike_ind (fun n => (forall i v, 0 <= i < n -> g i v = v) -> zfold n g a = a)); [reflexivity|].
  intros n Hn IH H. unfold Z.succ in *. rewrite zfold_S, IH by (auto; intros; apply H; lia). apply H. lia.
Qed.
Lemma zfold_hit n i0 (g : Z -> A -> A) a : 0 <= i0 < n -> (forall i v, 0 <= i < n -> i <> i0 -> g i v = v) -> zfold n g a = g i0 a.
Proof.
  intros Hi H. assert (Hn : 0 <= n) by lia. revert n Hn Hi H.
  apply (natlike_ind (fun n => 0 <= i0 < n -> (forall i v, 0 <= i < n -> i <> i0 -> g i v = v) -> zfold n g a = g i0 a)); [intros; lia|].
  intros n Hn IH Hi H. unfold Z.succ in *. rewrite zfold_S by auto. destruct (Z.eq_dec i0 n) as [->|Hne].
  - rewrite zfold_miss; auto. intros i v Hv. apply H; lia.
  - rewrite IH by (try lia; intros; apply H; lia). apply H; lia.
Qed.
Lemma zfold_id n (g : Z -> A -> A) a : (forall i, 0 <= i < n -> forall v, g i v = v) -> zfold n g a = a.
Proof. intros H. apply zfold_miss. intros. now apply H. Qed.
End Folds.

Section Index.
Lemma off3_range d h w i j k : 0 <= i < d -> 0 <= j < h -> 0 <= k < w -> 0 <= (i * h + j) * w + k < d * h * w.
Proof. intros Hi Hj Hk. assert (0 <= i * h + j < d * h) by nia. nia. Qed.
Lemma off2_inj w i k i' k' : 0 <= k < w -> 0 <= k' < w -> i * w + k = i' * w + k' -> i = i' /\ k = k'.
Proof.
  intros Hk Hk' E. assert (i = i'). { assert (Q : (i * w + k) / w = (i' * w + k') / w) by now rewrite E. rewrite !Z.div_add_l, !Z.div_small in Q by lia. lia. }
  subst. split; auto. lia.
Qed.
Lemma off3_inj h w i j k i' j' k' : 0 <= j < h -> 0 <= k < w -> 0 <= j' < h -> 0 <= k' < w ->
  (i * h + j) * w + k = (i' * h + j') * w + k' -> i = i' /\ j = j' /\ k = k'.
Proof.
  intros Hj Hk Hj' Hk' E. destruct (off2_inj w (i * h + j) k (i' * h + j') k' Hk Hk' E) as [E1 ->].
  destruct (off2_inj h i j i' j' Hj Hj' E1) as [-> ->]. auto.
Qed.
Lemma off3_split d h w o : 0 <= d -> 0 <= h -> 0 <= w -> 0 <= o < d * h * w ->
  exists i j k, 0 <= i < d /\ 0 <= j < h /\ 0 <= k < w /\ o = (i * h + j) * w + k.
Proof.
  intros Hd Hh Hw Ho. destruct (flat_split (d * h) w o Ho ltac:(nia) Hw) as (A & B & E).
  destruct (flat_split d h (o / w) A Hd Hh) as (A' & B' & E'). exists (o / w / h), ((o / w) mod h), (o mod w). rewrite <- E'. auto.
Qed.
End Index.

Section Cells.
Context {T : Type} `{NT : Num T}.
Implicit Types (m : mem T) (s : contents T).

Lemma ten_at_eq t d h w i j k : ten_is t d h w -> 0 <= i < d -> 0 <= j < h -> 0 <= k < w -> ten_at (t_shape t) i j k = (i * h + j) * w + k.
Proof.
  intros (E1 & E2 & E3 & E4 & Hd & Hh & Hw & Hs) Hi Hj Hk. unfold ten_at. rewrite E2, E3. pose proof (off3_range d h w i j k Hi Hj Hk).
  rewrite u64_small; [reflexivity|]. nia.
Qed.
Lemma ten_get_ok t d h w i j k m f : ten_is t d h w -> holds m (t_data t) (d * h * w) f -> 0 <= i < d -> 0 <= j < h -> 0 <= k < w ->
  ten_get t i j k m = Ok (f ((i * h + j) * w + k), m).
Proof.
  intros Ht Hf Hi Hj Hk. unfold ten_get. rewrite (ten_at_eq t d h w) by auto. apply load_ok, Hf, off3_range; auto.
Qed.
Lemma mfold_pure A n (body : Z -> A -> M T A) (g : Z -> A -> A) m : 
  (forall i a, 0 <= i < n -> body i a m = Ok (g i a, m)) -> forall a, mfold 0 n body a m = Ok (zfold n g a, m).
Proof.
  intros H a. destruct (Z.le_gt_cases n 0) as [Hn|Hn]; [rewrite mfold_empty, zfold_neg by lia; reflexivity|].
  assert (W : wp (mfold 0 n body a) m (fun r m' => r = zfold n g a /\ m' = m)).
  { apply (wp_mfold _ 0 n _ (fun i r m' => r = zfold i g a /\ m' = m)); [lia|auto| |auto].
    intros i r m' Hi [-> ->]. unfold wp. rewrite H by auto. rewrite zfold_S by lia. auto. }
  apply wp_elim in W as (r & m' & E & -> & ->). exact E.
Qed.

Definition is_cell (r : role) (o : Z) (r' : role) (o' : Z) : bool := if role_eq_dec r' r then o' =? o else false.
Lemma is_cell_true r o : is_cell r o r o = true.
Proof. unfold is_cell. destruct (role_eq_dec r r); [apply Z.eqb_refl|congruence]. Qed.
Lemma is_cell_role r o r' o' : r' <> r -> is_cell r o r' o' = false.
Proof. unfold is_cell. destruct (role_eq_dec r' r); congruence. Qed.
Lemma is_cell_off r o o' : o' <> o -> is_cell r o r o' = false.
Proof. unfold is_cell. destruct (role_eq_dec r r); [|reflexivity]. intros. now apply Z.eqb_neq. Qed.
Lemma is_cell_off3 r h w i j k i' j' k' : 0 <= j < h -> 0 <= k < w -> 0 <= j' < h -> 0 <= k' < w -> (i', j', k') <> (i, j, k) ->
  is_cell r ((i * h + j) * w + k) r ((i' * h + j') * w + k') = false.
Proof.
  intros ? ? ? ? Hne. apply is_cell_off. intros E. apply Hne. destruct (off3_inj h w i' j' k' i j k) as (-> & -> & ->); auto.
Qed.

Lemma layer_at_cell m L s r t o v : layer_at m L s -> part L r = Some t -> 0 <= o < t_size t ->
  elem m (t_data t) o <> None /\ layer_at (mset m (t_data t) o v) L (fun r' o' => if is_cell r o r' o' then v else s r' o').
Proof.
  intros H E Ho. assert (Hr := part_room _ _ _ _ _ H E). split; [now apply Hr|].
  assert (S : sets (t_data t) (t_size t) (fun o' => if o' =? o then v else s r o') m (mset m (t_data t) o v)).
  { split; [|now apply only_mset_in]. intros i Hi. destruct (Z.eqb_spec i o) as [->|Hne].
    - apply elem_mset_same. now apply Hr.
    - rewrite elem_mset_other; [apply (part_holds _ _ _ _ _ H E); lia|right; lia|]. intros b x b' x' -> [= -> ->] _ Q. lia. }
  eapply layer_at_ext; [exact (layer_at_sets _ _ _ _ _ _ _ H E S)|]. intros r' t' o' E' Ho'. unfold set_role, is_cell.
  destruct (role_eq_dec r' r); [|reflexivity]. now subst.
Qed.

Section Phase.
Context (L : layer) (fixed : role -> Prop) (s0 : contents T) (I : mem T -> Prop).
Definition mine (b : nat) (_ : Z) : Prop := block_in L b.
Context (I_stable : forall m m', only mine m m' -> I m -> I m').
Definition inv m s : Prop := layer_at m L s /\ I m /\ forall r o, fixed r -> s r o = s0 r o.
Definition cw (c : M T unit) (H : role -> Z -> T -> T) : Prop :=
  (forall r o v, fixed r -> H r o v = v) /\
  forall m s, inv m s -> wp c m (fun _ m' => layer_at m' L (fun r o => H r o (s r o)) /\ only mine m m').
Lemma cw_inv c H m s : cw c H -> inv m s -> wp c m (fun _ m' => inv m' (fun r o => H r o (s r o)) /\ only mine m m').
Proof.
  intros [F C] (A & B & D). eapply wp_conseq; [apply C; split; [exact A|split; auto]|]. intros [] m' [A' O]. split; auto.
  split; auto. split; [eapply I_stable; eauto|]. intros r o Hr. rewrite F by auto. auto.
Qed.
Lemma cw_ret : cw (ret tt) (fun _ _ v => v).
Proof. split; auto. intros m s (A & _). apply wp_ret. split; [exact A|apply only_refl]. Qed.
Lemma cw_ext c H H' : cw c H -> (forall r o v, H r o v = H' r o v) -> cw c H'.
Proof.
  intros [F C] E. split; [intros; rewrite <- E; auto|]. intros m s Hi. eapply wp_conseq; [apply C; exact Hi|]. intros [] m' [A O].
  split; auto. eapply layer_at_ext; [exact A|]. intros. apply E.
Qed.
Lemma cw_seq c c' H H' : cw c H -> cw c' H' -> cw (c ;;; c') (fun r o v => H' r o (H r o v)).
Proof.
  intros C1 C2. split; [intros r o v Hr; rewrite (proj1 C1), (proj1 C2); auto|]. intros m s Hi. apply wp_bind.
  eapply wp_conseq; [apply (cw_inv _ _ _ _ C1 Hi)|]. intros [] m1 [Hi1 O1]. eapply wp_conseq; [apply (proj2 C2 _ _ Hi1)|].
  intros [] m2 [A O2]. split; [exact A|]. eapply only_trans; eauto.
Qed.
Lemma cw_for n (body : Z -> M T unit) (H : Z -> role -> Z -> T -> T) : (forall i, 0 <= i < n -> cw (body i) (H i)) ->
  cw (mfor 0 n body) (fun r o v => zfold n (fun i => H i r o) v).
Proof.
  intros C. split. { intros r o v Hr. apply zfold_miss. intros i v' Hi. now apply (proj1 (C i Hi)). }
  intros m s Hi. destruct (Z.le_gt_cases n 0) as [Hn|Hn].
  { rewrite mfor_empty by lia. apply wp_ret. split; [|apply only_refl]. eapply layer_at_ext; [exact (proj1 Hi)|]. intros. now rewrite zfold_neg. }
  apply (wp_mfor 0 n _ (fun i m' => inv m' (fun r o => zfold i (fun i => H i r o) (s r o)) /\ only mine m m')); [lia| | |].
  - split; [exact Hi|apply only_refl].
  - intros i m' Hi' [J O]. eapply wp_conseq; [apply (cw_inv _ _ _ _ (C i Hi') J)|]. intros [] m2 [(A & B & D) O2]. split; [|eapply only_trans; eauto].
    split; [|split; [exact B|]].
    + eapply layer_at_ext; [exact A|]. intros. cbv beta. now rewrite zfold_S by lia.
    + intros r o Hr. rewrite zfold_S by lia. now apply D.
  - intros m' [(A & _) O]. split; auto.
Qed.
Lemma cw_if (b : bool) c c' H H' : (b = true -> cw c H) -> (b = false -> cw c' H') ->
  cw (if b then c else c') (fun r o v => if b then H r o v else H' r o v).
Proof. destruct b; auto. Qed.
Lemma cw_read A (c : M T A) v k H : (forall m s, inv m s -> c m = Ok (v, m)) -> cw (k v) H -> cw (bind c k) H.
Proof.
  intros R [F C]. split; auto. intros m s Hi. unfold wp. erewrite bind_eq by (eapply R; eauto). apply (C m s Hi).
Qed.
Lemma cw_store r t o v : part L r = Some t -> ~ fixed r -> 0 <= o < t_size t ->
  cw (store (t_data t) o v) (fun r' o' old => if is_cell r o r' o' then v else old).
Proof.
  intros E Hf Ho. split. { intros r' o' w Hr. rewrite is_cell_role; auto. intros ->. contradiction. }
  intros m s (A & _). destruct (layer_at_cell m L s r t o v A E Ho) as [Hr Hl]. apply wp_store; [exact Hr|]. split; [exact Hl|].
  eapply only_weaken; [|apply (only_mset_in m (t_data t) (t_size t)); auto]. intros b i Hb. exists r, t. split; auto.
  rewrite (part_ptr _ _ _ _ _ A E) in Hb. cbn in Hb. tauto.
Qed.
Lemma cw_inc r t o v : part L r = Some t -> ~ fixed r -> 0 <= o < t_size t ->
  cw (let* x := load (t_data t) o in store (t_data t) o (add x v)) (fun r' o' old => if is_cell r o r' o' then add old v else old).
Proof.
  intros E Hf Ho. split. { intros r' o' w Hr. rewrite is_cell_role; auto. intros ->. contradiction. }
  intros m s Hi. pose proof Hi as (A & _). pose proof (part_holds _ _ _ _ _ A E o Ho) as Hx.
  apply wp_bind. apply (wp_load _ _ _ _ _ Hx). eapply wp_conseq; [apply (proj2 (cw_store r t o (add (s r o) v) E Hf Ho) m s Hi)|].
  intros [] m' [A' O]. split; auto. eapply layer_at_ext; [exact A'|]. intros r' t' o' _ _. cbv beta.
  unfold is_cell. destruct (role_eq_dec r' r); [|reflexivity]. subst. destruct (Z.eqb_spec o' o); congruence.
Qed.
Lemma cw_ten_set r t d h w i j k v : part L r = Some t -> ~ fixed r -> ten_is t d h w -> 0 <= i < d -> 0 <= j < h -> 0 <= k < w ->
  cw (ten_set t i j k v) (fun r' o' old => if is_cell r ((i * h + j) * w + k) r' o' then v else old).
Proof.
  intros E Hf Ht Hi Hj Hk. unfold ten_set. rewrite (ten_at_eq t d h w) by auto. apply cw_store; auto.
  destruct Ht as (_ & _ & _ & -> & _). now apply off3_range.
Qed.
Lemma cw_ten_inc r t d h w i j k v : part L r = Some t -> ~ fixed r -> ten_is t d h w -> 0 <= i < d -> 0 <= j < h -> 0 <= k < w ->
  cw (ten_inc t i j k v) (fun r' o' old => if is_cell r ((i * h + j) * w + k) r' o' then add old v else old).
Proof.
  intros E Hf Ht Hi Hj Hk. unfold ten_inc, ten_get, ten_set. rewrite (ten_at_eq t d h w) by auto. apply cw_inc; auto.
  destruct Ht as (_ & _ & _ & -> & _). now apply off3_range.
Qed.
(** reading one's own tensors *)
Lemma inv_get r t d h w i j k m s : inv m s -> fixed r -> part L r = Some t -> ten_is t d h w -> 0 <= i < d -> 0 <= j < h -> 0 <= k < w ->
  ten_get t i j k m = Ok (s0 r ((i * h + j) * w + k), m).
Proof.
  intros (A & _ & D) Hf E Ht Hi Hj Hk. rewrite <- D by auto. eapply ten_get_ok; eauto.
  pose proof (part_holds _ _ _ _ _ A E) as P. destruct Ht as (_ & _ & _ & Es & _). now rewrite Es in P.
Qed.
Lemma inv_load r t o m s : inv m s -> fixed r -> part L r = Some t -> 0 <= o < t_size t -> load (t_data t) o m = Ok (s0 r o, m).
Proof. intros (A & _ & D) Hf E Ho. rewrite <- D by auto. apply load_ok. now apply (part_holds _ _ _ _ _ A E). Qed.
End Phase.
End Cells.

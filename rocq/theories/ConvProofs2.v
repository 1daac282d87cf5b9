(** * Convolutional layer: construction and update (proofs) *)
From Verif Require Import Mem Scalar MemSpec MemLemmas Lique LiqueSpec LiqueProofs LiqueProofs2 Linear LinearProofs FunctionSpec FunctionProofs Optimizer
  Layer LayerSpec FCProofs Cells ConvSpec ConvProofs.
Open Scope Z_scope.

Section New.
Context {T : Type} `{NT : Num T}.
Implicit Types (m : mem T).

Lemma wp_mmap_zeros m sh k : s_size sh = u64 (s_depth sh * s_height sh * s_width sh) ->
  wp (mmap (fun t => ten_zeros t sh) (repeat tb_default k)) m (fun l m' =>
    length l = k /\ keeps (fun _ => False) m m' /\ length m' = (length m + k)%nat /\
    forall i t, nth_error l i = Some t -> made_at (length m + i) t (s_size sh) m' /\ t_shape t = shape3 (s_depth sh) (s_height sh) (s_width sh)).
Proof.
  intros Hs. revert m. induction k as [|k IH]; intros m; cbn [repeat mmap].
  - apply wp_ret. split; [auto|]. split; [split; auto|]. split; [lia|]. intros i t E. destruct i; discriminate.
  - apply wp_bind. eapply wp_conseq; [apply wp_ten_zeros; exact Hs|]. intros t m1 [V1 Sh].
    destruct (made_keeps _ _ _ _ V1) as [K1 L1]. apply zeros_made_at in V1.
    apply wp_bind. eapply wp_conseq; [apply IH|]. intros l m2 (El & K2 & L2 & P). apply wp_ret.
    split; [cbn; lia|]. split; [eapply LiqueProofs.keeps_trans; eauto|]. split; [lia|].
    intros [|i] t' E; cbn in E.
    + injection E as <-. rewrite Nat.add_0_r. split; [|exact Sh]. eapply made_at_keeps; eauto.
    + destruct (P i t' E) as [P1 P2]. split; [|exact P2]. rewrite L1 in P1. replace (length m + S i)%nat with (S (length m) + i)%nat by lia. exact P1.
Qed.

Lemma made_ten_is b t d h w m : made_at b t (s_size (shape3 d h w)) m -> t_shape t = shape3 d h w -> 0 <= d -> 0 <= h -> 0 <= w -> d * h * w < 2 ^ 64 -> ten_is t d h w.
Proof.
  intros _ E Hd Hh Hw Hs. unfold ten_is, t_size. rewrite E. cbn [shape3 s_depth s_height s_width s_size].
  rewrite u64_small by (split; [|lia]; apply Z.mul_nonneg_nonneg; auto; apply Z.mul_nonneg_nonneg; auto). auto 10.
Qed.
Lemma znth_nth A (l : list A) i x : znth l i = Some x -> 0 <= i /\ nth_error l (Z.to_nat i) = Some x.
Proof. intros H. pose proof (znth_bound _ _ _ _ H). unfold znth in H. destruct (0 <=? i) eqn:E; [|discriminate]. split; [lia|exact H]. Qed.

(** numbering of the tensors of a convolution by their blocks *)
Definition conv_blk (base k : nat) (r : role) : nat := match r with
  | RB => base | RW f => base + 1 + Z.to_nat f | RValue => base + 1 + k | RGradW f => base + 2 + k + Z.to_nat f
  | RGradB => base + 2 + k + k | RDelta => base + 3 + k + k | RBuff => base + 4 + k + k | _ => 0 end.

Lemma conv_osize_eq g sz : geometry_ok g -> s_height sz = g_h g -> s_width sz = g_w g ->
  conv_osize sz (g_f g) (g_fh g) (g_fw g) (g_p g) (g_vs g) (g_hs g) = shape3 (g_f g) (out_h g) (out_w g).
Proof.
  intros G Eh Ew. pose proof (spread_h_le g G). pose proof (spread_w_le g G). pose proof (out_h_pos g G). pose proof (out_w_pos g G).
  destruct G as (?&?&?&?&?&?&?&?&?&?&?&?&?&?&?&?&?&?). unfold conv_osize. rewrite Eh, Ew.
  rewrite (u64_small (g_h g - g_fh g + 2 * g_p g)), (u64_small (g_w g - g_fw g + 2 * g_p g)) by lia.
  assert (1 <= g_f g * out_h g) by nia. assert (1 <= g_f g * out_w g) by nia.
  assert (out_w g < 2 ^ 64) by nia. assert (out_h g < 2 ^ 64) by nia.
  change ((g_h g - g_fh g + 2 * g_p g) / g_vs g + 1) with (out_h g). change ((g_w g - g_fw g + 2 * g_p g) / g_hs g + 1) with (out_w g).
  rewrite !u64_small by lia. reflexivity.
Qed.

Lemma wp_conv_new m g : geometry_ok g ->
  wp (conv_new (shape3 (g_d g) (g_h g) (g_w g)) (g_f g) (g_fh g) (g_fw g) (g_p g) (g_vs g) (g_hs g)) m (fun L m' =>
    conv_dims L g /\ layer_at m' (LConv L) (fun _ _ => zero) /\ keeps (fun _ => False) m m' /\ fresh_blocks m (LConv L)).
Proof.
  intros G. unfold conv_new. pose proof (out_h_pos g G) as OH. pose proof (out_w_pos g G) as OW. pose proof (spread_h_pos g G) as SH. pose proof (spread_w_pos g G) as SW.
  pose proof G as (Gf&Gd&Gh&Gw&Gfh&Gfw&Gp&Gvs&Ghs&_&_&Bh&Bw&Bf&Bi&Bk&Bo&Bs).
  replace (g_vs g =? 0) with false by (symmetry; apply Z.eqb_neq; lia). replace (g_hs g =? 0) with false by (symmetry; apply Z.eqb_neq; lia). cbn [orb].
  rewrite conv_osize_eq by auto. cbn [shape3 s_depth].
  apply wp_bind. eapply wp_conseq; [apply wp_vec_zeros; lia|]. intros B m1 [VB _]. destruct (made_keeps _ _ _ _ VB) as [K1 L1]. apply zeros_made_at in VB.
  apply wp_bind. eapply wp_conseq; [apply wp_mmap_zeros; reflexivity|]. intros Ws m2 (LW & K2 & L2 & PW). cbn [s_depth s_height s_width] in PW.
  unfold conv_prepare. cbn [c_Ws c_osize c_isize c_vs c_hs c_value c_gradB c_delta c_buff c_B c_pad].
  set (k := Z.to_nat (g_f g)) in *.
  assert (exists W0, znth Ws 0 = Some W0) as [W0 E0] by (apply znth_some; lia).
  apply wp_bind. unfold nth_of. rewrite E0. apply wp_ret. apply znth_nth in E0 as [_ E0]. pose proof (proj2 (PW _ _ E0)) as EW0. rewrite EW0. clear W0 E0 EW0.
  change (mk_shape (g_d g) (g_fh g) (g_fw g) (u64 (g_d g * g_fh g * g_fw g))) with (shape3 (g_d g) (g_fh g) (g_fw g)) in *.
  change (mk_shape (g_f g) (out_h g) (out_w g) (u64 (g_f g * out_h g * out_w g))) with (shape3 (g_f g) (out_h g) (out_w g)) in *.
  change (mk_shape (g_d g) (g_h g) (g_w g) (u64 (g_d g * g_h g * g_w g))) with (shape3 (g_d g) (g_h g) (g_w g)) in *.
  apply wp_bind. eapply wp_conseq; [apply wp_ten_zeros; reflexivity|]. intros V m3 [VV ShV]. destruct (made_keeps _ _ _ _ VV) as [K3 L3]. apply zeros_made_at in VV.
  apply wp_bind. eapply wp_conseq; [apply wp_mmap_zeros; reflexivity|]. intros Gs m4 (LG & K4 & L4 & PG). cbn [shape3 s_depth s_height s_width] in PG.
  apply wp_bind. eapply wp_conseq; [apply wp_vec_zeros; lia|]. intros GB m5 [VGB _]. destruct (made_keeps _ _ _ _ VGB) as [K5 L5]. apply zeros_made_at in VGB.
  apply wp_bind. eapply wp_conseq; [apply wp_ten_zeros; reflexivity|]. intros D m6 [VD ShD]. destruct (made_keeps _ _ _ _ VD) as [K6 L6]. apply zeros_made_at in VD.
  apply wp_bind. eapply wp_conseq; [apply wp_ten_zeros; reflexivity|]. intros U m7 [VU ShU]. destruct (made_keeps _ _ _ _ VU) as [K7 L7]. apply zeros_made_at in VU.
  apply wp_ret. cbn [shape3 s_depth s_height s_width] in *.
  change (mk_shape (g_d g) (g_fh g) (g_fw g) (u64 (g_d g * g_fh g * g_fw g))) with (shape3 (g_d g) (g_fh g) (g_fw g)) in *.
  pose proof (spread_h_le g G). pose proof (spread_w_le g G).
  assert (E1 : u64 (g_vs g * (out_h g - 1) + 1) = spread_h g). { apply u64_small. change (0 <= spread_h g < 2 ^ 64). split; [lia|]. rewrite <- (Z.mul_1_l (spread_h g)). nia. }
  assert (E2 : u64 (g_hs g * (out_w g - 1) + 1) = spread_w g). { apply u64_small. change (0 <= spread_w g < 2 ^ 64). split; [lia|]. assert (1 <= g_f g * spread_h g) by nia. nia. }
  rewrite E1, E2 in *.
  assert (K67 : keeps (fun _ => False) m6 m7) by exact K7.
  assert (K57 : keeps (fun _ => False) m5 m7) by (eapply LiqueProofs.keeps_trans; eauto).
  assert (K47 : keeps (fun _ => False) m4 m7) by (eapply LiqueProofs.keeps_trans; eauto).
  assert (K37 : keeps (fun _ => False) m3 m7) by (eapply LiqueProofs.keeps_trans; eauto).
  assert (K27 : keeps (fun _ => False) m2 m7) by (eapply LiqueProofs.keeps_trans; eauto).
  assert (K17 : keeps (fun _ => False) m1 m7) by (eapply LiqueProofs.keeps_trans; eauto).
  assert (K07 : keeps (fun _ => False) m m7) by (eapply LiqueProofs.keeps_trans; eauto).
  eapply made_at_keeps in VB; [|exact K17]. eapply made_at_keeps in VV; [|exact K37].
  eapply made_at_keeps in VGB; [|exact K57]. eapply made_at_keeps in VD; [|exact K67].
  rewrite L6, L5, L4, L3, L2, L1 in *.
  assert (TW : forall t, In t Ws -> ten_is t (g_d g) (g_fh g) (g_fw g)).
  { intros t Ht. apply In_nth_error in Ht as [i Hi]. destruct (PW i t Hi) as [A B']. eapply made_ten_is; eauto. }
  assert (TG : forall t, In t Gs -> ten_is t (g_d g) (g_fh g) (g_fw g)).
  { intros t Ht. apply In_nth_error in Ht as [i Hi]. destruct (PG i t Hi) as [A B']. eapply made_ten_is; eauto. }
  set (L := mk_conv (shape3 (g_d g) (g_h g) (g_w g)) (shape3 (g_f g) (out_h g) (out_w g)) (g_p g) (g_vs g) (g_hs g) B Ws (Z.of_nat (length Ws))
                    (shape3 (g_d g) (g_fh g) (g_fw g)) V Gs GB D U).
  assert (NW : Z.of_nat (length Ws) = g_f g) by (rewrite LW; unfold k; lia).
  assert (NG : Z.of_nat (length Gs) = g_f g) by (rewrite LG, LW; unfold k; lia).
  assert (Pt : forall r t, part (LConv L) r = Some t -> (exists n, made_at (conv_blk (length m) k r) t n m7) /\ (match r with RW f | RGradW f => 0 <= f < g_f g | _ => True end)).
  { intros r t E. destruct r as [|f| | | |f| | | |]; cbn [part L c_B c_Ws c_value c_buff c_gradB c_gradWs c_delta] in E; try discriminate; try (injection E as <-); cbn [conv_blk].
    - split; [eexists; exact VB|exact Logic.I].
    - pose proof (znth_bound _ _ _ _ E). apply znth_nth in E as [F0 E]. destruct (PW _ _ E) as [A _]. split; [eexists; eapply made_at_keeps; [exact K27|]|lia].
      replace (length m + 1 + Z.to_nat f)%nat with (S (length m) + Z.to_nat f)%nat by lia. exact A.
    - split; [eexists|exact Logic.I]. replace (length m + 1 + k)%nat with (S (length m) + k)%nat by lia. exact VV.
    - split; [eexists|exact Logic.I]. rewrite LW in VU. fold k in VU. replace (length m + 4 + k + k)%nat with (S (S (S (S (length m) + k) + k)))%nat by lia. exact VU.
    - split; [eexists|exact Logic.I]. rewrite LW in VGB. replace (length m + 2 + k + k)%nat with (S (S (length m) + k) + k)%nat by lia. exact VGB.
    - pose proof (znth_bound _ _ _ _ E). apply znth_nth in E as [F0 E]. destruct (PG _ _ E) as [A _]. split; [eexists; eapply made_at_keeps; [exact K47|]|lia].
      replace (length m + 2 + k + Z.to_nat f)%nat with (S (S (length m) + k) + Z.to_nat f)%nat by lia. exact A.
    - split; [eexists|exact Logic.I]. rewrite LW in VD. replace (length m + 3 + k + k)%nat with (S (S (S (length m) + k) + k))%nat by lia. exact VD. }
  split; [|split; [|split; [exact K07|]]].
  - split; [exact G|]. cbn [L c_isize c_osize c_pad c_vs c_hs c_fcount c_fsize c_Ws c_gradWs c_B c_gradB c_value c_delta c_buff].
    do 5 (split; [reflexivity|]). split; [exact NW|]. split; [reflexivity|]. split; [exact NW|]. split; [exact NG|].
    split. { intros t Ht. apply in_app_or in Ht as [Ht|Ht]; auto. }
    split; [apply VB|]. split; [rewrite <- NW; apply VGB|].
    split; [eapply made_ten_is; eauto; lia|]. split; [eapply made_ten_is; eauto|eapply made_ten_is; eauto; lia].
  - split.
    + intros r t E. destruct (Pt r t E) as [(n & Hm) _]. destruct (made_at_owner _ _ _ _ Hm) as (X & Y & _). auto.
    + intros r r' t t' E E' Ne. destruct (Pt r t E) as [(n & Hm) R1]. destruct (Pt r' t' E') as [(n' & Hm') R2].
      destruct (made_at_owner _ _ _ _ Hm) as (_ & _ & ->). destruct (made_at_owner _ _ _ _ Hm') as (_ & _ & ->).
      assert (Hk : Z.of_nat k = g_f g) by (unfold k; lia).
      destruct r as [|f| | | |f| | | |]; try discriminate E; destruct r' as [|f'| | | |f'| | | |]; try discriminate E'; cbn [conv_blk]; try congruence; try lia.
      * intros Q. apply Ne. f_equal. lia.
      * intros Q. apply Ne. f_equal. lia.
  - intros b (r & t & E & ->). destruct (Pt r t E) as [(n & Hm) R1]. destruct (made_at_owner _ _ _ _ Hm) as (_ & _ & ->).
    destruct r; try discriminate E; cbn [conv_blk]; lia.
Qed.
Definition xconv_blk (base k : nat) (r : role) : nat := match r with
  | RB => base | RW f => base + 1 + Z.to_nat f | RValue => base + 1 + k | _ => 0 end.
Lemma wp_xconv_new m g : geometry_ok g ->
  wp (xconv_new (shape3 (g_d g) (g_h g) (g_w g)) (g_f g) (g_fh g) (g_fw g) (g_p g) (g_vs g) (g_hs g)) m (fun L m' =>
    xconv_dims L g /\ layer_at m' (LXConv L) (fun _ _ => zero) /\ keeps (fun _ => False) m m' /\ fresh_blocks m (LXConv L)).
Proof.
  intros G. unfold xconv_new. pose proof (out_h_pos g G) as OH. pose proof (out_w_pos g G) as OW.
  pose proof G as (Gf&Gd&Gh&Gw&Gfh&Gfw&Gp&Gvs&Ghs&_&_&Bh&Bw&Bf&Bi&Bk&Bo&Bs).
  replace (g_vs g =? 0) with false by (symmetry; apply Z.eqb_neq; lia). replace (g_hs g =? 0) with false by (symmetry; apply Z.eqb_neq; lia). cbn [orb].
  rewrite conv_osize_eq by auto. cbn [shape3 s_depth].
  apply wp_bind. eapply wp_conseq; [apply wp_vec_zeros; lia|]. intros B m1 [VB _]. destruct (made_keeps _ _ _ _ VB) as [K1 L1]. apply zeros_made_at in VB.
  apply wp_bind. eapply wp_conseq; [apply wp_mmap_zeros; reflexivity|]. intros Ws m2 (LW & K2 & L2 & PW). cbn [s_depth s_height s_width] in PW.
  unfold xconv_prepare. cbn [xc_Ws xc_osize xc_isize xc_vs xc_hs xc_value xc_B xc_pad].
  set (k := Z.to_nat (g_f g)) in *.
  assert (exists W0, znth Ws 0 = Some W0) as [W0 E0] by (apply znth_some; lia).
  apply wp_bind. unfold nth_of. rewrite E0. apply wp_ret. apply znth_nth in E0 as [_ E0]. pose proof (proj2 (PW _ _ E0)) as EW0. rewrite EW0. clear W0 E0 EW0.
  change (mk_shape (g_d g) (g_fh g) (g_fw g) (u64 (g_d g * g_fh g * g_fw g))) with (shape3 (g_d g) (g_fh g) (g_fw g)) in *.
  change (mk_shape (g_f g) (out_h g) (out_w g) (u64 (g_f g * out_h g * out_w g))) with (shape3 (g_f g) (out_h g) (out_w g)) in *.
  change (mk_shape (g_d g) (g_h g) (g_w g) (u64 (g_d g * g_h g * g_w g))) with (shape3 (g_d g) (g_h g) (g_w g)) in *.
  apply wp_bind. eapply wp_conseq; [apply wp_ten_zeros; reflexivity|]. intros V m3 [VV ShV]. destruct (made_keeps _ _ _ _ VV) as [K3 L3]. apply zeros_made_at in VV.
  apply wp_ret. cbn [shape3 s_depth s_height s_width] in *.
  change (mk_shape (g_d g) (g_fh g) (g_fw g) (u64 (g_d g * g_fh g * g_fw g))) with (shape3 (g_d g) (g_fh g) (g_fw g)) in *.
  assert (K23 : keeps (fun _ => False) m2 m3) by exact K3.
  assert (K13 : keeps (fun _ => False) m1 m3) by (eapply LiqueProofs.keeps_trans; eauto).
  assert (K03 : keeps (fun _ => False) m m3) by (eapply LiqueProofs.keeps_trans; eauto).
  eapply made_at_keeps in VB; [|exact K13]. rewrite L2, L1 in *.
  assert (TW : forall t, In t Ws -> ten_is t (g_d g) (g_fh g) (g_fw g)).
  { intros t Ht. apply In_nth_error in Ht as [i Hi]. destruct (PW i t Hi) as [A B']. eapply made_ten_is; eauto. }
  set (L := mk_xconv (shape3 (g_d g) (g_h g) (g_w g)) (shape3 (g_f g) (out_h g) (out_w g)) (g_p g) (g_vs g) (g_hs g) B Ws (Z.of_nat (length Ws))
                    (shape3 (g_d g) (g_fh g) (g_fw g)) V).
  assert (NW : Z.of_nat (length Ws) = g_f g) by (rewrite LW; unfold k; lia).
  assert (Pt : forall r t, part (LXConv L) r = Some t -> (exists n, made_at (xconv_blk (length m) k r) t n m3) /\ (match r with RW f => 0 <= f < g_f g | _ => True end)).
  { intros r t E. destruct r as [|f| | | |f| | | |]; cbn [part L xc_B xc_Ws xc_value] in E; try discriminate; try (injection E as <-); cbn [xconv_blk].
    - split; [eexists; exact VB|exact Logic.I].
    - pose proof (znth_bound _ _ _ _ E). apply znth_nth in E as [F0 E]. destruct (PW _ _ E) as [A _]. split; [eexists; eapply made_at_keeps; [exact K23|]|lia].
      replace (length m + 1 + Z.to_nat f)%nat with (S (length m) + Z.to_nat f)%nat by lia. exact A.
    - split; [eexists|exact Logic.I]. replace (length m + 1 + k)%nat with (S (length m) + k)%nat by lia. exact VV. }
  split; [|split; [|split; [exact K03|]]].
  - split; [exact G|]. cbn [L xc_isize xc_osize xc_pad xc_vs xc_hs xc_fcount xc_fsize xc_Ws xc_B xc_value].
    do 5 (split; [reflexivity|]). split; [exact NW|]. split; [reflexivity|]. split; [exact NW|]. split; [exact TW|].
    split; [apply VB|]. eapply made_ten_is; eauto; lia.
  - split.
    + intros r t E. destruct (Pt r t E) as [(n & Hm) _]. destruct (made_at_owner _ _ _ _ Hm) as (X & Y & _). auto.
    + intros r r' t t' E E' Ne. destruct (Pt r t E) as [(n & Hm) R1]. destruct (Pt r' t' E') as [(n' & Hm') R2].
      destruct (made_at_owner _ _ _ _ Hm) as (_ & _ & ->). destruct (made_at_owner _ _ _ _ Hm') as (_ & _ & ->).
      assert (Hk : Z.of_nat k = g_f g) by (unfold k; lia).
      destruct r as [|f| | | |f| | | |]; try discriminate E; destruct r' as [|f'| | | |f'| | | |]; try discriminate E'; cbn [xconv_blk]; try congruence; try lia.
      intros Q. apply Ne. f_equal. lia.
  - intros b (r & t & E & ->). destruct (Pt r t E) as [(n & Hm) R1]. destruct (made_at_owner _ _ _ _ Hm) as (_ & _ & ->).
    destruct r; try discriminate E; cbn [xconv_blk]; lia.
Qed.
End New.

(** ** update *)
Section Update.
Context {T : Type} `{NT : Num T}.
Implicit Types (m : mem T) (s : contents T).
(** one gradient-descent update of the tensor in role [rp] with the gradient in role [rg] *)
Lemma wp_gd_step addr m L s rp rg tp tg o : layer_at m L s -> part L rp = Some tp -> part L rg = Some tg -> rp <> rg -> t_size tp = t_size tg ->
  o_kind o = GradDescent ->
  wp (opt_update addr o (rng tp) (rng tg)) m (fun o' m' => o' = o /\
    layer_at m' L (set_role (set_role s rg (fun j => mul (s rg j) (o_lr o))) rp (fun j => sub (s rp j) (mul (s rg j) (o_lr o)))) /\
    only (fun b _ => block_in L b) m m').
Proof.
  intros H Ep Eg Ne Es Ho. unfold opt_update, rng. rewrite Ho. cbn [fst snd]. apply wp_bind. unfold r_join. cbn [fst snd].
  eapply wp_conseq; [eapply (wp_part_join m L s rg); [exact H|exact Eg]|]. intros [] m1 [H1 O1].
  apply wp_bind. unfold r_op. cbn [fst snd].
  pose proof (part_holds _ _ _ _ _ H1 Eg) as P1.
  eapply wp_conseq.
  { eapply (wp_part_sets _ m1 L _ rp tp); [exact H1|exact Ep|].
    rewrite Es. eapply wp_assign_src; [eapply (part_holds' _ _ _ rp); [exact H1|exact Ep|auto]|exact P1|].
    right. eapply (part_disj _ _ _ rp rg); eauto. }
  intros [] m2 [H2 O2]. apply wp_ret. split; [reflexivity|]. split.
  - eapply layer_at_ext; [exact H2|]. intros r t i _ _. unfold op_val, set_role; cbv beta zeta.
    repeat (match goal with |- context [role_eq_dec ?a ?b] => destruct (role_eq_dec a b); try congruence end).
  - eapply only_trans; (eapply only_weaken; [|eassumption]); cbn; intros; eapply block_at_in; eassumption.
Qed.

Context (L : conv) (g : geometry) (CD : conv_dims L g).
Notation LL := (LConv L).
(** all gradients multiplied by [alpha] *)
Definition conv_scaled (alpha : T) s : contents T := fun r o => match r with RGradW _ | RGradB => mul (s r o) alpha | _ => s r o end.
Lemma wp_conv_scale alpha m s : layer_at m LL s ->
  wp (mlist (c_gradWs L) (fun g _ => tb_join g alpha) tt ;;; tb_join (c_gradB L) alpha) m (fun _ m' =>
    layer_at m' LL (conv_scaled alpha s) /\ only (fun b _ => block_in LL b) m m').
Proof.
  intros H. apply wp_bind.
  set (St := (fun k r o => match r with RGradW f => if f <? Z.of_nat k then mul (s r o) alpha else s r o | _ => s r o end) : nat -> contents T).
  assert (W : wp (mlist (c_gradWs L) (fun g _ => tb_join g alpha) tt) m (fun _ m' => layer_at m' LL (St (length (c_gradWs L))) /\ only (fun b _ => block_in LL b) m m')).
  { apply (wp_mlist _ _ (c_gradWs L) _ (fun done _ m' => layer_at m' LL (St (length done)) /\ only (fun b _ => block_in LL b) m m')).
    - split; [|apply only_refl]. eapply layer_at_ext; [exact H|]. intros r t i E _. unfold St. destruct r; auto. cbn in E.
      apply znth_bound in E. cbn [length]. destruct (Z.ltb_spec f (Z.of_nat 0)); [lia|reflexivity].
    - intros done x todo [] m' E [H1 O1].
      assert (P : part LL (RGradW (Z.of_nat (length done))) = Some x).
      { cbn [part]. rewrite E. unfold znth. replace (0 <=? Z.of_nat (length done)) with true by (symmetry; apply Z.leb_le; lia).
        rewrite Nat2Z.id, nth_error_app2, Nat.sub_diag by lia. reflexivity. }
      eapply wp_conseq; [eapply (wp_part_join m' LL _ (RGradW (Z.of_nat (length done)))); [exact H1|exact P]|]. intros [] m2 [H2 O2].
      split; [|eapply only_trans; [exact O1|]; eapply only_weaken; [|exact O2]; cbn; intros; eapply block_at_in; eassumption].
      eapply layer_at_ext; [exact H2|]. intros r t i _ _. unfold St, set_role. rewrite app_length. cbn [length].
      destruct (role_eq_dec r (RGradW (Z.of_nat (length done)))) as [->|Ne].
      + destruct (Z.ltb_spec (Z.of_nat (length done)) (Z.of_nat (length done))); [lia|].
        destruct (Z.ltb_spec (Z.of_nat (length done)) (Z.of_nat (length done + 1))); [reflexivity|lia].
      + destruct r; auto. destruct (Z.ltb_spec f (Z.of_nat (length done))), (Z.ltb_spec f (Z.of_nat (length done + 1))); auto; try lia.
        exfalso. apply Ne. f_equal. lia.
    - intros [] m' Q. exact Q. }
  eapply wp_conseq; [exact W|]. intros [] m1 [H1 O1].
  eapply wp_conseq; [eapply (wp_part_join m1 LL _ RGradB); [exact H1|reflexivity]|]. intros [] m2 [H2 O2]. split.
  - eapply layer_at_ext; [exact H2|]. intros r t i E _. unfold St, set_role, conv_scaled. destruct (role_eq_dec r RGradB) as [->|Ne]; [reflexivity|].
    destruct r; auto; try congruence. cbn in E. apply znth_bound in E. destruct (Z.ltb_spec f (Z.of_nat (length (c_gradWs L)))); [reflexivity|lia].
  - eapply only_trans; [exact O1|]. eapply only_weaken; [|exact O2]. cbn; intros; eapply block_at_in; eassumption.
Qed.
(** [update] scales the gradients, then calls the optimizer on each filter in order and on the biases *)
Lemma conv_update_scaled addr alpha m s : layer_at m LL s ->
  exists m1, layer_at m1 LL (conv_scaled alpha s) /\ only (fun b _ => block_in LL b) m m1 /\
    forall o, conv_update addr L o alpha m =
      (let* o1 := mfold 0 (g_f g) (fun i o =>
         let* W := nth_of (c_Ws L) i in let* g := nth_of (c_gradWs L) i in opt_update addr o (rng W) (rng g)) o in
       opt_update addr o1 (rng (c_B L)) (rng (c_gradB L))) m1.
Proof.
  intros H. destruct (wp_elim _ _ _ _ (wp_conv_scale alpha m s H)) as ([] & m1 & E & A & O). exists m1. split; [exact A|]. split; [exact O|].
  intros o. unfold conv_update. destruct CD as (_ & _ & _ & _ & _ & _ & _ & _ & L1 & _). rewrite L1.
  unfold bind in *. destruct (mlist (c_gradWs L) (fun g0 (_ : unit) => tb_join g0 alpha) tt m) as [[[] m0]|]; [|discriminate].
  rewrite E. reflexivity.
Qed.
Definition conv_after_gd (lr alpha : T) s : contents T := fun r o => match r with
  | RGradW _ | RGradB => mul (mul (s r o) alpha) lr
  | RW f => sub (s r o) (mul (mul (s (RGradW f) o) alpha) lr)
  | RB => sub (s r o) (mul (mul (s RGradB o) alpha) lr)
  | _ => s r o end.
Lemma wp_conv_update_gd addr alpha m s o : layer_at m LL s -> o_kind o = GradDescent ->
  wp (conv_update addr L o alpha) m (fun o' m' => o' = o /\ layer_at m' LL (conv_after_gd (o_lr o) alpha s) /\ only (fun b _ => block_in LL b) m m').
Proof.
  intros H Ho. destruct (conv_update_scaled addr alpha m s H) as (m1 & H1 & O1 & E). unfold wp. rewrite E. clear E.
  match goal with |- match ?c m1 with _ => _ end => change (wp c m1 (fun o' m' => o' = o /\ layer_at m' LL (conv_after_gd (o_lr o) alpha s) /\
    only (fun b _ => block_in LL b) m m')) end.
  pose proof (proj1 (proj1 CD)) as GF. pose proof CD as (_ & _ & _ & _ & _ & _ & _ & _ & L1 & L2 & _ & SB & SGB & _).
  set (St := (fun k r o' => match r with
     | RGradW f => if f <? k then mul (mul (s r o') alpha) (o_lr o) else mul (s r o') alpha
     | RW f => if f <? k then sub (s r o') (mul (mul (s (RGradW f) o') alpha) (o_lr o)) else s r o'
     | _ => conv_scaled alpha s r o' end) : Z -> contents T).
  apply wp_bind. eapply (wp_mfold _ 0 (g_f g) _ (fun k o' m' => o' = o /\ layer_at m' LL (St k) /\ only (fun b _ => block_in LL b) m m')); [lia| | |].
  - split; [reflexivity|]. split; [|exact O1]. eapply layer_at_ext; [exact H1|]. intros r t i Pr _. unfold St, conv_scaled.
    destruct r; auto; cbn in Pr; apply znth_bound in Pr; destruct (Z.ltb_spec f 0); auto; lia.
  - intros k o' m' Hk (-> & Hm & Om). destruct (c_parts L g CD k Hk) as (W & GW & EW & EG & TW & TG).
    apply wp_bind. unfold nth_of. rewrite EW. apply wp_ret. apply wp_bind. rewrite EG. apply wp_ret.
    eapply wp_conseq; [eapply (wp_gd_step addr m' LL (St k) (RW k) (RGradW k) W GW o); auto; [discriminate|]|].
    { destruct TW as (_ & _ & _ & -> & _). destruct TG as (_ & _ & _ & -> & _). reflexivity. }
    intros o' m2 (-> & H2 & O2). split; [reflexivity|]. split; [|eapply only_trans; eauto].
    eapply layer_at_ext; [exact H2|]. intros r t i _ _. unfold St, set_role.
    destruct (role_eq_dec r (RW k)) as [->|N1]; [|destruct (role_eq_dec r (RGradW k)) as [->|N2]].
    + destruct (Z.ltb_spec k k); [lia|]. destruct (Z.ltb_spec k (k + 1)); [reflexivity|lia].
    + destruct (Z.ltb_spec k k); [lia|]. destruct (Z.ltb_spec k (k + 1)); [reflexivity|lia].
    + destruct r; auto; destruct (Z.ltb_spec f k), (Z.ltb_spec f (k + 1)); auto; try lia; exfalso; (apply N1 || apply N2); f_equal; lia.
  - intros o' m' (-> & Hm & Om). eapply wp_conseq; [eapply (wp_gd_step addr m' LL (St (g_f g)) RB RGradB (c_B L) (c_gradB L) o); auto; [discriminate|congruence]|].
    intros o' m2 (-> & H2 & O2). split; [reflexivity|]. split; [|eapply only_trans; eauto].
    eapply layer_at_ext; [exact H2|]. intros r t i Pr _. unfold St, set_role, conv_after_gd, conv_scaled.
    destruct (role_eq_dec r RB) as [->|N1]; [reflexivity|]. destruct (role_eq_dec r RGradB) as [->|N2]; [reflexivity|].
    destruct r; auto; try congruence; cbn in Pr; apply znth_bound in Pr; (destruct (Z.ltb_spec f (g_f g)); [reflexivity|lia]).
Qed.
End Update.

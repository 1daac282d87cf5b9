(** * Properties C77, C78: saving and loading *)
From Coq Require Import Reals.
From Verif Require Import Mem Scalar MemSpec MemLemmas Lique LiqueSpec LiqueProofs LiqueProofs2 Functions FunctionSpec Optimizer Layer LayerSpec FCProofs Cells
  ConvSpec ConvProofs ConvProofs2 PoolSpec PropFC PropConv PropPool Net NetPlan NetProofs PropNet Regression RegressionProofs PropRegression Serial SerialProofs.
Open Scope Z_scope.

(** layers without pooling *)
Definition not_pooling (p : plan) : Prop := match p with PPool _ _ => False | _ => True end.

Section Any.
Context {T : Type} `{NT : Num T}.
Implicit Types (m : mem T) (d e : node T) (l : list (node T)).
Notation archive := (list (item T)).

(** ** one layer *)
Definition enc_layer (L : layer) (s : contents T) : archive :=
  match L with
  | LFC L => IKind KFC :: enc_dense (f_isize L) (f_osize L) (f_B L) (f_W L) (f_act L) s
  | LXFC L => IKind KXFC :: enc_dense (xf_isize L) (xf_osize L) (xf_B L) (xf_W L) (xf_act L) s
  | LConv L => IKind KConv :: enc_conv (c_isize L) (c_osize L) (c_pad L) (c_vs L) (c_hs L) (c_B L) (c_Ws L) s
  | LXConv L => IKind KXConv :: enc_conv (xc_isize L) (xc_osize L) (xc_pad L) (xc_vs L) (xc_hs L) (xc_B L) (xc_Ws L) s
  | LPool L => IKind KPool :: save_pooling (p_isize L) (p_osize L) (p_vs L) (p_hs L) (p_act L)
  | LXPool L => IKind KXPool :: save_pooling (xp_isize L) (xp_osize L) (xp_vs L) (xp_hs L) (xp_act L)
  end.
Lemma layer_holds m L s r t : layer_at m L s -> part L r = Some t -> 0 <= t_size t /\ holds m (t_data t) (t_size t) (s r).
Proof.
  intros [A _] E. destruct (A r t E) as [(_ & b & _ & (c & _ & Ec)) H]. split; [|exact H]. rewrite <- Ec. lia.
Qed.
Lemma save_layer_ok m L s : layer_at m L s -> save_layer L m = Ok (enc_layer L s, m).
Proof.
  intros A. pose proof (layer_holds m L s) as P. destruct L as [L|L|L|L|L|L]; cbn [save_layer enc_layer]; try reflexivity; unfold bind.
  - destruct (P RB _ A eq_refl), (P (RW 0) _ A eq_refl). rewrite (save_dense_ok m _ _ _ _ _ s); auto.
  - destruct (P RB _ A eq_refl). rewrite (save_convolution_ok m _ _ _ _ _ _ _ s); [reflexivity|auto|auto|]. intros f t E. exact (P (RW f) t A E).
  - destruct (P RB _ A eq_refl), (P (RW 0) _ A eq_refl). rewrite (save_dense_ok m _ _ _ _ _ s); auto.
  - destruct (P RB _ A eq_refl). rewrite (save_convolution_ok m _ _ _ _ _ _ _ s); [reflexivity|auto|auto|]. intros f t E. exact (P (RW f) t A E).
Qed.
Lemma wp_load_layer L p s a m : fits L p -> not_pooling p -> wp (load_layer (enc_layer L s ++ a)) m (load_post p (train_class L) s a m).
Proof.
  intros F NP. destruct L as [L|L|L|L|L|L]; destruct p as [act n k|g|act q]; try contradiction; cbn [enc_layer app train_class].
  - apply wp_load_fc; auto. - apply wp_load_conv; auto. - apply wp_load_xfc; auto. - apply wp_load_xconv; auto.
Qed.

(** ** the network *)
Fixpoint enc_layers l : archive := match l with [] => [] | d :: l => enc_layer (n_layer d) (n_data d) ++ enc_layers l end.
Lemma save_layers_ok m l : net_at m l -> save_layers (layers l) m = Ok (enc_layers l, m).
Proof.
  induction l as [|d l IH]; intros A; [reflexivity|]. apply net_at_cons in A as (F & A & B & _). cbn [layers map save_layers enc_layers].
  unfold bind at 1. rewrite (save_layer_ok _ _ _ A). unfold bind. fold (layers l). now rewrite IH.
Qed.
Lemma save_net_ok m l : net_at m l -> save_net (layers l) m = Ok (IWord (Z.of_nat (length l)) :: enc_layers l, m).
Proof. intros A. unfold save_net, bind. rewrite (save_layers_ok _ _ A). unfold net_size, layers. now rewrite map_length. Qed.

(** a network with the same plans, classes and parameters as another one *)
Definition same_parameters l l' : Prop :=
  plans l' = plans l /\
  Forall2 (fun d d' => (train_class (n_layer d') <-> train_class (n_layer d)) /\ n_data d' RB = n_data d RB /\ (fun f => n_data d' (RW f)) = (fun f => n_data d (RW f))) l l'.
Lemma wp_load_layers l a : forall m, Forall (fun d => fits (n_layer d) (n_plan d) /\ not_pooling (n_plan d)) l ->
  wp (load_layers (length l) (enc_layers l ++ a)) m (fun r m' => snd r = a /\ exists l', fst r = layers l' /\ net_at m' l' /\ same_parameters l l' /\
    Forall (fun d => forall r, match r with RB | RW _ => True | _ => n_data d r = fun _ => zero end) l' /\
    preserves m m' /\ forall b, net_block l' b -> (length m <= b)%nat).
Proof.
  induction l as [|d l IH]; intros m F; cbn [length load_layers enc_layers].
  - apply wp_ret. split; [reflexivity|]. exists []. split; [reflexivity|]. split; [split; constructor|]. split; [split; [reflexivity|constructor]|].
    split; [constructor|]. split; [split; auto|]. intros b (? & [] & _).
  - inversion F as [|? ? [Fd Nd] Fl]; subst. rewrite <- app_assoc. apply wp_bind.
    eapply wp_conseq; [apply wp_load_layer; [exact Fd|exact Nd]|]. intros [L1 a1] m1 (Ea & F1 & T1 & A1 & K1 & B1). cbn [fst snd] in *. subst a1.
    apply wp_bind. eapply wp_conseq; [apply IH; exact Fl|]. intros [N2 a2] m2 (Ea & l2 & EN & A2 & (Ep & Ef) & Z2 & K2 & B2). cbn [fst snd] in *. subst a2 N2.
    apply wp_ret. split; [reflexivity|]. exists (mk_node L1 (n_plan d) (loaded (n_data d)) :: l2). split; [reflexivity|].
    assert (A1' : layer_at m2 L1 (loaded (n_data d))) by (eapply keeps_layer; eauto).
    split; [|split; [|split; [|split]]].
    + apply net_at_cons. split; [exact F1|]. split; [exact A1'|]. split; [exact A2|]. intros b Hb Q. apply B2 in Q. pose proof (block_live _ _ _ _ A1 Hb). lia.
    + split; [cbn [plans map n_plan]; f_equal; exact Ep|]. constructor; [|exact Ef]. cbn [n_layer n_data]. split; [exact T1|]. split; reflexivity.
    + constructor; [|exact Z2]. cbn [n_data]. intros []; cbn [loaded]; auto.
    + eapply preserves_trans; eauto.
    + intros b (x & [<-|Hx] & Hb); [apply B1; exact Hb|]. assert (length m1 <= b)%nat by (apply B2; exists x; auto). destruct K1 as [K1 _]. lia.
Qed.

(** ** C77 *)
(** Saving succeeds and changes nothing; loading the archive (in any other memory, that is: in another process) gives a network with the same layers, activations,
    weights and biases in new memory, all other state being zero. *)
Theorem C77_save_load m l : net_at m l -> Forall not_pooling (plans l) ->
  exists ar, save_net (layers l) m = Ok (ar, m) /\
    forall rest m1, exists l' m2, load_net (ar ++ rest) m1 = Ok ((layers l', rest), m2) /\
      net_at m2 l' /\ same_parameters l l' /\
      Forall (fun d => forall r, match r with RB | RW _ => True | _ => n_data d r = fun _ => zero end) l' /\
      preserves m1 m2 /\ forall b, net_block l' b -> (length m1 <= b)%nat.
Proof.
  intros A NP. eexists. split; [apply save_net_ok; exact A|]. intros rest m1. cbn [app]. unfold load_net. unfold bind at 1. cbn [get_word]. unfold ret at 1. rewrite Nat2Z.id.
  assert (F : Forall (fun d => fits (n_layer d) (n_plan d) /\ not_pooling (n_plan d)) l).
  { destruct A as [A _]. rewrite Forall_forall in A, NP |- *. intros d Hd. split; [apply (A d Hd)|]. apply NP. unfold plans. now apply in_map. }
  destruct (wp_elim _ _ _ _ (wp_load_layers l rest m1 F)) as ([N a] & m2 & E & Ea & l' & EN & R). cbn [fst snd] in *. subst N a. exists l', m2. auto.
Qed.

(** Equal parameters: equal functions. *)
Lemma same_net_out l l' : same_parameters l l' -> Forall not_pooling (plans l) -> forall x, net_out l' x = net_out l x.
Proof.
  intros [Ep F]. revert Ep. induction F as [|d d' l l' (_ & EB & EW) F IH]; intros Ep NP x; [reflexivity|].
  cbn [plans map] in Ep, NP. injection Ep as Ep1 Ep2. inversion NP as [|? ? N1 N2]; subst. unfold net_out in *. cbn [fold_left].
  assert (E : node_out d' x = node_out d x).
  { unfold node_out. rewrite Ep1. destruct (n_plan d) as [a n k|g|a q]; [| |contradiction]; rewrite EB; [|now rewrite EW].
    now rewrite (f_equal (fun w => w 0) EW : n_data d' (RW 0) = n_data d (RW 0)). }
  rewrite E. now apply IH.
Qed.
(** The loaded network computes the function of the saved one: fed with samples with the same elements, [x] there and [x'] here, both return
    tensors of the same shape with the same elements. *)
Theorem C77_same_outputs m l : net_at m l -> Forall not_pooling (plans l) -> l <> [] -> Z.of_nat (length l) < 2 ^ 64 ->
  exists ar, save_net (layers l) m = Ok (ar, m) /\
    forall rest m1, exists l' m2, load_net (ar ++ rest) m1 = Ok ((layers l', rest), m2) /\ net_at m2 l' /\ preserves m1 m2 /\
      (* any tensor of the loading program that the network accepts is a sample for [l'] *)
      (forall x' xv, wired (t_shape x') (plans l) -> holds m1 (t_data x') (t_size x') xv -> 0 < t_size x' -> sample_at m2 l' x' xv) /\
      forall x x' xv, sample_at m l x xv -> sample_at m2 l' x' xv ->
      exists y y' m3 m4 v, net_feedforward (layers l) x m = Ok (y, m3) /\ net_feedforward (layers l') x' m2 = Ok (y', m4) /\
        t_shape y' = t_shape y /\ holds m3 (t_data y) (t_size y) v /\ holds m4 (t_data y') (t_size y') v.
Proof.
  intros A NP Ne Hn. destruct (C77_save_load m l A NP) as (ar & Es & Hl). exists ar. split; [exact Es|]. intros rest m1.
  destruct (Hl rest m1) as (l' & m2 & El & A' & SP & _ & P & F). exists l', m2. split; [exact El|]. split; [exact A'|]. split; [exact P|].
  pose proof SP as [Ep F2]. assert (EL : length l' = length l) by (pose proof (f_equal (@length _) Ep) as Q; unfold plans in Q; now rewrite !map_length in Q).
  split.
  - intros x' xv W Hx Hpos. split; [now rewrite Ep|]. unfold net_outside. destruct (t_data x') as [|b o] eqn:Ex.
    + split; [|exact Logic.I]. intros i Hi. exact (Hx i Hi).
    + split. * intros i Hi. specialize (Hx i Hi). cbn in *. eapply keeps_cell; [exact P|intros []|exact Hx].
      * intros Q. apply F in Q. specialize (Hx 0 ltac:(lia)). cbn in Hx. unfold cell in Hx. assert (E : nth_error m1 b = None) by (apply nth_error_None; lia). rewrite E in Hx. discriminate.
  - intros x x' xv Sx Sx'. destruct (C63_feedforward_is_composition m l x xv Ne Hn A Sx) as (y & m3 & l3 & E3 & A3 & L3 & P3 & (p & Np & Sp & Hp) & _).
    destruct (C63_feedforward_is_composition m2 l' x' xv) as (y' & m4 & l4 & E4 & A4 & L4 & P4 & (p' & Np' & Sp' & Hp') & _); auto.
    { intros ->. destruct l; [congruence|discriminate]. } { now rewrite EL. }
    rewrite Ep, EL, Np in Np'. injection Np' as <-. exists y, y', m3, m4, (net_out l xv). split; [exact E3|]. split; [exact E4|]. split; [congruence|].
    assert (Cp : s_size (p_out p) = out_count p).
    { destruct (nth_error l (length l - 1)) as [d|] eqn:Ed; [|unfold plans in Np; rewrite nth_error_map, Ed in Np; discriminate].
      unfold plans in Np. rewrite nth_error_map, Ed in Np. injection Np as <-. destruct A as [A _]. rewrite Forall_forall in A. destruct (A d (nth_error_In _ _ Ed)) as [Fd _].
      apply (fits_counts _ _ Fd). }
    unfold t_size. rewrite Sp, Sp', Cp. split; [exact Hp|]. rewrite <- (same_net_out l l' SP NP xv). exact Hp'.
Qed.

(** Linear and polynomial regressions: the loaded one has the same number of weights and the same weights, and so the same predictions. *)
Theorem C77_regression m r n b w : reg_at m r n b -> holds m (t_data (r_W r)) (n + 1) w ->
  exists ar, save_regression (r_W r) (r_N r) m = Ok (ar, m) /\
    forall rest m1, exists W' m2, load_regression (ar ++ rest) m1 = Ok ((W', r_N r, rest), m2) /\ preserves m1 m2 /\
      (let r' := mk_reg W' (r_N r) in
       reg_at m2 r' n (length m1) /\ t_shape W' = t_shape (r_W r) /\ holds m2 (t_data (r_W r')) (n + 1) w /\
       (forall x x' v, holds m (t_data x) n v -> holds m2 (t_data x') n v -> exists y, linreg_sample r x m = Ok (y, m) /\ linreg_sample r' x' m2 = Ok (y, m2)) /\
       (forall v, exists y, polyreg_sample r v m = Ok (y, m) /\ polyreg_sample r' v m2 = Ok (y, m2))).
Proof.
  intros R Hw. pose proof R as (EN & Es & Hn & H64 & _ & _). assert (H0 : 0 <= t_size (r_W r)) by lia.
  assert (Hw' : holds m (t_data (r_W r)) (t_size (r_W r)) w) by now rewrite Es.
  eexists. split. { unfold save_regression, bind. rewrite (save_tensor_ok m _ w H0 Hw'). reflexivity. }
  intros rest m1. rewrite <- app_assoc.
  destruct (wp_elim _ _ _ _ (wp_load_tensor (t_shape (r_W r)) w ([IWord (r_N r)] ++ rest) m1 H0)) as ([W' a] & m2 & E & ES & Ea & M). cbn [fst snd] in *. subst a.
  exists W', m2. unfold load_regression. unfold bind at 1. rewrite E. split; [reflexivity|].
  assert (Q : t_size W' = n + 1) by (unfold t_size; rewrite ES; exact Es). fold (t_size (r_W r)) in M. rewrite Es, <- Q in M.
  apply made_made_with in M as ((_ & P & Lv & Hv) & K & _). rewrite Q in Hv, Lv. split; [exact K|].
  assert (R' : reg_at m2 (mk_reg W' (r_N r)) n (length m1)). { unfold reg_at. cbn [r_N r_W]. tauto. }
  split; [exact R'|]. split; [exact ES|]. split; [exact Hv|]. split.
  - intros x x' v Hx Hx'. exists (linear_value n w v). split; [eapply linreg_sample_ok; eauto|]. exact (linreg_sample_ok m2 _ n _ w x' v R' Hv Hx').
  - intros v. exists (poly_value n w v). split; [eapply polyreg_sample_ok; eauto|]. exact (polyreg_sample_ok m2 _ n _ w v R' Hv).
Qed.

(** ** C78 *)
(** a pooling layer without memory for its value *)
Definition broken (q : tiling) (L : layer) : Prop :=
  match L with
  | LPool L => p_isize L = shape3 (q_d q) (q_h q) (q_w q) /\ p_vs L = q_vs q /\ p_hs L = q_hs q /\ t_data (p_value L) = Null
  | LXPool L => xp_isize L = shape3 (q_d q) (q_h q) (q_w q) /\ xp_vs L = q_vs q /\ xp_hs L = q_hs q /\ t_data (xp_value L) = Null
  | _ => False
  end.
Lemma strides_pos n s : 0 < n -> 0 < s -> 0 < (n * s + s - 1) / s.
Proof. intros Hn Hs. apply Z.div_str_pos. nia. Qed.
Lemma bind_ub A B (c : M T A) (f : A -> M T B) m : (forall a m', exists k, f a m' = UB k) -> exists k, bind c f m = UB k.
Proof. intros H. unfold bind. destruct (c m) as [[a m']|k]; [apply H|eauto]. Qed.
Lemma bind_ub1 A B (c : M T A) (f : A -> M T B) m : (exists k, c m = UB k) -> exists k, bind c f m = UB k.
Proof. intros [k H]. unfold bind. rewrite H. eauto. Qed.
Lemma mfor_ub1 n (body : Z -> M T unit) m : 0 < n -> (exists k, body 0 m = UB k) -> exists k, mfor 0 n body m = UB k.
Proof. intros Hn [k H]. exists k. now apply mfor_first_ub. Qed.
Lemma ten_set_null t (c i j : Z) v m : t_data t = Null -> exists k, ten_set t c i j v m = UB k.
Proof. intros E. unfold ten_set, store. rewrite E. eauto. Qed.
Lemma broken_forward q L x m : broken q L -> tiling_ok q -> 0 < q_d q -> 0 < q_oh q -> 0 < q_ow q -> exists k, l_forward L x m = UB k.
Proof.
  intros B Q Hd Hh Hw. destruct Q as (_ & _ & _ & Hv & Hs & _).
  destruct L as [L|L|L|L|L|L]; cbn [broken] in B; try contradiction; destruct B as (Ei & Ev & Eh & En); cbn [l_forward].
  - unfold pool_forward. rewrite Ei, Ev, Eh. cbn [s_depth s_height s_width shape3]. apply bind_ub. intros _ m1. apply bind_ub1. apply mfor_ub1; [exact Hd|]. unfold mstride.
    apply mfor_ub1; [unfold q_h; apply strides_pos; lia|]. apply mfor_ub1; [unfold q_w; apply strides_pos; lia|].
    apply bind_ub. intros v m2. apply bind_ub. intros r m3. apply bind_ub1. now apply ten_set_null.
  - unfold xpool_forward. rewrite Ei, Ev, Eh. cbn [s_depth s_height s_width shape3]. apply bind_ub1. apply mfor_ub1; [exact Hd|]. unfold mstride.
    apply mfor_ub1; [unfold q_h; apply strides_pos; lia|]. apply mfor_ub1; [unfold q_w; apply strides_pos; lia|].
    apply bind_ub. intros v m2. apply bind_ub. intros r m3. now apply ten_set_null.
Qed.
Lemma chain_broken (N : list layer) L : In L N -> (forall x m, exists k, l_forward L x m = UB k) -> forall x m, exists k, chain x N m = UB k.
Proof.
  intros I H. induction N as [|L' N IH]; [contradiction|]. intros x m. cbn [chain]. destruct I as [->|I].
  - apply bind_ub1. apply H. - apply bind_ub. intros _ m'. now apply IH.
Qed.
Lemma wp_load_any L p s a m : fits L p -> wp (load_layer (enc_layer L s ++ a)) m (fun r _ => snd r = a /\ forall act q, p = PPool act q -> broken q (fst r)).
Proof.
  intros F. destruct p as [act n k|g|act q].
  - eapply wp_conseq; [apply wp_load_layer; [exact F|exact Logic.I]|]. intros r m' (E & _). split; [exact E|]. discriminate.
  - eapply wp_conseq; [apply wp_load_layer; [exact F|exact Logic.I]|]. intros r m' (E & _). split; [exact E|]. discriminate.
  - destruct L as [L|L|L|L|L|L]; cbn [fits] in F; try contradiction; destruct F as ((Q & Ei & Eo & Ev & Eh & _) & _).
    + cbn [enc_layer app]. unfold load_layer. apply wp_bind. cbn [get_kind]. apply wp_ret. unfold save_pooling, load_pooling. rewrite <- !app_assoc.
      apply wp_bind, wp_bind, wp_load_shape, wp_bind, wp_load_shape. cbn [app get_word get_act]. apply wp_bind, wp_ret, wp_bind, wp_ret, wp_bind, wp_ret, wp_ret.
      rewrite Ei, Eo. unfold pool_prepare. cbn [p_isize p_osize p_delta p_mask p_buff].
      apply wp_bind, wp_bind. eapply wp_conseq; [apply wp_shape_zeros; reflexivity|]. intros t1 m1 _.
      apply wp_bind. eapply wp_conseq; [apply wp_shape_zeros; reflexivity|]. intros t2 m2 _.
      apply wp_bind. eapply wp_conseq; [apply wp_shape_zeros; reflexivity|]. intros t3 m3 _.
      apply wp_ret, wp_ret. cbn [fst snd]. split; [reflexivity|]. intros act' q' [= <- <-]. cbn. auto.
    + cbn [enc_layer app]. unfold load_layer. apply wp_bind. cbn [get_kind]. apply wp_ret. unfold save_pooling, load_pooling. rewrite <- !app_assoc.
      apply wp_bind, wp_bind, wp_load_shape, wp_bind, wp_load_shape. cbn [app get_word get_act]. apply wp_bind, wp_ret, wp_bind, wp_ret, wp_bind, wp_ret, wp_ret, wp_ret.
      cbn [fst snd]. split; [reflexivity|]. intros act' q' [= <- <-]. cbn. auto.
Qed.
(** What a max-pooling layer is: its class, its shapes, the window and the activation. *)
Definition pooling_settings (L : layer) : option (bool * shape * shape * Z * Z * option activation) :=
  match L with
  | LPool L => Some (true, p_isize L, p_osize L, p_vs L, p_hs L, p_act L)
  | LXPool L => Some (false, xp_isize L, xp_osize L, xp_vs L, xp_hs L, xp_act L)
  | _ => None
  end.
(** All of them are restored (the memory for the value is not: [C78_loaded_pooling_refuted]). *)
Theorem C77_pooling_settings (m : mem T) L act q : fits L (PPool act q) ->
  exists ar, save_layer L m = Ok (ar, m) /\
    forall rest m1, exists L' m2, load_layer (ar ++ rest) m1 = Ok ((L', rest), m2) /\
      pooling_settings L' = pooling_settings L /\
      exists b, pooling_settings L' = Some (b, shape3 (q_d q) (q_h q) (q_w q), shape3 (q_d q) (q_oh q) (q_ow q), q_vs q, q_hs q, Some act).
Proof.
  intros F. destruct L as [L|L|L|L|L|L]; cbn [fits] in F; try contradiction; destruct F as ((Q & Ei & Eo & Ev & Eh & _) & Ea & _); (eexists; split; [reflexivity|]); intros rest m1.
  - match goal with |- context [load_layer ?a m1] => set (ar := a) end.
    assert (W : wp (load_layer ar) m1 (fun r _ => snd r = rest /\ pooling_settings (fst r) = pooling_settings (LPool L))).
    { subst ar. cbn [app]. unfold load_layer. apply wp_bind. cbn [get_kind]. apply wp_ret. unfold save_pooling, load_pooling. rewrite <- !app_assoc.
      apply wp_bind, wp_bind, wp_load_shape, wp_bind, wp_load_shape. cbn [app get_word get_act]. apply wp_bind, wp_ret, wp_bind, wp_ret, wp_bind, wp_ret, wp_ret.
      unfold pool_prepare. cbn [p_isize p_osize p_delta p_mask p_buff]. rewrite Ei, Eo.
      apply wp_bind, wp_bind. eapply wp_conseq; [apply wp_shape_zeros; reflexivity|]. intros t1 m2 _.
      apply wp_bind. eapply wp_conseq; [apply wp_shape_zeros; reflexivity|]. intros t2 m3 _.
      apply wp_bind. eapply wp_conseq; [apply wp_shape_zeros; reflexivity|]. intros t3 m4 _.
      apply wp_ret, wp_ret. cbn. now rewrite Ei, Eo. }
    destruct (wp_elim _ _ _ _ W) as ([L' r] & m2 & E & H1 & H2). cbn [fst snd] in *. subst r. exists L', m2. split; [exact E|]. split; [exact H2|]. rewrite H2. cbn. rewrite Ei, Eo, Ev, Eh, Ea. eauto.
  - match goal with |- context [load_layer ?a m1] => set (ar := a) end.
    assert (W : wp (load_layer ar) m1 (fun r _ => snd r = rest /\ pooling_settings (fst r) = pooling_settings (LXPool L))).
    { subst ar. cbn [app]. unfold load_layer. apply wp_bind. cbn [get_kind]. apply wp_ret. unfold save_pooling, load_pooling. rewrite <- !app_assoc.
      apply wp_bind, wp_bind, wp_load_shape, wp_bind, wp_load_shape. cbn [app get_word get_act]. apply wp_bind, wp_ret, wp_bind, wp_ret, wp_bind, wp_ret, wp_ret, wp_ret. now split. }
    destruct (wp_elim _ _ _ _ W) as ([L' r] & m2 & E & H1 & H2). cbn [fst snd] in *. subst r. exists L', m2. split; [exact E|]. split; [exact H2|]. rewrite H2. cbn. rewrite Ei, Eo, Ev, Eh, Ea. eauto.
Qed.
Lemma wp_load_layers_any l a : forall m, Forall (fun d => fits (n_layer d) (n_plan d)) l ->
  wp (load_layers (length l) (enc_layers l ++ a)) m (fun r m' => snd r = a /\ length (fst r) = length l /\
    forall d act q, In d l -> n_plan d = PPool act q -> exists L', In L' (fst r) /\ broken q L').
Proof.
  induction l as [|d l IH]; intros m F; cbn [length load_layers enc_layers].
  - apply wp_ret. split; [reflexivity|]. split; [reflexivity|]. intros d act q [].
  - inversion F as [|? ? Fd Fl]; subst. rewrite <- app_assoc. apply wp_bind.
    eapply wp_conseq; [apply wp_load_any; exact Fd|]. intros [L1 a1] m1 (Ea & B1). cbn [fst snd] in *. subst a1.
    apply wp_bind. eapply wp_conseq; [apply IH; exact Fl|]. intros [N2 a2] m2 (Ea & El & B2). cbn [fst snd] in *. subst a2.
    apply wp_ret. cbn [fst snd]. split; [reflexivity|]. split; [cbn; lia|]. intros d' act q [<-|I] E.
    + exists L1. split; [now left|]. eapply B1; eauto.
    + destruct (B2 d' act q I E) as (L' & I' & B'). exists L'. split; [now right|exact B'].
Qed.
(** A network with a max-pooling layer, of either class, anywhere is saved and loaded without an error, and then every feedforward call,
    with any sample, in any state, has undefined behaviour: the layer writes its value through a null pointer. *)
Theorem C78_loaded_pooling_refuted m l d act q : net_at m l -> Z.of_nat (length l) < 2 ^ 64 ->
  In d l -> n_plan d = PPool act q -> 0 < q_d q -> 0 < q_oh q -> 0 < q_ow q ->
  exists ar, save_net (layers l) m = Ok (ar, m) /\
    forall rest m1, exists N' m2, load_net (ar ++ rest) m1 = Ok ((N', rest), m2) /\
      forall x m3, exists k, net_feedforward N' x m3 = UB k.
Proof.
  intros A Hn I E H1 H2 H3. eexists. split; [apply save_net_ok; exact A|]. intros rest m1. cbn [app]. unfold load_net. unfold bind at 1. cbn [get_word]. unfold ret at 1. rewrite Nat2Z.id.
  assert (F : Forall (fun d => fits (n_layer d) (n_plan d)) l). { destruct A as [A _]. eapply Forall_impl; [|exact A]. now intros d' [? _]. }
  assert (Q : tiling_ok q). { rewrite Forall_forall in F. specialize (F d I). rewrite E in F. destruct (n_layer d); cbn [fits] in F; try contradiction; apply F. }
  destruct (wp_elim _ _ _ _ (wp_load_layers_any l rest m1 F)) as ([N a] & m2 & El & Ea & Len & B). cbn [fst snd] in *. subst a. exists N, m2. split; [exact El|].
  intros x m3. destruct (B d act q I E) as (L' & I' & B'). destruct N as [|L0 N]; [contradiction|].
  rewrite (feedforward_chain (L0 :: N) L0 N x m3 eq_refl).
  - apply bind_ub1. eapply chain_broken; [exact I'|]. intros x' m'. eapply broken_forward; eauto.
  - unfold net_size. rewrite Len. exact Hn.
Qed.
End Any.

(** ** The hypotheses can be met *)
Module Examples.
Import PropNet.Examples.
Open Scope R_scope.
(** the convolution, dense, softmax network of PropNet can be saved, loaded and fed with the sample [tx] *)
Example C77_applies : exists (l : list (node R)) (m : mem R), net_at m l /\ Forall not_pooling (plans l) /\ l <> [] /\ (Z.of_nat (length l) < 2 ^ 64)%Z /\ plans l = ps /\ sample_at m l tx xv.
Proof.
  destruct (C63_every_topology_builds (T := R) ps m0) as (N & m & E & Len & Tr & A & P & F).
  { unfold ps. repeat apply Forall_cons; try apply Forall_nil; cbn [plan_ok]; [unfold geometry_ok, g0, out_h, out_w; cbn -[Z.pow]; repeat split; lia| |]; (repeat split; try lia; discriminate). }
  destruct (new_nodes_plans N ps Len) as [Ep El]. exists (new_nodes N ps), m.
  assert (Ln : length (new_nodes (T := R) N ps) = 3%nat). { rewrite <- Ep at 1. pose proof (f_equal (@length _) Ep) as Q. unfold plans in Q. rewrite map_length in Q. rewrite Ep. exact Q. }
  split; [exact A|]. split; [rewrite Ep; unfold ps; repeat constructor|]. split; [intros Q; rewrite Q in Ln; discriminate|]. split; [lia|]. split; [exact Ep|].
  destruct (sample_kept m (new_nodes N ps) 0 16 xv P F ltac:(lia) (holds_list m0 0 xs 0 eq_refl)) as [H1 H2].
  split; [|split; [exact H1|exact H2]]. rewrite Ep. cbn. auto.
Qed.
(** the same picture through a pooling with 2x2 windows *)
Definition q0 : tiling := mk_tiling 1 2 2 2 2.
Example C78_applies : exists (l : list (node R)) (m : mem R) d, net_at m l /\ (Z.of_nat (length l) < 2 ^ 64)%Z /\ In d l /\ n_plan d = PPool (Functions.Scalar ReLU) q0 /\
  (0 < q_d q0)%Z /\ (0 < q_oh q0)%Z /\ (0 < q_ow q0)%Z.
Proof.
  destruct (C63_every_topology_builds (T := R) [PPool (Functions.Scalar ReLU) q0; PDense SoftMax 4 2] m0) as (N & m & E & Len & Tr & A & P & F).
  { repeat apply Forall_cons; try apply Forall_nil; cbn [plan_ok]; [unfold tiling_ok, q0, q_h, q_w; cbn -[Z.pow]|]; repeat split; try lia; discriminate. }
  destruct (new_nodes_plans N _ Len) as [Ep El]. exists (new_nodes N [PPool (Functions.Scalar ReLU) q0; PDense SoftMax 4 2]), m.
  clear E. destruct N as [|L1 [|L2 [|]]]; try discriminate Len. eexists. split; [exact A|]. split; [cbn; lia|]. split; [left; reflexivity|]. split; [reflexivity|]. cbn. lia.
Qed.
Example C77_regression_applies : exists (m : mem R) r b, reg_at m r 3 b /\ holds m (t_data (r_W r)) 4 (fun _ => 1).
Proof.
  exists [Some [Some 1; Some 1; Some 1; Some 1]], (mk_reg (mk_tensor (Ptr 0 0) (shape3 1 1 4)) 4), 0%nat.
  split. - unfold reg_at. cbn -[Z.pow]. repeat split; try lia. exists [Some 1; Some 1; Some 1; Some 1]. split; reflexivity.
  - intros i Hi. assert (i = 0 \/ i = 1 \/ i = 2 \/ i = 3)%Z as [->|[->|[->| ->]]] by lia; reflexivity.
Qed.
End Examples.

Print Assumptions C77_save_load.
Print Assumptions C77_same_outputs.
Print Assumptions C77_regression.
Print Assumptions C77_pooling_settings.
Print Assumptions C78_loaded_pooling_refuted.

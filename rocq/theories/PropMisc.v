(** * Properties C79-C82: random numbers, work splitting, MNIST files *)
From Coq Require Import ZArith List Lia Bool Reals Lra Znumtheory.
From Verif Require Import Mem Scalar Misc.
Open Scope Z_scope.

(** ** C79 *)
(** an integral type with at least [b] >= 8 bits *)
Definition int_type (t : ity) : Prop := 8 <= i_bits t.
(** [z] is a value of the type *)
Definition of_type (t : ity) (z : Z) : Prop := i_min t <= z <= i_max t.
(** the number of values between lo and hi can be computed in the (promoted) type *)
Definition width_fits (t : ity) (lo hi : Z) : Prop := hi - lo + 1 <= i_max (promoted t).

Lemma pow_half b : 1 <= b -> 2 ^ b = 2 * 2 ^ (b - 1).
Proof. intros. replace b with (b - 1 + 1) at 1 by lia. rewrite Z.pow_add_r by lia. lia. Qed.
Lemma i_range t : int_type t -> 2 ^ i_bits t = 2 * 2 ^ (i_bits t - 1) /\ 1 <= 2 ^ (i_bits t - 1).
Proof. unfold int_type. intros H. split; [apply pow_half; lia|]. assert (0 < 2 ^ (i_bits t - 1)) by (apply Z.pow_pos_nonneg; lia). lia. Qed.
Lemma i_cast_id t z : int_type t -> of_type t z -> i_cast t z = z.
Proof.
  intros Ht [H1 H2]. destruct (i_range t Ht) as [E P]. unfold i_cast, i_min, i_max in *. destruct (i_signed t); cbn [andb].
  - destruct (Z.leb_spec 0 z).
    + rewrite Z.mod_small by lia. destruct (Z.leb_spec (2 ^ (i_bits t - 1)) z); lia.
    + replace (z mod 2 ^ i_bits t) with (z + 2 ^ i_bits t).
      * destruct (Z.leb_spec (2 ^ (i_bits t - 1)) (z + 2 ^ i_bits t)); lia.
      * rewrite <- (Z.mod_small (z + 2 ^ i_bits t) (2 ^ i_bits t)) by lia. rewrite <- (Z.mul_1_l (2 ^ i_bits t)) at 1. apply Z.mod_add. lia.
  - rewrite Z.mod_small by lia. reflexivity.
Qed.
Lemma int_type_promoted t : int_type t -> int_type (promoted t).
Proof. unfold promoted, int_type. destruct (_ <? 32); cbn; lia. Qed.
Lemma promoted_range t : int_type t -> i_min (promoted t) <= i_min t /\ i_max t <= i_max (promoted t).
Proof.
  intros H. unfold promoted. destruct (Z.ltb_spec (i_bits t) 32) as [L|]; [|lia]. pose proof (i_range t H) as [E P].
  assert (2 ^ (i_bits t) <= 2 ^ 31) by (apply Z.pow_le_mono_r; lia). unfold i_min, i_max, c_int. cbn [i_signed i_bits].
  change (2 ^ (32 - 1)) with (2 ^ 31). destruct (i_signed t); lia.
Qed.
Lemma arith_ok t z : int_type t -> of_type t z -> arith t z = Ok z.
Proof.
  intros Ht [H1 H2]. unfold arith. destruct (i_signed t) eqn:S.
  - now rewrite (proj2 (Z.leb_le _ _) H1), (proj2 (Z.leb_le _ _) H2).
  - unfold i_min, i_max in *. rewrite S in *. rewrite Z.mod_small by lia. reflexivity.
Qed.
Lemma range_value t g lo hi : int_type t -> of_type t lo -> of_type t hi -> lo <= hi -> width_fits t lo hi -> 0 <= i_cast t g ->
  random_integral_range t g lo hi = Ok (lo + i_cast t g mod (hi - lo + 1)).
Proof.
  intros Ht Hlo Hhi Hle Hw Hg. unfold random_integral_range, random_integral. set (p := promoted t). set (z := i_cast t g) in *.
  pose proof (int_type_promoted t Ht) as Hp. pose proof (promoted_range t Ht) as [Pl Ph]. fold p in Hp, Pl, Ph. unfold width_fits in Hw. fold p in Hw.
  unfold of_type in *. assert (i_min p <= 0) by (unfold i_min; destruct (i_signed p); [|lia]; pose proof (i_range p Hp); lia).
  assert (Hm : 0 <= z mod (hi - lo + 1) < hi - lo + 1) by (apply Z.mod_pos_bound; lia).
  rewrite (arith_ok p (hi - lo)) by (auto; unfold of_type; lia). cbn [rbind].
  rewrite (arith_ok p (hi - lo + 1)) by (auto; unfold of_type; lia). cbn [rbind].
  rewrite (proj2 (Z.eqb_neq _ _)) by lia. rewrite Z.rem_mod_nonneg by lia.
  rewrite (arith_ok p) by (auto; unfold of_type; lia). cbn [rbind].
  rewrite (arith_ok p) by (auto; unfold of_type; lia). cbn [rbind].
  rewrite i_cast_id by (auto; unfold of_type; lia). now rewrite Z.add_comm.
Qed.
(** With the default generator, for every integral type of at least 32 bits... *)
Theorem C79_in_range t g lo hi : int_type t -> of_type t rand_max -> of_type t lo -> of_type t hi -> lo <= hi -> width_fits t lo hi ->
  0 <= g <= rand_max ->
  exists v, random_integral_range t g lo hi = Ok v /\ lo <= v <= hi.
Proof.
  intros Ht [_ Hr] Hlo Hhi Hle Hw Hg. assert (i_min t <= 0) by (unfold i_min; destruct (i_signed t); [|lia]; pose proof (i_range t Ht); lia).
  assert (E : i_cast t g = g) by (apply i_cast_id; auto; unfold of_type; lia).
  rewrite range_value by (auto; rewrite E; lia). rewrite E. eexists. split; [reflexivity|].
  pose proof (Z.mod_pos_bound g (hi - lo + 1)). lia.
Qed.
(** RAND_MAX fits in every integral type of at least 32 bits *)
Theorem C79_rand_max_fits t : int_type t -> 32 <= i_bits t -> of_type t rand_max.
Proof.
  intros Ht B. destruct (i_range t Ht) as [_ P]. unfold of_type, i_min, i_max, rand_max.
  assert (2 ^ 32 <= 2 ^ i_bits t) by (apply Z.pow_le_mono_r; lia). assert (2 ^ 31 <= 2 ^ (i_bits t - 1)) by (apply Z.pow_le_mono_r; lia).
  destruct (i_signed t); lia.
Qed.
(** ... and every value of the range is returned for some output of the generator, if the generator has
    that many outputs. *)
Theorem C79_every_value t lo hi v : int_type t -> of_type t rand_max -> of_type t lo -> of_type t hi -> width_fits t lo hi ->
  hi - lo <= rand_max -> lo <= v <= hi ->
  exists g, 0 <= g <= rand_max /\ random_integral_range t g lo hi = Ok v.
Proof.
  intros Ht [_ Hr] Hlo Hhi Hw Hn Hv. exists (v - lo). assert (i_min t <= 0) by (unfold i_min; destruct (i_signed t); [|lia]; pose proof (i_range t Ht); lia).
  assert (E : i_cast t (v - lo) = v - lo) by (apply i_cast_id; auto; unfold of_type; lia).
  split; [lia|]. rewrite range_value by (auto; try lia; rewrite E; lia). rewrite E, Z.mod_small by lia. f_equal. lia.
Qed.

(** ** C86: other generators.  The template accepts any callable generator, e.g. std::mt19937, whose
    outputs do not fit into [T]: [static_cast<T>] then gives negative numbers, and so does [%]. *)
Theorem C86_signed_refuted t lo hi : int_type t -> i_signed t = true -> of_type t lo -> of_type t hi -> lo < hi -> width_fits t lo hi ->
  i_min (promoted t) < lo -> of_type t (lo - 1) ->
  exists g, 0 <= g < 2 ^ i_bits t /\ exists v, random_integral_range t g lo hi = Ok v /\ ~ lo <= v <= hi.
Proof.
  intros Ht Hs Hlo Hhi Hlt Hw Hmin Hpred. exists (2 ^ i_bits t - 1). pose proof (i_range t Ht) as [E P]. split; [lia|].
  assert (C : i_cast t (2 ^ i_bits t - 1) = -1).
  { unfold i_cast. rewrite Z.mod_small by lia. rewrite Hs. cbn [andb]. destruct (Z.leb_spec (2 ^ (i_bits t - 1)) (2 ^ i_bits t - 1)); lia. }
  exists (lo - 1). split; [|lia]. unfold random_integral_range, random_integral. rewrite C. set (p := promoted t).
  pose proof (int_type_promoted t Ht) as Hp. pose proof (promoted_range t Ht) as [Pl Ph]. fold p in Hp, Pl, Ph. unfold width_fits in Hw. fold p in Hw.
  unfold of_type in *. assert (i_min p <= -1) by (unfold p, promoted, i_min; destruct (_ <? 32); cbn; [lia|rewrite Hs; lia]).
  rewrite (arith_ok p (hi - lo)) by (auto; unfold of_type; lia). cbn [rbind].
  rewrite (arith_ok p (hi - lo + 1)) by (auto; unfold of_type; lia). cbn [rbind].
  rewrite (proj2 (Z.eqb_neq _ _)) by lia.
  assert (R : Z.rem (-1) (hi - lo + 1) = -1). { change (-1) with (- (1)) at 1. rewrite Z.rem_opp_l by lia. rewrite Z.rem_small by lia. reflexivity. }
  rewrite R. fold p in Hmin. rewrite (arith_ok p) by (auto; unfold of_type; lia). cbn [rbind].
  rewrite (arith_ok p) by (auto; unfold of_type; lia). cbn [rbind].
  rewrite i_cast_id by (auto; unfold of_type; lia). f_equal. lia.
Qed.
(** For unsigned types, and whenever the converted output is not negative, the result is in the range for
    every generator; asking for all values of a 64-bit unsigned type divides by zero. *)
Theorem C86_nonnegative_outputs_partial t g lo hi : int_type t -> of_type t lo -> of_type t hi -> lo <= hi -> width_fits t lo hi ->
  (i_signed t = false \/ 0 <= i_cast t g) ->
  exists v, random_integral_range t g lo hi = Ok v /\ lo <= v <= hi.
Proof.
  intros Ht Hlo Hhi Hle Hw Hs. assert (Hg : 0 <= i_cast t g).
  { destruct Hs as [Hs|]; [|assumption]. unfold i_cast. rewrite Hs. cbn [andb]. apply Z.mod_pos_bound. pose proof (i_range t Ht); lia. }
  rewrite range_value by auto. eexists. split; [reflexivity|]. pose proof (Z.mod_pos_bound (i_cast t g) (hi - lo + 1)). lia.
Qed.
Theorem C86_full_unsigned_range_refuted t g : int_type t -> 32 <= i_bits t -> i_signed t = false ->
  exists e, random_integral_range t g (i_min t) (i_max t) = UB e.
Proof.
  intros Ht Hb Hs. exists BadCall. unfold random_integral_range, promoted. rewrite (proj2 (Z.ltb_ge _ _)) by lia. unfold i_min, i_max, arith. rewrite Hs. cbn [rbind].
  pose proof (i_range t Ht) as [E P]. rewrite (Z.mod_small (2 ^ i_bits t - 1 - 0)) by lia.
  replace (2 ^ i_bits t - 1 - 0 + 1) with (1 * 2 ^ i_bits t) by lia. rewrite Z.mod_mul by lia. reflexivity.
Qed.

(** ** C80 *)
Section Real.
Local Open Scope R_scope.
Theorem C80_unit_interval (g gmax : Z) : (0 <= g <= gmax)%Z -> (0 < gmax)%Z -> 0 <= random_floating (T := R) g gmax <= 1.
Proof.
  intros Hg Hm. unfold random_floating. cbn [div ofZ Num_R]. assert (0 <= IZR g <= IZR gmax) by (split; apply IZR_le; lia).
  assert (0 < IZR gmax) by (apply IZR_lt; lia). split; [apply Rmult_le_pos; [lra|left; now apply Rinv_0_lt_compat]|].
  apply Rmult_le_reg_r with (IZR gmax); [lra|]. unfold Rdiv. rewrite Rmult_assoc, Rinv_l by lra. lra.
Qed.
Theorem C80_in_range (g gmax : Z) (lo hi : R) : (0 <= g <= gmax)%Z -> (0 < gmax)%Z -> lo <= hi ->
  lo <= random_floating_range g gmax lo hi <= hi.
Proof.
  intros Hg Hm Hle. pose proof (C80_unit_interval g gmax Hg Hm) as [H0 H1]. unfold random_floating_range. cbn [add mul sub Num_R].
  set (u := random_floating g gmax) in *. assert (0 <= (hi - lo) * u) by (apply Rmult_le_pos; lra).
  assert ((hi - lo) * u <= (hi - lo) * 1) by (apply Rmult_le_compat_l; lra). lra.
Qed.
(** both ends are reached *)
Theorem C80_ends (gmax : Z) (lo hi : R) : (0 < gmax)%Z ->
  random_floating_range 0 gmax lo hi = lo /\ random_floating_range gmax gmax lo hi = hi.
Proof.
  intros Hm. unfold random_floating_range, random_floating. cbn [add mul sub div ofZ Num_R]. assert (0 < IZR gmax) by (apply IZR_lt; lia).
  split; field; lra.
Qed.
End Real.

(** ** C81 *)
Theorem C81_split min hw size : 0 < min -> 0 <= hw -> 0 <= size < 2 ^ 64 ->
  let (t, block) := parallel_info min hw size in
  1 <= t /\ 0 <= block /\ t * block <= size < t * block + t /\
  (0 < size -> (t - 1) * min < size /\ (0 < hw -> t <= hw) /\ (hw = 0 -> t <= 2) /\ 1 <= block).
Proof.
  intros Hm Hh Hs. unfold parallel_info. destruct (Z.eqb_spec size 0) as [->|N]; [lia|].
  assert (Hd : 0 <= (size - 1) / min) by (apply Z.div_pos; lia). pose proof (Z.mul_div_le (size - 1) min Hm).
  assert ((size - 1) / min <= size - 1) by (apply Z.div_le_upper_bound; nia).
  assert (E : u64 ((size - 1) / min + 1) = (size - 1) / min + 1) by (unfold u64, two64; apply Z.mod_small; lia). rewrite E. clear E.
  set (mt := (size - 1) / min + 1) in *. set (h := if hw =? 0 then 2 else hw). assert (Hh1 : 1 <= h /\ (0 < hw -> h = hw) /\ (hw = 0 -> h = 2)) by (unfold h; destruct (Z.eqb_spec hw 0); lia).
  set (t := Z.min h mt). assert (Ht : 1 <= t /\ t <= h /\ t <= mt) by (unfold t, mt; lia).
  pose proof (Z.mul_div_le size t ltac:(lia)). pose proof (Z.mul_succ_div_gt size t ltac:(lia)).
  assert (1 <= size / t) by (apply Z.div_le_lower_bound; unfold mt in *; lia).
  repeat split; try lia. unfold mt in *. nia.
Qed.

(** ** C82 *)
Definition bytes (l : list Z) : Prop := Forall (fun b => 0 <= b < 256) l.
(** the 32-bit big-endian number in the four bytes at 4*p *)
Definition big_endian (l : list Z) (p : Z) : Z :=
  let b i := nth (Z.to_nat (4 * p + i)) l 0 in 256 ^ 3 * b 0 + 256 ^ 2 * b 1 + 256 * b 2 + b 3.
Lemma byte_at_ok l i : 0 <= i < Z.of_nat (length l) -> byte_at l i = Ok (nth (Z.to_nat i) l 0).
Proof.
  intros H. unfold byte_at, znth. rewrite (proj2 (Z.leb_le _ _)) by lia. rewrite (nth_error_nth' l 0) by lia. reflexivity.
Qed.
Lemma byte_nth l i : bytes l -> 0 <= nth i l 0 < 256.
Proof. intros H. destruct (Nat.lt_ge_cases i (length l)); [|rewrite nth_overflow by lia; lia]. apply (proj1 (Forall_forall _ _) H). now apply nth_In. Qed.
(** disjoint bit fields *)
Lemma lor_add a b k : 0 <= k -> 0 <= b < 2 ^ k -> Z.lor (a * 2 ^ k) b = a * 2 ^ k + b.
Proof.
  intros Hk Hb. symmetry. assert (Z0 : Z.land (a * 2 ^ k) b = 0).
  { apply Z.bits_inj'. intros n Hn. rewrite Z.land_spec, Z.bits_0, Z.mul_pow2_bits by lia.
    destruct (Z.ltb_spec n k). - rewrite Z.testbit_neg_r by lia. reflexivity.
    - replace (Z.testbit b n) with false; [apply andb_false_r|]. symmetry. destruct (Z.eq_dec b 0) as [->|]; [apply Z.bits_0|].
      apply Z.bits_above_log2; [lia|]. apply Z.log2_lt_pow2; [lia|]. eapply Z.lt_le_trans; [apply Hb|]. apply Z.pow_le_mono_r; lia. }
  rewrite Z.add_nocarry_lxor by exact Z0. rewrite Z.lxor_lor by exact Z0. reflexivity.
Qed.
Lemma land_mask a k w : 0 <= k -> 0 <= w -> Z.land a (Z.ones w * 2 ^ k) = (a / 2 ^ k) mod 2 ^ w * 2 ^ k.
Proof.
  intros Hk Hw. rewrite <- Z.land_ones by lia. rewrite <- Z.shiftr_div_pow2, <- !Z.shiftl_mul_pow2 by lia. rewrite Z.shiftl_land.
  apply Z.bits_inj'. intros n Hn. rewrite !Z.land_spec. destruct (Z.ltb_spec n k).
  - rewrite (Z.shiftl_spec_low (Z.ones w)) by lia. now rewrite !andb_false_r.
  - f_equal. rewrite Z.shiftl_spec, Z.shiftr_spec by lia. f_equal. lia.
Qed.
Theorem C82_header_value l p : bytes l -> 0 <= p -> 4 * p + 4 <= Z.of_nat (length l) -> read_header l p = Ok (big_endian l p).
Proof.
  intros Hl Hp Hn. unfold read_header, load32. rewrite !byte_at_ok by lia. cbn [rbind]. f_equal. unfold big_endian. rewrite Z.add_0_r.
  pose proof (byte_nth l (Z.to_nat (4 * p)) Hl) as H0. pose proof (byte_nth l (Z.to_nat (4 * p + 1)) Hl) as H1.
  pose proof (byte_nth l (Z.to_nat (4 * p + 2)) Hl) as H2. pose proof (byte_nth l (Z.to_nat (4 * p + 3)) Hl) as H3.
  set (b0 := nth (Z.to_nat (4 * p)) l 0) in *. set (b1 := nth (Z.to_nat (4 * p + 1)) l 0) in *.
  set (b2 := nth (Z.to_nat (4 * p + 2)) l 0) in *. set (b3 := nth (Z.to_nat (4 * p + 3)) l 0) in *. clearbody b0 b1 b2 b3. clear Hl Hn Hp.
  unfold u32. change 16711680 with (Z.ones 8 * 2 ^ 16). change 65280 with (Z.ones 8 * 2 ^ 8). rewrite !land_mask by lia.
  rewrite !Z.shiftl_mul_pow2, !Z.shiftr_div_pow2 by lia. change (256 ^ 3) with 16777216. change (256 ^ 2) with 65536.
  change (2 ^ 24) with 16777216. change (2 ^ 16) with 65536. change (2 ^ 8) with 256. change (2 ^ 32) with 4294967296.
  set (v := b0 + 256 * b1 + 65536 * b2 + 16777216 * b3).
  assert (E0 : (v * 16777216) mod 4294967296 = b0 * 16777216). { symmetry. apply Z.mod_unique_pos with (q := b1 + 256 * b2 + 65536 * b3); unfold v; lia. }
  assert (E1 : (v * 256) mod 4294967296 / 65536 mod 256 = b1).
  { replace ((v * 256) mod 4294967296) with (b0 * 256 + b1 * 65536 + b2 * 16777216) by (apply Z.mod_unique_pos with (q := b3); unfold v; lia).
    replace ((b0 * 256 + b1 * 65536 + b2 * 16777216) / 65536) with (b1 + b2 * 256) by (apply Z.div_unique_pos with (r := b0 * 256); lia).
    symmetry. apply Z.mod_unique_pos with (q := b2); lia. }
  assert (E2 : v / 256 / 256 mod 256 = b2).
  { rewrite Z.div_div by lia. change (256 * 256) with 65536. replace (v / 65536) with (b2 + b3 * 256) by (apply Z.div_unique_pos with (r := b0 + 256 * b1); unfold v; lia).
    symmetry. apply Z.mod_unique_pos with (q := b3); lia. }
  assert (E3 : v / 16777216 = b3) by (symmetry; apply Z.div_unique_pos with (r := b0 + 256 * b1 + 65536 * b2); unfold v; lia).
  rewrite E0, E1, E2, E3.
  pose proof (lor_add b0 (b1 * 65536) 24 ltac:(lia)) as L1. change (2 ^ 24) with 16777216 in L1. rewrite L1 by lia.
  replace (b0 * 16777216 + b1 * 65536) with ((b0 * 256 + b1) * 65536) by lia.
  pose proof (lor_add (b0 * 256 + b1) (b2 * 256) 16 ltac:(lia)) as L2. change (2 ^ 16) with 65536 in L2. rewrite L2 by lia.
  replace ((b0 * 256 + b1) * 65536 + b2 * 256) with ((b0 * 65536 + b1 * 256 + b2) * 256) by lia.
  pose proof (lor_add (b0 * 65536 + b1 * 256 + b2) b3 8 ltac:(lia)) as L3. change (2 ^ 8) with 256 in L3. rewrite L3 by lia. lia.
Qed.
(** An image file with a complete header and [count * rows * columns + 16 < 2^32] is accepted if and only
    if its magic number is right and it holds that many bytes. *)
Lemma big_endian_range l p : bytes l -> 0 <= big_endian l p < 2 ^ 32.
Proof.
  intros H. unfold big_endian. cbv zeta. pose proof (byte_nth l (Z.to_nat (4 * p + 0)) H). pose proof (byte_nth l (Z.to_nat (4 * p + 1)) H).
  pose proof (byte_nth l (Z.to_nat (4 * p + 2)) H). pose proof (byte_nth l (Z.to_nat (4 * p + 3)) H). change (2 ^ 32) with 4294967296.
  change (256 ^ 3) with 16777216. change (256 ^ 2) with 65536. lia.
Qed.
Lemma u32_small z : 0 <= z < 2 ^ 32 -> u32 z = z.
Proof. apply Z.mod_small. Qed.
Lemma u32_mul3 a b c : u32 (u32 (u32 (a * b) * c) + 16) = u32 (a * b * c + 16).
Proof. unfold u32. rewrite Zplus_mod_idemp_l, <- (Zplus_mod_idemp_l (a * b * c)), <- (Zmult_mod_idemp_l (a * b)), Zplus_mod_idemp_l. reflexivity. Qed.
Theorem C82_accepted_large_enough_partial l : bytes l -> 16 <= Z.of_nat (length l) ->
  big_endian l 1 * big_endian l 2 * big_endian l 3 + 16 < 2 ^ 32 ->
  read_mnist_file l 2051 = Ok (if (big_endian l 0 =? 2051) && (big_endian l 1 * big_endian l 2 * big_endian l 3 + 16 <=? Z.of_nat (length l)) then Some l else None).
Proof.
  intros Hl Hn Hs. unfold read_mnist_file. rewrite C82_header_value by (auto; lia). cbn [rbind]. destruct (Z.eqb_spec (big_endian l 0) 2051) as [E|]; cbn [negb andb]; [|reflexivity].
  rewrite !C82_header_value by (auto; lia). cbn [rbind].
  pose proof (big_endian_range l 1 Hl). pose proof (big_endian_range l 2 Hl). pose proof (big_endian_range l 3 Hl).
  rewrite u32_mul3, u32_small by (split; [|exact Hs]; apply Z.add_nonneg_nonneg; [repeat apply Z.mul_nonneg_nonneg; lia|lia]).
  rewrite Z.leb_antisym. destruct (_ <? _); reflexivity.
Qed.
(** Then the images are the announced ones and nothing outside the file is read. *)
Definition slice (l : list Z) (from len : Z) : list Z := map (fun j => nth (Z.to_nat (from + Z.of_nat j)) l 0) (seq 0 (Z.to_nat len)).
Lemma read_bytes_ok l : forall n from, 0 <= from -> from + Z.of_nat n <= Z.of_nat (length l) -> read_bytes l from n = Ok (slice l from (Z.of_nat n)).
Proof.
  induction n as [|n IH]; intros from H0 H1; [reflexivity|]. cbn [read_bytes]. rewrite byte_at_ok by lia. cbn [rbind]. rewrite IH by lia. cbn [rbind].
  unfold slice. rewrite !Nat2Z.id. cbn [seq map]. f_equal. f_equal; [f_equal; lia|]. rewrite <- seq_shift, map_map. apply map_ext. intros. f_equal. lia.
Qed.
Lemma read_rows_ok l len : 0 <= len -> forall n from, 0 <= from -> from + Z.of_nat n * len <= Z.of_nat (length l) ->
  read_rows l from len n = Ok (map (fun k => slice l (from + Z.of_nat k * len) len) (seq 0 n)).
Proof.
  intros Hlen. induction n as [|n IH]; intros from H0 H1; [reflexivity|]. cbn [read_rows]. rewrite Nat2Z.inj_succ in H1.
  assert (0 <= Z.of_nat n * len) by (apply Z.mul_nonneg_nonneg; lia). rewrite read_bytes_ok by lia. cbn [rbind]. rewrite Z2Nat.id by lia. rewrite IH by lia. cbn [rbind seq map].
  f_equal. f_equal; [f_equal; lia|]. rewrite <- seq_shift, map_map. apply map_ext. intros. f_equal. lia.
Qed.
Theorem C82_images_partial l limit : bytes l -> 16 <= Z.of_nat (length l) -> 0 <= limit < 2 ^ 32 -> big_endian l 0 = 2051 ->
  big_endian l 1 * big_endian l 2 * big_endian l 3 + 16 < 2 ^ 32 ->
  big_endian l 1 * big_endian l 2 * big_endian l 3 + 16 <= Z.of_nat (length l) ->
  read_mnist_image_file l limit = Ok (
    let len := big_endian l 2 * big_endian l 3 in
    map (fun k => slice l (16 + Z.of_nat k * len) len) (seq 0 (Z.to_nat (if limit =? 0 then big_endian l 1 else Z.min limit (big_endian l 1))))).
Proof.
  intros Hl Hn Hlim E Hs Hb. unfold read_mnist_image_file. rewrite C82_accepted_large_enough_partial by auto. rewrite E. change (2051 =? 2051) with true. cbn [andb].
  rewrite (proj2 (Z.leb_le _ _)) by lia. cbn [rbind]. rewrite !C82_header_value by (auto; lia). cbn [rbind]. cbv zeta.
  pose proof (big_endian_range l 1 Hl). pose proof (big_endian_range l 2 Hl). pose proof (big_endian_range l 3 Hl).
  set (count := big_endian l 1) in *. set (r := big_endian l 2) in *. set (c := big_endian l 3) in *.
  assert (Ec : (if (0 <? limit) && (limit <? count) then u32 limit else count) = if limit =? 0 then count else Z.min limit count).
  { rewrite u32_small by lia. destruct (Z.ltb_spec 0 limit), (Z.ltb_spec limit count), (Z.eqb_spec limit 0); cbn [andb]; lia. }
  rewrite Ec. set (k := if limit =? 0 then count else Z.min limit count). assert (Hk : 0 <= k <= count) by (unfold k; destruct (_ =? _); lia).
  assert (0 <= r * c) by (apply Z.mul_nonneg_nonneg; lia).
  destruct (Z.eq_dec count 0) as [E0|]; [replace (Z.to_nat k) with O by lia; reflexivity|].
  assert (r * c * 1 <= r * c * count) by (apply Z.mul_le_mono_nonneg_l; lia). assert (k * (r * c) <= count * (r * c)) by (apply Z.mul_le_mono_nonneg_r; lia).
  rewrite u32_small by lia. apply read_rows_ok; lia.
Qed.
Theorem C82_labels_partial l limit : bytes l -> 8 <= Z.of_nat (length l) -> 0 <= limit < 2 ^ 32 -> big_endian l 0 = 2049 ->
  big_endian l 1 + 8 < 2 ^ 32 -> big_endian l 1 + 8 <= Z.of_nat (length l) ->
  read_mnist_label_file l limit = Ok (slice l 8 (if limit =? 0 then big_endian l 1 else Z.min limit (big_endian l 1))).
Proof.
  intros Hl Hn Hlim E Hs Hb. unfold read_mnist_label_file, read_mnist_file. rewrite !C82_header_value by (auto; lia). cbn [rbind]. rewrite E. change (2049 =? 2049) with true. cbn [negb].
  cbv iota. change (2049 =? 2051) with false. cbv iota. pose proof (big_endian_range l 1 Hl). rewrite u32_small by lia.
  rewrite (proj2 (Z.ltb_ge _ _)) by lia. cbn [rbind]. rewrite !C82_header_value by (auto; lia). cbn [rbind]. cbv zeta.
  set (count := big_endian l 1) in *.
  assert (Ec : (if (0 <? limit) && (limit <? count) then u32 limit else count) = if limit =? 0 then count else Z.min limit count).
  { rewrite u32_small by lia. destruct (Z.ltb_spec 0 limit), (Z.ltb_spec limit count), (Z.eqb_spec limit 0); cbn [andb]; lia. }
  rewrite Ec. set (k := if limit =? 0 then count else Z.min limit count). assert (Hk : 0 <= k <= count) by (unfold k; destruct (_ =? _); lia).
  rewrite read_bytes_ok by lia. now rewrite Z2Nat.id by lia.
Qed.
(** Without the bound it is false: a 16-byte file announcing 2^16 images of 2^16 x 1 pixels is accepted ... *)
Definition bomb : list Z := [0; 0; 8; 3; 0; 1; 0; 0; 0; 1; 0; 0; 0; 0; 0; 1].
Theorem C82_accepted_large_enough_refuted :
  bytes bomb /\ read_mnist_file bomb 2051 = Ok (Some bomb) /\
  big_endian bomb 1 * big_endian bomb 2 * big_endian bomb 3 = 2 ^ 32 /\ length bomb = 16%nat /\
  forall limit, 0 <= limit < 2 ^ 64 -> exists e, read_mnist_image_file bomb limit = UB e.
Proof.
  split; [repeat constructor; lia|]. split; [reflexivity|]. split; [reflexivity|]. split; [reflexivity|]. intros limit Hl. exists OutOfBounds. unfold read_mnist_image_file. change (read_mnist_file bomb 2051) with (Ok (Some bomb)). cbn [rbind].
  change (read_header bomb 1) with (Ok 65536). change (read_header bomb 2) with (Ok 65536). change (read_header bomb 3) with (Ok 1). cbn [rbind]. cbv zeta.
  change (u32 (65536 * 1)) with 65536. set (count := if (0 <? limit) && (limit <? 65536) then u32 limit else 65536).
  assert (Hc : 0 < count). { unfold count. destruct (Z.ltb_spec 0 limit), (Z.ltb_spec limit 65536); cbn [andb]; try lia. rewrite u32_small; lia. }
  replace (Z.to_nat count) with (S (Z.to_nat (count - 1))) by lia. cbn [read_rows]. replace (Z.to_nat 65536) with (S (Z.to_nat 65535)) by lia. reflexivity.
Qed.
(** ... and a file of fewer than 4 bytes is read out of bounds. *)
Theorem C82_short_file_refuted l key : (length l < 4)%nat -> exists e, read_mnist_file l key = UB e.
Proof.
  intros H. exists OutOfBounds. unfold read_mnist_file. destruct l as [|a [|b [|c [|d l]]]]; try reflexivity. cbn in H. lia.
Qed.

Module Examples.
(** long long, RAND_MAX = 2^31-1, a die *)
Example die : (exists v, random_integral_range c_long_long 2147483647 1 6 = Ok v /\ 1 <= v <= 6) /\ random_integral_range c_long_long 2147483647 1 6 = Ok 2.
Proof. split; [apply C79_in_range; try (unfold int_type, of_type, width_fits; cbn; lia)|reflexivity]. Qed.
Example negative_range : random_integral_range c_int 14 (-3) 3 = Ok (-3).
Proof. reflexivity. Qed.
(** std::mt19937 with T = int: output 2^32-1 *)
Example mt19937 : random_integral_range c_int (2 ^ 32 - 1) 0 9 = Ok (-1).
Proof. reflexivity. Qed.
Example split_100 : parallel_info 25 0 100 = (2, 50) /\ parallel_info 25 8 101 = (5, 20) /\ parallel_info 25 8 0 = (1, 0).
Proof. repeat split. Qed.
Definition two_images : list Z := [0; 0; 8; 3; 0; 0; 0; 2; 0; 0; 0; 1; 0; 0; 0; 3; 10; 11; 12; 20; 21; 22].
Example images : read_mnist_image_file two_images 0 = Ok [[10; 11; 12]; [20; 21; 22]] /\ read_mnist_image_file two_images 1 = Ok [[10; 11; 12]].
Proof.
  assert (B : bytes two_images) by (repeat constructor; lia).
  split; (rewrite C82_images_partial; [reflexivity|exact B|vm_compute; discriminate|lia|reflexivity|reflexivity|vm_compute; discriminate]).
Qed.
Example labels : read_mnist_label_file [0; 0; 8; 1; 0; 0; 0; 3; 7; 2; 1] 0 = Ok [7; 2; 1].
Proof. rewrite C82_labels_partial; [reflexivity|repeat constructor; lia|vm_compute; discriminate|lia|reflexivity|reflexivity|vm_compute; discriminate]. Qed.
End Examples.

Print Assumptions C79_in_range.
Print Assumptions C79_every_value.
Print Assumptions C86_signed_refuted.
Print Assumptions C86_nonnegative_outputs_partial.
Print Assumptions C86_full_unsigned_range_refuted.
Print Assumptions C80_in_range.
Print Assumptions C80_ends.
Print Assumptions C81_split.
Print Assumptions C82_header_value.
Print Assumptions C82_accepted_large_enough_partial.
Print Assumptions C82_images_partial.
Print Assumptions C82_labels_partial.
Print Assumptions C82_accepted_large_enough_refuted.
Print Assumptions C82_short_file_refuted.
Print Assumptions C79_rand_max_fits.

(** Lemmas about words, bytes and bit masks. *)
From Verif Require Export Base.

Ltac Zify.zify_post_hook ::= Z.div_mod_to_equations.

Lemma W64_val : W64 = 18446744073709551616.
Proof. reflexivity. Qed.

Lemma u64_id x : 0 <= x < W64 -> u64 x = x.
Proof. intros H. unfold u64. apply Z.mod_small. exact H. Qed.

Lemma u64_range x : 0 <= u64 x < W64.
Proof. unfold u64. apply Z.mod_pos_bound. reflexivity. Qed.

(** ** little-endian bytes *)
Lemma le_bytes_length n v : length (le_bytes n v) = n.
Proof. revert v; induction n as [|n IH]; intros v; cbn; [reflexivity|rewrite IH; reflexivity]. Qed.

Lemma le_bytes_range n v b : In b (le_bytes n v) -> 0 <= b < 256.
Proof.
  revert v; induction n as [|n IH]; intros v; cbn; [tauto|].
  intros [E|H]; [subst b; apply Z.mod_pos_bound; lia|]. exact (IH _ H).
Qed.

Lemma le_val_bytes n v : 0 <= v < 256 ^ Z.of_nat n -> le_val (le_bytes n v) = v.
Proof.
  revert v; induction n as [|n IH]; intros v Hv.
  - cbn in *. lia.
  - cbn [le_bytes le_val].
    rewrite Nat2Z.inj_succ, Z.pow_succ_r in Hv by lia.
    rewrite IH.
    + pose proof (Z.div_mod v 256). lia.
    + split; [apply Z.div_pos; lia|]. apply Z.div_lt_upper_bound; lia.
Qed.

Lemma le_bytes_val l :
  (forall b, In b l -> 0 <= b < 256) -> le_bytes (length l) (le_val l) = l.
Proof.
  induction l as [|b l IH]; intros H; [reflexivity|].
  cbn [length le_bytes le_val].
  assert (Hb : 0 <= b < 256) by (apply H; left; reflexivity).
  replace ((b + 256 * le_val l) mod 256) with b by lia.
  replace ((b + 256 * le_val l) / 256) with (le_val l) by lia.
  rewrite IH; [reflexivity|]. intros x Hx. apply H. right; exact Hx.
Qed.

Lemma le_val_range l :
  (forall b, In b l -> 0 <= b < 256) -> 0 <= le_val l < 256 ^ Z.of_nat (length l).
Proof.
  induction l as [|b l IH]; intros H; [cbn; lia|].
  cbn [length le_val]. rewrite Nat2Z.inj_succ, Z.pow_succ_r by lia.
  assert (Hb : 0 <= b < 256) by (apply H; left; reflexivity).
  assert (IH' := IH (fun x Hx => H x (or_intror Hx))).
  lia.
Qed.

(** ** words *)
Lemma wr_in m a v k :
  0 <= k < 8 -> wr m a v (a + k) = nth (Z.to_nat k) (le_bytes 8 v) 0.
Proof.
  intros H. unfold wr.
  replace ((a <=? a + k) && (a + k <? a + 8)) with true by lia.
  replace (a + k - a) with k by lia. reflexivity.
Qed.

Lemma wr_out m a v x : x < a \/ a + 8 <= x -> wr m a v x = m x.
Proof.
  intros H. unfold wr.
  replace ((a <=? x) && (x <? a + 8)) with false by lia. reflexivity.
Qed.

Lemma rd_wr_same m a v : 0 <= v < W64 -> rd (wr m a v) a = v.
Proof.
  intros H. unfold rd.
  rewrite <- (Z.add_0_r a) at 2.
  rewrite !wr_in by lia.
  change (le_val (le_bytes 8 v) = v).
  apply le_val_bytes. exact H.
Qed.

Lemma rd_ext m m' a : (forall x, a <= x < a + 8 -> m x = m' x) -> rd m a = rd m' a.
Proof. intros H. unfold rd. rewrite !H by lia. reflexivity. Qed.

Lemma rd_wr_other m a b v : b + 8 <= a \/ a + 8 <= b -> rd (wr m a v) b = rd m b.
Proof. intros H. apply rd_ext. intros x Hx. apply wr_out. lia. Qed.

(** ** masks *)
Lemma land_mask7 x : Z.land x 7 = x mod 8.
Proof. change 7 with (Z.ones 3). rewrite Z.land_ones by lia. reflexivity. Qed.

Lemma land_hi_mask x :
  0 <= x < W64 -> Z.land x 18446744073709551608 = x / 8 * 8.
Proof.
  intros H.
  change 18446744073709551608 with (Z.ldiff (Z.ones 64) (Z.ones 3)).
  assert (E : Z.land x (Z.ldiff (Z.ones 64) (Z.ones 3)) = Z.ldiff (Z.land x (Z.ones 64)) (Z.ones 3)).
  { apply Z.bits_inj'. intros n Hn.
    rewrite ?Z.land_spec, ?Z.ldiff_spec, ?Z.land_spec. apply andb_assoc. }
  rewrite E, Z.land_ones by lia. change (2 ^ 64) with W64.
  rewrite (Z.mod_small x W64) by exact H.
  rewrite Z.ldiff_ones_r by lia.
  rewrite Z.shiftl_mul_pow2, Z.shiftr_div_pow2 by lia. reflexivity.
Qed.

Lemma small_land_top s : 0 <= s < 2 ^ 63 -> Z.land s (2 ^ 63) = 0.
Proof.
  intros H. apply Z.bits_inj'. intros n Hn.
  rewrite Z.land_spec, Z.bits_0, Z.pow2_bits_eqb by lia.
  destruct (Z.eqb_spec 63 n) as [E|E]; [|apply andb_false_r].
  subst n. rewrite andb_true_r.
  destruct (Z.eq_dec s 0) as [->|Hz]; [apply Z.bits_0|].
  apply Z.bits_above_log2; [lia|]. apply Z.log2_lt_pow2; lia.
Qed.

Lemma lor_top s : 0 <= s < 2 ^ 63 -> Z.lor s (2 ^ 63) = s + 2 ^ 63.
Proof.
  intros H. pose proof (small_land_top s H) as E.
  rewrite Z.add_nocarry_lxor by exact E.
  symmetry. apply Z.lxor_lor. exact E.
Qed.

Lemma land_top_iff s : 0 <= s < W64 -> (Z.land s (2 ^ 63) = 0 <-> s < 2 ^ 63).
Proof.
  intros H. split.
  - intros E. destruct (Z_lt_ge_dec s (2 ^ 63)) as [|G]; [assumption|exfalso].
    assert (B : Z.testbit (Z.land s (2 ^ 63)) 63 = true).
    { rewrite Z.land_spec, Z.pow2_bits_true by lia. rewrite andb_true_r.
      assert (E2 : s = (s - 2 ^ 63) + 2 ^ 63) by lia.
      rewrite E2, <- lor_top by (unfold W64 in H; lia).
      rewrite Z.lor_spec, Z.pow2_bits_true by lia. apply orb_true_r. }
    rewrite E, Z.bits_0 in B. discriminate.
  - intros L. apply small_land_top. lia.
Qed.

Lemma land_nottop s :
  0 <= s < 2 ^ 63 -> Z.land (s + 2 ^ 63) 9223372036854775807 = s.
Proof.
  intros H. change 9223372036854775807 with (Z.ones 63).
  rewrite Z.land_ones by lia.
  replace (s + 2 ^ 63) with (s + 1 * 2 ^ 63) by lia.
  rewrite Z.mod_add by lia. apply Z.mod_small. lia.
Qed.

Lemma lxor_range a b : 0 <= a < W64 -> 0 <= b < W64 -> 0 <= Z.lxor a b < W64.
Proof.
  intros Ha Hb. split; [apply Z.lxor_nonneg; lia|].
  destruct (Z.eq_dec (Z.lxor a b) 0) as [->|Hz]; [reflexivity|].
  assert (0 <= Z.lxor a b) by (apply Z.lxor_nonneg; lia).
  assert (L : forall x, 0 <= x < W64 -> Z.log2 x < 64).
  { intros x Hx. destruct (Z.eq_dec x 0) as [->|Hx0]; [reflexivity|].
    apply Z.log2_lt_pow2; [lia|]. apply Hx. }
  apply Z.log2_lt_cancel. change (Z.log2 W64) with 64.
  eapply Z.le_lt_trans; [apply Z.log2_lxor; lia|].
  apply Z.max_lub_lt; apply L; assumption.
Qed.

(** Integer conversions, and array facts shared with the observer proofs. *)
From Verif Require Export ValuesSpec ObserverProofs1.

(** ** conversions *)
Lemma pow_pos t : ity_ok t -> 0 < 2 ^ i_bits t.
Proof. intros [H|[H|[H|H]]]; rewrite H; reflexivity. Qed.

Lemma pow_half t : ity_ok t -> 2 ^ i_bits t = 2 * 2 ^ (i_bits t - 1) /\ 0 < 2 ^ (i_bits t - 1).
Proof. intros [H|[H|[H|H]]]; rewrite H; split; reflexivity. Qed.

Lemma pow_ge t : ity_ok t -> 256 <= 2 ^ i_bits t.
Proof. intros [E|[E|[E|E]]]; rewrite E; vm_compute; discriminate. Qed.

Lemma conv_range t x : ity_ok t -> in_ity t (conv t x).
Proof.
  intros H. pose proof (pow_pos t H). destruct (pow_half t H) as [H1 H2].
  unfold in_ity, conv, lo, hi. destruct (i_signed t).
  - pose proof (Z.mod_pos_bound (x + 2 ^ (i_bits t - 1)) (2 ^ i_bits t) ltac:(lia)). lia.
  - pose proof (Z.mod_pos_bound x (2 ^ i_bits t) ltac:(lia)). lia.
Qed.

Lemma conv_diff t x : ity_ok t -> exists k, conv t x = x + k * 2 ^ i_bits t.
Proof.
  intros H. pose proof (pow_pos t H). unfold conv. destruct (i_signed t).
  - exists (- ((x + 2 ^ (i_bits t - 1)) / 2 ^ i_bits t)). rewrite Z.mod_eq by lia. lia.
  - exists (- (x / 2 ^ i_bits t)). rewrite Z.mod_eq by lia. lia.
Qed.

Lemma conv_shift t x k : ity_ok t -> conv t (x + k * 2 ^ i_bits t) = conv t x.
Proof.
  intros H. pose proof (pow_pos t H). unfold conv. destruct (i_signed t).
  - replace (x + k * 2 ^ i_bits t + 2 ^ (i_bits t - 1))
      with (x + 2 ^ (i_bits t - 1) + k * 2 ^ i_bits t) by lia.
    rewrite Z.mod_add by lia. reflexivity.
  - rewrite Z.mod_add by lia. reflexivity.
Qed.

Lemma conv_id t x : ity_ok t -> in_ity t x -> conv t x = x.
Proof.
  intros H R. destruct (pow_half t H) as [H1 H2]. unfold in_ity, lo, hi in R. unfold conv.
  destruct (i_signed t).
  - rewrite Z.mod_small by lia. lia.
  - apply Z.mod_small. lia.
Qed.

Lemma conv_conv t x : ity_ok t -> conv t (conv t x) = conv t x.
Proof. intros H. apply conv_id; [exact H|]. apply conv_range. exact H. Qed.

Lemma conv_add_l t x y : ity_ok t -> conv t (conv t x + y) = conv t (x + y).
Proof.
  intros H. destruct (conv_diff t x H) as [k ->].
  replace (x + k * 2 ^ i_bits t + y) with (x + y + k * 2 ^ i_bits t) by lia.
  apply conv_shift. exact H.
Qed.
Lemma conv_add_r t x y : ity_ok t -> conv t (x + conv t y) = conv t (x + y).
Proof.
  intros H. rewrite Z.add_comm, conv_add_l by exact H. f_equal. lia.
Qed.
Lemma conv_sub_l t x y : ity_ok t -> conv t (conv t x - y) = conv t (x - y).
Proof. intros H. exact (conv_add_l t x (- y) H). Qed.
Lemma conv_sub_r t x y : ity_ok t -> conv t (x - conv t y) = conv t (x - y).
Proof.
  intros H. destruct (conv_diff t y H) as [k ->].
  replace (x - (y + k * 2 ^ i_bits t)) with (x - y + (- k) * 2 ^ i_bits t) by lia.
  apply conv_shift. exact H.
Qed.

(** Equality of conversions is congruence modulo the width. *)
Lemma conv_eq t x y : ity_ok t -> conv t x = conv t y -> exists k, x = y + k * 2 ^ i_bits t.
Proof.
  intros H E. destruct (conv_diff t x H) as [k Hk]. destruct (conv_diff t y H) as [j Hj].
  exists (j - k). lia.
Qed.

(** The common type is at least as wide: converting there first loses nothing. *)
Lemma common_ok t : ity_ok t -> ity_ok (common t).
Proof.
  intros H. unfold common. destruct (i_bits t <? 32); [unfold ity_ok; cbn; tauto|exact H].
Qed.
Lemma common_wide t : ity_ok t -> exists m, 2 ^ i_bits (common t) = m * 2 ^ i_bits t.
Proof.
  intros H. unfold common. destruct (i_bits t <? 32) eqn:E.
  - destruct H as [H|[H|[H|H]]]; rewrite H in *; cbn [i_bits].
    + exists (2 ^ 24). reflexivity.
    + exists (2 ^ 16). reflexivity.
    + discriminate.
    + discriminate.
  - exists 1. lia.
Qed.
Lemma conv_common t x : ity_ok t -> conv t (conv (common t) x) = conv t x.
Proof.
  intros H. destruct (conv_diff (common t) x (common_ok t H)) as [k ->].
  destruct (common_wide t H) as [m ->].
  replace (x + k * (m * 2 ^ i_bits t)) with (x + (k * m) * 2 ^ i_bits t) by lia.
  apply conv_shift. exact H.
Qed.
Lemma arith_ok t x r : ity_ok t -> arith (common t) x = Ok r -> conv t r = conv t x.
Proof.
  intros H. unfold arith. destruct (i_signed (common t)).
  - destruct ((lo (common t) <=? x) && (x <=? hi (common t))); [|discriminate].
    intros E. inversion E. reflexivity.
  - intros E. inversion E. apply conv_common. exact H.
Qed.
Lemma arith_cases c x : 
  (arith c x = UB /\ i_signed c = true /\ ~ in_ity c x) \/
  ((exists r, arith c x = Ok r) /\ (i_signed c = true -> in_ity c x)).
Proof.
  unfold arith, in_ity. destruct (i_signed c) eqn:S.
  - destruct ((lo c <=? x) && (x <=? hi c)) eqn:E.
    + right. split; [eexists; reflexivity|]. intros _. lia.
    + left. split; [reflexivity|]. split; [reflexivity|]. lia.
  - right. split; [eexists; reflexivity|discriminate].
Qed.

(** ** operators *)
Lemma apply_math t x o : ity_ok t -> apply_atomic t x o = conv t (math x o).
Proof.
  intros H. destruct o; cbn [apply_atomic math]; try reflexivity;
    rewrite ?conv_add_r, ?conv_sub_r by exact H; reflexivity.
Qed.

Lemma apply_conv t x o : ity_ok t -> apply_atomic t (conv t x) o = conv t (math x o).
Proof.
  intros H. rewrite apply_math by exact H.
  destruct o; cbn [math]; rewrite ?conv_add_l, ?conv_sub_l by exact H; reflexivity.
Qed.

Lemma published_faithful t x o p : ity_ok t -> faithful_op o = true ->
  published t x o = Ok p -> p = apply_atomic t x o.
Proof.
  intros H F E. rewrite apply_math by exact H.
  destruct o; cbn [faithful_op] in F; try discriminate; cbn [published math] in *.
  - inversion E. reflexivity.
  - destruct (arith (common t) (x + n)) as [r| |] eqn:A; cbn [bind] in E; try discriminate.
    inversion E. apply arith_ok; assumption.
  - destruct (arith (common t) (x - n)) as [r| |] eqn:A; cbn [bind] in E; try discriminate.
    inversion E. apply arith_ok; assumption.
  - destruct (arith (common t) (x + 1)) as [r| |] eqn:A; cbn [bind] in E; try discriminate.
    inversion E. apply arith_ok; assumption.
Qed.

Lemma published_predec t x p : ity_ok t -> published t x PreDec = Ok p -> p = conv t (x + 1).
Proof.
  intros H E. cbn [published] in E.
  destruct (arith (common t) (x + 1)) as [r| |] eqn:A; cbn [bind] in E; try discriminate.
  inversion E. apply arith_ok; assumption.
Qed.

Lemma published_ub t x o :
  (published t x o = UB <-> overflows t x o) /\ published t x o <> Fuel.
Proof.
  unfold overflows. destruct o; cbn [published].
  1,6,7: split; [split; [discriminate|tauto]|discriminate].
  all: match goal with |- context[arith (common ?tt) ?y] =>
         destruct (arith_cases (common tt) y) as [(A & B & C)|([r A] & B)]; rewrite A; cbn [bind] end;
    (split; [|discriminate]); split; intros; try tauto; try discriminate; intuition.
Qed.

(** ** array prefixes that are not null *)
Definition nzs (a : list ptr) (n : nat) : Prop :=
  exists l t, a = map Some l ++ t /\ length l = n.

Lemma nzs_slot a n i : nzs a n -> (i < n)%nat -> exists o, slot a i = Ok (Some o) /\ In (Some o) a.
Proof.
  intros (l & t & N1 & N2) L.
  destruct (nth_error l i) as [o|] eqn:E; [|apply nth_error_None in E; lia].
  assert (ES : nth_error a i = Some (Some o)).
  { rewrite N1, nth_error_app1 by (rewrite map_length; lia). apply map_nth_error. exact E. }
  exists o. unfold slot. rewrite ES. split; [reflexivity|]. eapply nth_error_In. exact ES.
Qed.

(** Replacing the first elements by as many non-null ones. *)
Lemma nzs_replace (l m : list positive) t n :
  length l = length m -> nzs (map Some l ++ t) n -> nzs (map Some m ++ t) n.
Proof.
  intros HL (l0 & t0 & N1 & N2).
  destruct (Nat.le_gt_cases n (length m)) as [L|L].
  - exists (firstn n m), (map Some (skipn n m) ++ t). split.
    + rewrite app_assoc, <- map_app, firstn_skipn. reflexivity.
    + rewrite firstn_length. lia.
  - exists (m ++ skipn (length l) l0), t0. split.
    + rewrite (map_app Some m), <- app_assoc. f_equal.
      assert (N3 : skipn (length l) (map Some l ++ t) = skipn (length l) (map Some l0 ++ t0))
        by (rewrite N1; reflexivity).
      rewrite !skipn_app, !map_length in N3.
      rewrite (skipn_all2 (map Some l)) in N3 by (rewrite map_length; lia).
      rewrite Nat.sub_diag in N3.
      replace (length l - length l0)%nat with 0%nat in N3 by lia.
      rewrite skipn_map in N3. exact N3.
    + rewrite app_length, skipn_length. lia.
Qed.

Lemma nzs_write (l : list positive) x o t n :
  nzs (map Some l ++ x :: t) n -> nzs (map Some (l ++ [o]) ++ t) n.
Proof.
  intros (l0 & t0 & N1 & N2).
  destruct (Nat.le_gt_cases n (length l)) as [L|L].
  - exists (firstn n l), (map Some (skipn n l) ++ Some o :: t). split.
    + rewrite app_assoc, <- map_app, firstn_skipn, map_app, <- app_assoc. reflexivity.
    + rewrite firstn_length. lia.
  - exists (l ++ o :: skipn (S (length l)) l0), t0. split.
    + rewrite !map_app. cbn [map]. rewrite <- !app_assoc. cbn [app]. f_equal. f_equal.
      assert (N3 : skipn (S (length l)) (map Some l ++ x :: t)
                   = skipn (S (length l)) (map Some l0 ++ t0)) by (rewrite N1; reflexivity).
      rewrite !skipn_app, !map_length in N3.
      rewrite (skipn_all2 (map Some l)) in N3 by (rewrite map_length; lia).
      replace (S (length l) - length l)%nat with 1%nat in N3 by lia.
      replace (S (length l) - length l0)%nat with 0%nat in N3 by lia.
      rewrite skipn_map in N3. exact N3.
    + rewrite app_length. cbn [length]. rewrite skipn_length. lia.
Qed.

Lemma NoDup_rm (l : list positive) o : NoDup l -> NoDup (remove Pos.eq_dec o l).
Proof.
  induction l as [|x l IH]; intros H; [constructor|]. inversion H; subst.
  cbn. destruct (Pos.eq_dec o x); [auto|]. constructor; [|auto].
  intros HI. apply in_remove in HI. tauto.
Qed.

Lemma NoDup_end (l : list positive) o : NoDup l -> ~ In o l -> NoDup (l ++ [o]).
Proof.
  intros H HN. rewrite <- (rev_involutive (l ++ [o])). apply NoDup_rev.
  rewrite rev_app_distr. cbn. constructor; [rewrite <- in_rev; exact HN|]. apply NoDup_rev. exact H.
Qed.

(** Lemmas for the data.hpp properties. *)
From Verif Require Export DataSpec.

Lemma encode_decode e n v : 0 <= v < 256 ^ Z.of_nat n -> decode e (encode e n v) = v.
Proof. intros H. destruct e; cbn [encode decode]; rewrite ?rev_involutive; apply le_val_bytes, H. Qed.
Lemma decode_encode e n l : length l = n -> (forall b, In b l -> 0 <= b < 256) -> encode e n (decode e l) = l.
Proof.
  intros L H. subst n. destruct e; cbn [encode decode].
  - apply le_bytes_val, H.
  - rewrite <- (rev_length l), le_bytes_val; [apply rev_involutive|]. intros b Hb. apply H. apply in_rev, Hb.
Qed.
Lemma encode_len e n v : length (encode e n v) = n.
Proof. destruct e; cbn [encode]; rewrite ?rev_length; apply le_bytes_length. Qed.
Lemma encode_range e n v b : In b (encode e n v) -> 0 <= b < 256.
Proof. destruct e; cbn [encode]; intros H; [|apply in_rev in H]; eapply le_bytes_range, H. Qed.
Lemma decode_range e l : (forall b, In b l -> 0 <= b < 256) -> 0 <= decode e l < 256 ^ Z.of_nat (length l).
Proof.
  intros H. destruct e; cbn [decode]; [apply le_val_range, H|]. rewrite <- (rev_length l). apply le_val_range.
  intros b Hb. apply H, in_rev, Hb.
Qed.
Lemma swap_rev w l : length l = wbytes w ->
  match w with
  | W16 => swap_at 0 1 l
  | W32 => swap_at 1 2 (swap_at 0 3 l)
  | W64b => swap_at 3 4 (swap_at 2 5 (swap_at 1 6 (swap_at 0 7 l)))
  end = rev l.
Proof.
  destruct w; cbn [wbytes]; intros L.
  - do 2 (destruct l as [|? l]; [discriminate|]). destruct l; [reflexivity|discriminate].
  - do 4 (destruct l as [|? l]; [discriminate|]). destruct l; [reflexivity|discriminate].
  - do 8 (destruct l as [|? l]; [discriminate|]). destruct l; [reflexivity|discriminate].
Qed.
Lemma swap_decode e w v : swap e w v = decode e (rev (encode e (wbytes w) v)).
Proof.
  pose proof (swap_rev w (encode e (wbytes w) v) (encode_len _ _ _)) as H.
  destruct w; cbn [swap wbytes] in *; unfold swap16, swap32, swap64; rewrite H; reflexivity.
Qed.

(** Lemmas for the fast_pimpl properties. *)
From Verif Require Export PimplSpec.

Lemma place_same {V} (w : world V) i v : place V w i v i = v.
Proof. unfold place. rewrite Nat.eqb_refl. reflexivity. Qed.
Lemma place_other {V} (w : world V) i v j : j <> i -> place V w i v j = objs w j.
Proof. intros N. unfold place. apply Nat.eqb_neq in N. rewrite N. reflexivity. Qed.

Definition alive {V} (w : world V) (i : nat) : bool := match objs w i with Some _ => true | None => false end.
Definition balanced {V} (w : world V) : Prop := forall i, lives i (events i w) (alive w i).

Lemma step_balanced {V} tc tm ta tma ts tsm (w w' : world V) o b :
  balanced w -> step tc tm ta tma ts tsm w o = Ok (w', b) -> balanced w'.
Proof.
  intros B E.
  assert (SAME : forall f : nat -> option V, (forall k, (match f k with Some _ => true | None => false end) = alive w k) -> balanced (World f (log w))).
  { intros f F k. specialize (B k). unfold alive in *. cbn [objs]. rewrite F. exact B. }
  assert (BUILD : forall i v (f : nat -> option V), objs w i = None -> (forall k, k <> i -> (match f k with Some _ => true | None => false end) = alive w k) ->
                  f i = Some v -> balanced (World f (Built i :: log w))).
  { intros i v f N F FI k. specialize (B k). unfold events, alive in *. cbn [objs log rev]. rewrite filter_app. cbn [filter is_of].
    destruct (Nat.eqb_spec i k) as [->|NK].
    - rewrite FI, N in *. constructor. exact B.
    - rewrite app_nil_r, F by congruence. exact B. }
  destruct o as [i v|i j|i j|i|i j|i j|i g]; cbn [step] in E.
  - destruct (objs w i) eqn:OI; [discriminate|]. destruct v as [v|]; inversion E; subst; [|exact B].
    unfold build. apply (BUILD i v); [exact OI| |apply place_same]. intros k N. rewrite place_other by exact N. reflexivity.
  - destruct (objs w i) eqn:OI; [discriminate|]. destruct (objs w j) eqn:OJ; [|discriminate].
    assert (K : forall s k, (match place V w j (Some s) k with Some _ => true | None => false end) = alive w k).
    { intros s k. destruct (Nat.eq_dec k j) as [->|NJ]; [rewrite place_same; unfold alive; rewrite OJ; reflexivity|rewrite place_other by exact NJ; reflexivity]. }
    destruct (tm v) as [[v1|] s1]; inversion E; subst; [|apply SAME, K]. unfold build. cbn [log].
    apply (BUILD i v1); [exact OI| |apply place_same]. intros k N. rewrite place_other by exact N. cbn [objs]. apply K.
  - destruct (objs w i) eqn:OI; [discriminate|]. destruct (objs w j) eqn:OJ; [|discriminate].
    destruct (tc v) as [v1|]; inversion E; subst; [|exact B]. unfold build. apply (BUILD i v1); [exact OI| |apply place_same].
    intros k N. rewrite place_other by exact N. reflexivity.
  - destruct (objs w i) eqn:OI; [|discriminate]. inversion E; subst. intros k. specialize (B k). unfold events, alive in *.
    cbn [objs log rev]. rewrite filter_app. cbn [filter is_of]. destruct (Nat.eqb_spec i k) as [->|NK].
    + rewrite place_same, OI in *. constructor. exact B.
    + rewrite app_nil_r, place_other by congruence. exact B.
  - destruct (objs w i) eqn:OI; [|discriminate]. destruct (objs w j) eqn:OJ; [|discriminate].
    destruct (if Nat.eqb i j then ts v else ta v v0) as [d x]; inversion E; subst. apply SAME. intros k.
    destruct (Nat.eq_dec k i) as [->|N]; [rewrite place_same; unfold alive; rewrite OI; reflexivity|rewrite place_other by exact N; reflexivity].
  - destruct (objs w i) eqn:OI; [|discriminate]. destruct (objs w j) eqn:OJ; [|discriminate]. destruct (Nat.eqb_spec i j) as [->|NIJ].
    + destruct (tsm v) as [d x]; inversion E; subst. apply SAME. intros k.
      destruct (Nat.eq_dec k j) as [->|N]; [rewrite place_same; unfold alive; rewrite OI; reflexivity|rewrite place_other by exact N; reflexivity].
    + destruct (tma v v0) as [[d s] x]; inversion E; subst. apply SAME. intros k.
      destruct (Nat.eq_dec k i) as [->|N]; [rewrite place_same; unfold alive; rewrite OI; reflexivity|rewrite place_other by exact N]. cbn [objs].
      destruct (Nat.eq_dec k j) as [->|N']; [rewrite place_same; unfold alive; rewrite OJ; reflexivity|rewrite place_other by exact N'; reflexivity].
  - destruct (objs w i) eqn:OI; [|discriminate]. inversion E; subst. apply SAME. intros k.
    destruct (Nat.eq_dec k i) as [->|N]; [rewrite place_same; unfold alive; rewrite OI; reflexivity|rewrite place_other by exact N; reflexivity].
Qed.

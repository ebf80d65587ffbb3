From Verif Require Export HeapListProofs.

Section HList.
  Variable c : cfg.
  Variable sz : Z.
  Hypothesis PL : placed c.
  Hypothesis RM : roomy c.
  Hypothesis SP : 0 < sz.
  Hypothesis SB : node_size sz < 2 ^ 63.
  Notation word := (word c).
  Notation ns := (node_size sz).
  Notation owned := (owned c).
  Notation cell := (cell c sz).
  Notation linv := (linv c sz).
  Notation list_ok := (list_ok c sz).
  Notation good_place := (good_place c).

  (** Nothing that belongs to the blocks [l] or to list objects changes, except the words [A]. *)
  Record kept (w w' : lheap) (l : list held) (A : list Z) : Prop := {
    kp_lists : lh_lists w' = lh_lists w;
    kp_words : forall x, ~ In x A -> lh_words w' x = lh_words w x;
    kp_mem : forall b x, In b l -> hd_ptr b <= x < hd_ptr b + hd_req b -> (forall z, In z A -> x < z \/ z + 8 <= x) -> h_mem (lh_heap w') x = h_mem (lh_heap w) x
  }.
  Lemma kept_trans w w1 w2 l A B : kept w w1 l A -> kept w1 w2 l B -> kept w w2 l (A ++ B).
  Proof.
    intros [K1 K2 K3] [J1 J2 J3]. constructor.
    - congruence.
    - intros x X. rewrite J2, K2; [reflexivity| |]; intros I; apply X, in_or_app; auto.
    - intros b x BI X H. rewrite (J3 b x BI X), (K3 b x BI X); [reflexivity| |]; intros z Z; apply H, in_or_app; auto.
  Qed.
  Lemma kept_sub w w' l l' A : kept w w' l A -> (forall b, In b l' -> In b l) -> kept w w' l' A.
  Proof. intros [K1 K2 K3] H. constructor; auto. intros b x B. apply K3. exact (H b B). Qed.
  Lemma kept_word w w' l A a : reachable c (lh_heap w) l -> kept w w' l A -> owned w l a -> (forall z, In z A -> apart a z) -> word w' a = word w a.
  Proof.
    intros R K (M & O) H. destruct K as [K1 K2 K3]. destruct O as [(b & B & L & U)|[O N]]; unfold HeapListModel.word.
    - rewrite (owned_in c PL RM _ l b a R B L U). apply rd_ext. intros x X. apply (K3 b); [exact B|lia|]. intros z Z. destruct (H z Z); unfold apart in *; lia.
    - rewrite N. apply K2. intros I. destruct (H a I); unfold apart in *; lia.
  Qed.
  Lemma wrote_kept w w' l a v : wrote c w w' l a v -> kept w w' l [a].
  Proof.
    intros [W1 W2 W3 W4 W5 W6 W7 W8]. constructor; auto.
    - intros x X. apply W8. intros ->. apply X. left. reflexivity.
    - intros b x B X H. apply W6. apply H. left. reflexivity.
  Qed.
  Lemma kept_owned w w' l A a : kept w w' l A -> owned w l a -> owned w' l a.
  Proof. intros K (M & [H|[O N]]); split; auto. right. split; [|exact N]. unfold in_object in *. rewrite (kp_lists _ _ _ _ K). exact O. Qed.
  Lemma kept_cell w w' l A p : kept w w' l A -> cell w l p -> cell w' l p.
  Proof. intros K [H|H]; [left; exact H|right]. rewrite (kp_lists _ _ _ _ K). exact H. Qed.
  Lemma kept_apart w w' l A : kept w w' l A -> lists_apart w -> lists_apart w'.
  Proof. intros K. unfold lists_apart. rewrite (kp_lists _ _ _ _ K). auto. Qed.

  Lemma links_at w l p q k1 k2 : reachable c (lh_heap w) l -> lists_apart w -> cell w l p -> cell w l q ->
    k1 = 0 \/ k1 = 8 -> k2 = 0 \/ k2 = 8 -> p <> q \/ k1 <> k2 -> apart (p + k1) (q + k2).
  Proof.
    intros R LA P Q K1 K2 NE. unfold apart. destruct (Z.eq_dec p q) as [->|N]; [lia|].
    destruct (cells_apart c sz PL RM SP w l p q R LA P Q N); lia.
  Qed.

  (** ** linking in and out *)
  Lemma hook_ok w l n pos x : reachable c (lh_heap w) l -> lists_apart w -> cell w l n -> cell w l pos -> cell w l x -> n <> pos -> n <> x -> word w (pos + 8) = x ->
    exists w', hook c w n pos = Ok w' /\ reachable c (lh_heap w') l /\ kept w w' l [n; n + 8; x; pos + 8] /\
      free_heap_size (lh_heap w') = free_heap_size (lh_heap w) /\
      word w' n = pos /\ word w' (n + 8) = x /\ word w' x = n /\ word w' (pos + 8) = n.
  Proof.
    intros R LA CN CP CX NP NX EX.
    pose proof (cell_range c sz PL RM w l n R CN) as VN. pose proof (cell_range c sz PL RM w l pos R CP) as VP. pose proof (cell_range c sz PL RM w l x R CX) as VX.
    assert (ON : owned w l n) by (rewrite <- (Z.add_0_r n); apply (cell_owned c sz PL RM SP w l n 0 R CN); lia).
    pose proof (cell_owned c sz PL RM SP w l n 8 R CN ltac:(lia)) as ON8.
    assert (OX : owned w l x) by (rewrite <- (Z.add_0_r x); apply (cell_owned c sz PL RM SP w l x 0 R CX); lia).
    pose proof (cell_owned c sz PL RM SP w l pos 8 R CP ltac:(lia)) as OP8.
    assert (A1 : apart (pos + 8) n) by (rewrite <- (Z.add_0_r n); apply (links_at w l); auto; lia).
    assert (A2 : apart (pos + 8) (n + 8)) by (apply (links_at w l); auto; lia).
    assert (A3 : apart n (n + 8)) by (unfold apart; lia).
    assert (A4 : apart x n) by (rewrite <- (Z.add_0_r n), <- (Z.add_0_r x); apply (links_at w l); auto; lia).
    assert (A5 : apart x (n + 8)) by (rewrite <- (Z.add_0_r x); apply (links_at w l); auto; lia).
    assert (A6 : apart (pos + 8) x) by (rewrite <- (Z.add_0_r x); apply (links_at w l); auto; lia).
    assert (SY : forall a b, apart a b -> apart b a) by (unfold apart; lia).
    unfold hook. destruct (put_ok c PL RM w l n pos R ON ltac:(lia)) as (w1 & E1 & W1). rewrite E1. cbn [bind].
    pose proof (owned_wrote c w w1 l _ _ _ W1 OP8) as OP81. rewrite (get_ok c PL RM w1 l _ (wo_reach _ _ _ _ _ _ W1) OP81). cbn [bind].
    rewrite (wo_word _ _ _ _ _ _ W1 _ A1), EX.
    destruct (put_ok c PL RM w1 l (n + 8) x (wo_reach _ _ _ _ _ _ W1) (owned_wrote c w w1 l _ _ _ W1 ON8) ltac:(lia)) as (w2 & E2 & W2). rewrite E2. cbn [bind].
    pose proof (owned_wrote c _ _ l _ _ _ W2 OP81) as OP82. rewrite (get_ok c PL RM w2 l _ (wo_reach _ _ _ _ _ _ W2) OP82). cbn [bind].
    rewrite (wo_word _ _ _ _ _ _ W2 _ A2), (wo_word _ _ _ _ _ _ W1 _ A1), EX.
    destruct (put_ok c PL RM w2 l x n (wo_reach _ _ _ _ _ _ W2) (owned_wrote c _ _ l _ _ _ W2 (owned_wrote c w w1 l _ _ _ W1 OX)) ltac:(lia)) as (w3 & E3 & W3). rewrite E3. cbn [bind].
    destruct (put_ok c PL RM w3 l (pos + 8) n (wo_reach _ _ _ _ _ _ W3) (owned_wrote c _ _ l _ _ _ W3 OP82) ltac:(lia)) as (w4 & E4 & W4). rewrite E4.
    exists w4. split; [reflexivity|]. split; [exact (wo_reach _ _ _ _ _ _ W4)|]. split.
    - change [n; n + 8; x; pos + 8] with ((([n] ++ [n + 8]) ++ [x]) ++ [pos + 8]).
      exact (kept_trans _ _ _ _ _ _ (kept_trans _ _ _ _ _ _ (kept_trans _ _ _ _ _ _ (wrote_kept _ _ _ _ _ W1) (wrote_kept _ _ _ _ _ W2)) (wrote_kept _ _ _ _ _ W3)) (wrote_kept _ _ _ _ _ W4)).
    - split; [rewrite (wo_free _ _ _ _ _ _ W4), (wo_free _ _ _ _ _ _ W3), (wo_free _ _ _ _ _ _ W2); exact (wo_free _ _ _ _ _ _ W1)|].
      split; [rewrite (wo_word _ _ _ _ _ _ W4 _ (SY _ _ A1)), (wo_word _ _ _ _ _ _ W3 _ (SY _ _ A4)), (wo_word _ _ _ _ _ _ W2 _ A3); exact (wo_here _ _ _ _ _ _ W1)|].
      split; [rewrite (wo_word _ _ _ _ _ _ W4 _ (SY _ _ A2)), (wo_word _ _ _ _ _ _ W3 _ (SY _ _ A5)); exact (wo_here _ _ _ _ _ _ W2)|].
      split; [rewrite (wo_word _ _ _ _ _ _ W4 _ (SY _ _ A6)); exact (wo_here _ _ _ _ _ _ W3)|exact (wo_here _ _ _ _ _ _ W4)].
  Qed.

  Lemma unhook_ok w l p x y : reachable c (lh_heap w) l -> lists_apart w -> cell w l p -> cell w l x -> cell w l y -> word w p = x -> word w (p + 8) = y ->
    exists w', unhook c w p = Ok w' /\ reachable c (lh_heap w') l /\ kept w w' l [y; x + 8] /\
      free_heap_size (lh_heap w') = free_heap_size (lh_heap w) /\ word w' y = x /\ word w' (x + 8) = y.
  Proof.
    intros R LA CP CX CY EX EY.
    pose proof (cell_range c sz PL RM w l x R CX) as VX. pose proof (cell_range c sz PL RM w l y R CY) as VY.
    assert (OP : owned w l p) by (rewrite <- (Z.add_0_r p); apply (cell_owned c sz PL RM SP w l p 0 R CP); lia).
    pose proof (cell_owned c sz PL RM SP w l p 8 R CP ltac:(lia)) as OP8.
    assert (OY : owned w l y) by (rewrite <- (Z.add_0_r y); apply (cell_owned c sz PL RM SP w l y 0 R CY); lia).
    pose proof (cell_owned c sz PL RM SP w l x 8 R CX ltac:(lia)) as OX8.
    assert (A1 : apart y (x + 8)) by (rewrite <- (Z.add_0_r y); apply (links_at w l); auto; lia).
    unfold unhook. rewrite (get_ok c PL RM w l p R OP), EX. cbn [bind]. rewrite (get_ok c PL RM w l _ R OP8), EY. cbn [bind].
    destruct (put_ok c PL RM w l y x R OY ltac:(lia)) as (w1 & E1 & W1). rewrite E1. cbn [bind].
    destruct (put_ok c PL RM w1 l (x + 8) y (wo_reach _ _ _ _ _ _ W1) (owned_wrote c _ _ l _ _ _ W1 OX8) ltac:(lia)) as (w2 & E2 & W2). rewrite E2.
    exists w2. split; [reflexivity|]. split; [exact (wo_reach _ _ _ _ _ _ W2)|]. split.
    - change [y; x + 8] with ([y] ++ [x + 8]). exact (kept_trans _ _ _ _ _ _ (wrote_kept _ _ _ _ _ W1) (wrote_kept _ _ _ _ _ W2)).
    - split; [rewrite (wo_free _ _ _ _ _ _ W2); exact (wo_free _ _ _ _ _ _ W1)|].
      split; [rewrite (wo_word _ _ _ _ _ _ W2 _ A1); exact (wo_here _ _ _ _ _ _ W1)|exact (wo_here _ _ _ _ _ _ W2)].
  Qed.

  (** ** one node more or fewer in a ring *)
  Lemma ring_at V a s1 s2 X x pos Y : links V (a :: s1 ++ s2) ((s1 ++ s2) ++ [a]) -> a :: s1 = X ++ [x] -> length X = length s1 -> s2 ++ [a] = pos :: Y ->
    links V X s1 /\ (V x = pos /\ V (pos + 8) = x) /\ links V s2 Y.
  Proof.
    intros H EX LX EY. rewrite app_comm_cons, EX, <- app_assoc, <- app_assoc, EY in H. apply links_app in H; [|exact LX]. destruct H as [H1 H2].
    cbn [app] in H2. inversion H2 as [|? ? ? ? H3 H4]; subst. auto.
  Qed.
  Lemma ring_make V a s1 s2 X x pos Y : a :: s1 = X ++ [x] -> length X = length s1 -> s2 ++ [a] = pos :: Y ->
    links V X s1 -> V x = pos -> V (pos + 8) = x -> links V s2 Y -> links V (a :: s1 ++ s2) ((s1 ++ s2) ++ [a]).
  Proof.
    intros EX LX EY H1 H2 H3 H4. rewrite app_comm_cons, EX, <- app_assoc, <- app_assoc, EY. apply links_app; [exact LX|]. split; [exact H1|].
    cbn [app]. constructor; [auto|exact H4].
  Qed.
  Lemma nodup_prev (a x : Z) s1 s2 X : NoDup (a :: s1 ++ s2) -> a :: s1 = X ++ [x] -> ~ In x X /\ ~ In x s2 /\ NoDup X.
  Proof.
    intros ND E. rewrite app_comm_cons, E, <- app_assoc in ND. pose proof (NoDup_remove_2 _ _ _ ND) as H. cbn [app] in *.
    split; [intros I; apply H, in_or_app; auto|]. split; [intros I; apply H, in_or_app; auto|].
    clear -ND. induction X as [|y X IH]; [constructor|]. inversion ND as [|? ? N1 N2]; subst. constructor; [intros I; apply N1, in_or_app; auto|exact (IH N2)].
  Qed.
  Lemma nodup_next (a pos : Z) s1 s2 Y : NoDup (a :: s1 ++ s2) -> s2 ++ [a] = pos :: Y -> ~ In pos s1 /\ ~ In pos Y.
  Proof.
    intros ND E. inversion ND as [|? ? N1 N2]; subst.
    destruct s2 as [|y s2]; cbn in E; injection E as <- <-.
    - rewrite app_nil_r in N1. auto.
    - pose proof (NoDup_remove_2 _ _ _ N2) as H. split; [intros I; apply H, in_or_app; auto|].
      intros I. apply in_app_or in I. destruct I as [I|[<-|[]]]; [apply H, in_or_app; auto|]. apply N1, in_or_app. right. left. reflexivity.
  Qed.
  Lemma ring_insert V V' a s1 s2 X x pos Y n : links V (a :: s1 ++ s2) ((s1 ++ s2) ++ [a]) -> a :: s1 = X ++ [x] -> length X = length s1 -> s2 ++ [a] = pos :: Y ->
    NoDup (a :: s1 ++ s2) ->
    (forall q, In q (a :: s1 ++ s2) -> q <> x -> V' q = V q) -> (forall q, In q (a :: s1 ++ s2) -> q <> pos -> V' (q + 8) = V (q + 8)) ->
    V' n = pos -> V' (n + 8) = x -> V' x = n -> V' (pos + 8) = n ->
    links V' (a :: s1 ++ n :: s2) ((s1 ++ n :: s2) ++ [a]).
  Proof.
    intros H EX LX EY ND HX HY V1 V2 V3 V4. destruct (ring_at V a s1 s2 X x pos Y H EX LX EY) as (H1 & H2 & H3).
    destruct (nodup_prev a x s1 s2 X ND EX) as (N1 & N2 & _). destruct (nodup_next a pos s1 s2 Y ND EY) as (N3 & N4).
    assert (IX : forall q, In q X -> In q (a :: s1 ++ s2)).
    { intros q Q. rewrite app_comm_cons, EX, <- app_assoc. apply in_or_app. auto. }
    assert (IY : forall q, In q Y -> In q (a :: s1 ++ s2)).
    { intros q Q. assert (I : In q (s2 ++ [a])) by (rewrite EY; right; exact Q). apply in_app_or in I. destruct I as [I|[<-|[]]]; [right; apply in_or_app; auto|left; reflexivity]. }
    apply (ring_make V' a s1 (n :: s2) X x n (pos :: Y)); [exact EX|exact LX|cbn; rewrite EY; reflexivity| |exact V3|exact V2|].
    - apply (links_ext V); [exact H1| |].
      + intros q Q. apply HX; [exact (IX q Q)|]. intros ->. contradiction.
      + intros q Q. apply HY; [right; apply in_or_app; auto|]. intros ->. contradiction.
    - constructor; [auto|]. apply (links_ext V); [exact H3| |].
      + intros q Q. apply HX; [right; apply in_or_app; auto|]. intros ->. contradiction.
      + intros q Q. apply HY; [exact (IY q Q)|]. intros ->. contradiction.
  Qed.
  Lemma links_cons V x y xs ys : links V (x :: xs) (y :: ys) -> (V x = y /\ V (y + 8) = x) /\ links V xs ys.
  Proof. intros H. inversion H; auto. Qed.
  Lemma ring_out V a s1 s2 X y x Y p : links V (a :: s1 ++ p :: s2) ((s1 ++ p :: s2) ++ [a]) -> a :: s1 = X ++ [y] -> length X = length s1 -> s2 ++ [a] = x :: Y ->
    V p = x /\ V (p + 8) = y /\ links V X s1 /\ links V s2 Y.
  Proof.
    intros H EX LX EY. destruct (ring_at V a s1 (p :: s2) X y p (s2 ++ [a]) H EX LX eq_refl) as (H1 & [_ H2] & H3).
    rewrite EY in H3. destruct (links_cons V p x s2 Y H3) as [[H4 _] H5]. auto.
  Qed.
  Lemma ring_erase V V' a s1 s2 X y x Y p : links V (a :: s1 ++ p :: s2) ((s1 ++ p :: s2) ++ [a]) -> a :: s1 = X ++ [y] -> length X = length s1 -> s2 ++ [a] = x :: Y ->
    NoDup (a :: s1 ++ s2) ->
    (forall q, In q (a :: s1 ++ s2) -> q <> y -> V' q = V q) -> (forall q, In q (a :: s1 ++ s2) -> q <> x -> V' (q + 8) = V (q + 8)) ->
    V' y = x -> V' (x + 8) = y -> links V' (a :: s1 ++ s2) ((s1 ++ s2) ++ [a]).
  Proof.
    intros H EX LX EY ND HX HY V1 V2. destruct (ring_out V a s1 s2 X y x Y p H EX LX EY) as (_ & _ & H1 & H5).
    destruct (nodup_prev a y s1 s2 X ND EX) as (N1 & N2 & _). destruct (nodup_next a x s1 s2 Y ND EY) as (N3 & N4).
    assert (IX : forall q, In q X -> In q (a :: s1 ++ s2)).
    { intros q Q. rewrite app_comm_cons, EX, <- app_assoc. apply in_or_app. auto. }
    assert (IY : forall q, In q Y -> In q (a :: s1 ++ s2)).
    { intros q Q. assert (I : In q (s2 ++ [a])) by (rewrite EY; right; exact Q). apply in_app_or in I. destruct I as [I|[<-|[]]]; [right; apply in_or_app; auto|left; reflexivity]. }
    apply (ring_make V' a s1 s2 X y x Y EX LX EY); [|exact V1|exact V2|].
    - apply (links_ext V); [exact H1| |].
      + intros q Q. apply HX; [exact (IX q Q)|]. intros ->. contradiction.
      + intros q Q. apply HY; [right; apply in_or_app; auto|]. intros ->. contradiction.
    - apply (links_ext V); [exact H5| |].
      + intros q Q. apply HX; [right; apply in_or_app; auto|]. intros ->. contradiction.
      + intros q Q. apply HY; [exact (IY q Q)|]. intros ->. contradiction.
  Qed.

  (** The cells of a list. *)
  Lemma linv_apart w l lo ss : linv w l lo ss -> lists_apart w.
  Proof. intros I. exact (li_apart _ _ _ _ _ _ I). Qed.
  Lemma list_cells w l lo ss i a s q : linv w l lo ss -> nth_error (lh_lists w) i = Some a -> nth_error ss i = Some s -> In q (a :: addrs s) -> cell w l q.
  Proof.
    intros I EA ES [<-|Q]; [right; exists i; split; [exact EA|exact (li_places _ _ _ _ _ _ I i a EA)]|left].
    exact (node_block c sz w l a s q (li_ok _ _ _ _ _ _ I i a s EA ES) Q).
  Qed.
  Lemma list_nodup w l lo ss i a s : linv w l lo ss -> nth_error (lh_lists w) i = Some a -> nth_error ss i = Some s -> NoDup (a :: addrs s).
  Proof.
    intros I EA ES. pose proof (li_ok _ _ _ _ _ _ I i a s EA ES) as K. constructor; [|exact (lk_nodup _ _ _ _ _ _ K)].
    intros Q. destruct (node_block c sz w l a s a K Q) as (b & B & E & QB). pose proof (block_range c PL RM _ l b (li_reach _ _ _ _ _ _ I) B).
    destruct (li_places _ _ _ _ _ _ I i a EA) as (_ & _ & _ & G). pose proof (ns_big sz). lia.
  Qed.
  (** The links of one cell lie outside the other blocks and before the values. *)
  Lemma link_bytes w l p k b x : reachable c (lh_heap w) l -> cell w l p -> k = 0 \/ k = 8 -> In b l -> hd_ptr b <= x < hd_ptr b + hd_req b ->
    hd_ptr b <> p \/ hd_ptr b + 16 <= x -> x < p + k \/ p + k + 8 <= x.
  Proof.
    intros R P K B X H. pose proof (ns_big sz) as NB. destruct (Z.eq_dec (hd_ptr b) p) as [E|NE]; [lia|].
    destruct P as [(b' & B' & <- & QB)|(i & E & G)].
    - pose proof (blocks_apart c PL RM _ l b b' R B B' NE) as D. unfold disjoint in D. lia.
    - pose proof (block_range c PL RM _ l b R B). destruct G as (_ & _ & _ & G). lia.
  Qed.
  Lemma size_bytes h l a b x : reachable c h l -> good_place a -> In b l -> hd_ptr b <= x < hd_ptr b + hd_req b -> x < a + 16 \/ a + 16 + 8 <= x.
  Proof. intros R (_ & _ & _ & G) B X. pose proof (block_range c PL RM _ l b R B). lia. Qed.
End HList.

From Verif Require Export HeapListSpec HeapVecProofs2 BaseLemmas.

(** ** words *)
Lemma le_bytes_forall n v : Forall (fun b => 0 <= b < 256) (le_bytes n v).
Proof. revert v. induction n as [|n IH]; intros v; cbn [le_bytes]; constructor; [apply Z.mod_pos_bound; lia|apply IH]. Qed.
Lemma le_bytes_len n v : length (le_bytes n v) = n.
Proof. revert v. induction n as [|n IH]; intros v; cbn; auto. Qed.
Lemma rd_bytes m a v : 0 <= v < W64 -> (forall j, (j < 8)%nat -> m (a + Z.of_nat j) = nth j (le_bytes 8 v) 0) -> rd m a = v.
Proof.
  intros V H. rewrite <- (rd_wr_same m a v V). apply rd_ext. intros x X.
  replace x with (a + (x - a)) by lia. rewrite wr_in by lia. rewrite <- (H (Z.to_nat (x - a))) by lia. f_equal. lia.
Qed.

Section HList.
  Variable c : cfg.
  Variable sz : Z.
  Hypothesis PL : placed c.
  Hypothesis RM : roomy c.
  Hypothesis SP : 0 < sz.
  Hypothesis SB : node_size sz < 2 ^ 63.
  Notation word := (word c).
  Notation ns := (node_size sz).

  Lemma ns_big : 16 + sz <= ns /\ ns mod 8 = 0.
  Proof. unfold node_size. split; [|apply Z_mod_mult]. pose proof (Z.div_mod (16 + sz + 7) 8 ltac:(lia)). pose proof (Z.mod_pos_bound (16 + sz + 7) 8 ltac:(lia)). lia. Qed.

  Definition apart (a b : Z) : Prop := a + 8 <= b \/ b + 8 <= a.
  Definition owned (w : lheap) (l : list held) (a : Z) : Prop :=
    a mod 8 = 0 /\ ((exists b, In b l /\ hd_ptr b <= a /\ a + 8 <= hd_ptr b + hd_req b) \/ (in_object w a = true /\ in_buffer c a = false)).

  Lemma block_range h l b : reachable c h l -> In b l ->
    c_base c <= hd_ptr b /\ hd_ptr b + hd_req b <= c_base c + c_size c /\ hd_ptr b mod 8 = 0 /\ 0 < hd_ptr b < W64.
  Proof.
    intros R B. pose proof (held_range c PL RM h l b (inv_reachable c h l (placed_geo c PL RM) R) B) as H.
    pose proof (pl_base c PL). pose proof (pl_xs c PL). pose proof (pl_top c PL). unfold area_start, area_end in H.
    pose proof (Z.div_mod (c_base c + 7) 8 ltac:(lia)). pose proof (Z.mod_pos_bound (c_base c + 7) 8 ltac:(lia)).
    pose proof (Z.div_mod (c_base c + c_size c - 16) 8 ltac:(lia)). pose proof (Z.mod_pos_bound (c_base c + c_size c - 16) 8 ltac:(lia)). lia.
  Qed.
  Lemma owned_in h l b a : reachable c h l -> In b l -> hd_ptr b <= a -> a + 8 <= hd_ptr b + hd_req b -> in_buffer c a = true.
  Proof. intros R B L U. pose proof (block_range h l b R B). unfold in_buffer. lia. Qed.

  Lemma get_ok w l a : reachable c (lh_heap w) l -> owned w l a -> get c w a = Ok (word w a).
  Proof.
    intros R (A & [(b & B & L & U)|[O N]]); unfold get.
    - rewrite (owned_in _ l b a R B L U). destruct (Z.eqb_spec (a mod 8) 0); [reflexivity|lia].
    - rewrite N, O. destruct (Z.eqb_spec (a mod 8) 0); [reflexivity|lia].
  Qed.

  Record wrote (w w' : lheap) (l : list held) (a v : Z) : Prop := {
    wo_reach : reachable c (lh_heap w') l;
    wo_free : free_heap_size (lh_heap w') = free_heap_size (lh_heap w);
    wo_lists : lh_lists w' = lh_lists w;
    wo_here : word w' a = v;
    wo_word : forall a', apart a' a -> word w' a' = word w a';
    wo_mem : forall x, x < a \/ a + 8 <= x -> h_mem (lh_heap w') x = h_mem (lh_heap w) x;
    wo_out : in_buffer c a = false -> lh_heap w' = lh_heap w;
    wo_words : forall a', a' <> a -> lh_words w' a' = lh_words w a'
  }.
  Lemma put_ok w l a v : reachable c (lh_heap w) l -> owned w l a -> 0 <= v < W64 -> exists w', put c w a v = Ok w' /\ wrote w w' l a v.
  Proof.
    intros R (A & [(b & B & L & U)|[O N]]) V; unfold put.
    - pose proof (owned_in _ l b a R B L U) as IB. rewrite IB. destruct (Z.eqb_spec (a mod 8) 0); [cbn [negb]|lia].
      destruct (write_ok c PL RM (le_bytes 8 v) (lh_heap w) l b a R B L) as (h' & E & R' & F & W1 & W2); [rewrite le_bytes_len; lia|apply le_bytes_forall|].
      rewrite E. cbn [bind]. eexists. split; [reflexivity|]. rewrite le_bytes_len in W1, W2. constructor; cbn [lh_heap lh_words lh_lists]; try reflexivity; try assumption.
      + unfold HeapListModel.word. cbn [lh_heap lh_words]. rewrite IB. apply rd_bytes; [exact V|]. intros j J. exact (W1 j J).
      + intros a' AP. unfold HeapListModel.word. cbn [lh_heap lh_words]. destruct (in_buffer c a'); [|reflexivity]. apply rd_ext. intros x X. apply W2. unfold apart in AP. lia.
      + intros E'. congruence.
    - destruct (Z.eqb_spec (a mod 8) 0); [cbn [negb]|lia]. rewrite N, O. eexists. split; [reflexivity|]. constructor; cbn [lh_heap lh_words lh_lists]; try reflexivity; try assumption.
      + unfold HeapListModel.word. cbn [lh_heap lh_words]. rewrite N, Z.eqb_refl. reflexivity.
      + intros a' AP. unfold HeapListModel.word. cbn [lh_heap lh_words]. destruct (in_buffer c a'); [reflexivity|]. unfold apart in AP. destruct (Z.eqb_spec a' a); [lia|reflexivity].
      + intros a' NE. destruct (Z.eqb_spec a' a); [lia|reflexivity].
  Qed.
  Lemma owned_wrote w w' l a v a' : wrote w w' l a v -> owned w l a' -> owned w' l a'.
  Proof. intros W (A & [H|[O N]]); split; auto. right. split; [|exact N]. unfold in_object in *. rewrite (wo_lists _ _ _ _ _ W). exact O. Qed.

  (** ** the rings *)
  Definition addrs (s : list (Z * elem)) : list Z := map fst s.
  Definition links (V : Z -> Z) (xs ys : list Z) : Prop := Forall2 (fun x y => V x = y /\ V (y + 8) = x) xs ys.
  Lemma links_ext V V' xs ys : links V xs ys -> (forall x, In x xs -> V' x = V x) -> (forall y, In y ys -> V' (y + 8) = V (y + 8)) -> links V' xs ys.
  Proof.
    intros H. induction H as [|x y xs ys [H1 H2] H IH]; intros HX HY; [constructor|]. constructor.
    - rewrite (HX x (or_introl eq_refl)), (HY y (or_introl eq_refl)). auto.
    - apply IH; intros z Z; [apply HX|apply HY]; right; exact Z.
  Qed.
  Lemma links_app V a1 b1 a2 b2 : length a1 = length b1 -> links V (a1 ++ a2) (b1 ++ b2) <-> links V a1 b1 /\ links V a2 b2.
  Proof.
    unfold links. intros L. split.
    - revert b1 L. induction a1 as [|x a1 IH]; intros [|y b1] L H; cbn in *; try discriminate; [split; [constructor|exact H]|].
      inversion H as [|? ? ? ? H1 H2]; subst. destruct (IH b1 ltac:(lia) H2) as [IH1 IH2]. split; [constructor; assumption|exact IH2].
    - intros [H1 H2]. apply Forall2_app; assumption.
  Qed.
  (** The node before a place and the one after it. *)
  Lemma before_place (a : Z) (p : list Z) : exists X x, a :: p = X ++ [x] /\ length X = length p.
  Proof.
    revert a. induction p as [|b p IH]; intros a; [exists [], a; auto|]. destruct (IH b) as (X & x & E & L).
    exists (a :: X), x. split; [rewrite E; reflexivity|cbn; lia].
  Qed.
  Lemma after_place (a : Z) (p : list Z) : exists y Y, p ++ [a] = y :: Y /\ length Y = length p.
  Proof. destruct p as [|b p]; cbn; [exists a, []; auto|]. exists b, (p ++ [a]). split; [reflexivity|]. rewrite app_length. cbn. lia. Qed.

  (** ** the invariant *)
  Definition good_place (a : Z) : Prop := 0 < a /\ a + 24 <= W64 /\ a mod 8 = 0 /\ (a + 24 <= c_base c \/ c_base c + c_size c <= a).
  Definition node_ok (w : lheap) (l : list held) (e : Z * elem) : Prop :=
    is_elem sz (snd e) /\ read_bytes (h_mem (lh_heap w)) (fst e + 16) (Z.to_nat sz) = snd e /\ exists b, In b l /\ hd_ptr b = fst e /\ hd_req b = ns.
  Record list_ok (w : lheap) (l : list held) (a : Z) (s : list (Z * elem)) : Prop := {
    lk_links : links (word w) (a :: addrs s) (addrs s ++ [a]);
    lk_size : word w (a + 16) = Z.of_nat (length s);
    lk_nodes : forall e, In e s -> node_ok w l e;
    lk_nodup : NoDup (addrs s)
  }.
  Record linv (w : lheap) (l lo : list held) (ss : list (list (Z * elem))) : Prop := {
    li_reach : reachable c (lh_heap w) l;
    li_others : forall b, In b lo -> In b l;
    li_places : forall i a, nth_error (lh_lists w) i = Some a -> good_place a;
    li_apart : forall i j a b, nth_error (lh_lists w) i = Some a -> nth_error (lh_lists w) j = Some b -> i <> j -> a + 24 <= b \/ b + 24 <= a;
    li_len : length ss = length (lh_lists w);
    li_ok : forall i a s, nth_error (lh_lists w) i = Some a -> nth_error ss i = Some s -> list_ok w l a s;
    li_disj : forall i j s t p, nth_error ss i = Some s -> nth_error ss j = Some t -> i <> j -> In p (addrs s) -> ~ In p (addrs t);
    li_lo : forall i s p, nth_error ss i = Some s -> In p (addrs s) -> ~ In p (map hd_ptr lo);
    li_all : forall b, In b l -> In b lo \/ exists i s, nth_error ss i = Some s /\ In (hd_ptr b) (addrs s)
  }.

  Lemma node_block w l a s p : list_ok w l a s -> In p (addrs s) -> exists b, In b l /\ hd_ptr b = p /\ hd_req b = ns.
  Proof. intros K P. apply in_map_iff in P. destruct P as (e & <- & E). destruct (lk_nodes _ _ _ _ K e E) as (_ & _ & H). exact H. Qed.
  Lemma in_object_in w i a k : nth_error (lh_lists w) i = Some a -> k = 0 \/ k = 8 \/ k = 16 -> in_object w (a + k) = true.
  Proof.
    intros E K. unfold in_object. apply existsb_exists. exists a. split; [exact (nth_error_In _ _ E)|]. destruct K as [-> |[-> | ->]]; lia.
  Qed.
  Lemma place_out a k : good_place a -> 0 <= k <= 16 -> in_buffer c (a + k) = false.
  Proof. intros (_ & _ & _ & G) K. unfold in_buffer. lia. Qed.

  (** Cells: list objects and nodes; the two links of each are its own. *)
  Definition cell (w : lheap) (l : list held) (p : Z) : Prop :=
    (exists b, In b l /\ hd_ptr b = p /\ hd_req b = ns) \/ (exists i, nth_error (lh_lists w) i = Some p /\ good_place p).
  Lemma cell_owned w l p k : reachable c (lh_heap w) l -> cell w l p -> k = 0 \/ k = 8 -> owned w l (p + k).
  Proof.
    intros R [(b & B & <- & Q)|(i & E & G)] K.
    - pose proof (block_range _ l b R B) as BR. pose proof ns_big. split; [|left; exists b; split; [exact B|lia]].
      destruct BR as (_ & _ & M & _). rewrite Zplus_mod, M. destruct K as [-> | ->]; reflexivity.
    - split; [destruct G as (_ & _ & M & _); rewrite Zplus_mod, M; destruct K as [-> | ->]; reflexivity|]. right. split; [apply (in_object_in w i); [exact E|lia]|apply place_out; [exact G|lia]].
  Qed.
  Lemma cell_range w l p : reachable c (lh_heap w) l -> cell w l p -> 0 < p < W64.
  Proof. intros R [(b & B & <- & Q)|(i & E & (G1 & G2 & _))]; [pose proof (block_range _ l b R B); lia|lia]. Qed.
  Definition lists_apart (w : lheap) : Prop :=
    forall i j a b, nth_error (lh_lists w) i = Some a -> nth_error (lh_lists w) j = Some b -> i <> j -> a + 24 <= b \/ b + 24 <= a.
  Lemma cells_apart w l p q : reachable c (lh_heap w) l -> lists_apart w -> cell w l p -> cell w l q -> p <> q -> p + 16 <= q \/ q + 16 <= p.
  Proof.
    intros R LA P Q NE. pose proof ns_big.
    destruct P as [(b & B & <- & QB)|(i & E & G)], Q as [(b' & B' & <- & QB')|(i' & E' & G')].
    - pose proof (blocks_apart c PL RM _ l b b' R B B' NE) as D. unfold disjoint in D. lia.
    - pose proof (block_range _ l b R B). destruct G' as (_ & _ & _ & G'). lia.
    - pose proof (block_range _ l b' R B'). destruct G as (_ & _ & _ & G). lia.
    - assert (i <> i') by congruence. destruct (LA i i' p q E E' H0); lia.
  Qed.
  (** The size of a list is apart from all links. *)
  Lemma size_apart w l i a p k : reachable c (lh_heap w) l -> lists_apart w -> nth_error (lh_lists w) i = Some a -> good_place a -> cell w l p -> k = 0 \/ k = 8 -> apart (a + 16) (p + k).
  Proof.
    intros R LA E G [(b & B & <- & QB)|(i' & E' & G')] K; pose proof ns_big; unfold apart.
    - pose proof (block_range _ l b R B). destruct G as (_ & _ & _ & G). lia.
    - destruct (Nat.eq_dec i i') as [->|NE]; [assert (a = p) by congruence; lia|]. destruct (LA i i' a p E E' NE); lia.
  Qed.
  Lemma size_owned w l i a : nth_error (lh_lists w) i = Some a -> good_place a -> owned w l (a + 16).
  Proof.
    intros E G. split; [destruct G as (_ & _ & M & _); rewrite Zplus_mod, M; reflexivity|]. right. split; [apply (in_object_in w i); [exact E|lia]|apply place_out; [exact G|lia]].
  Qed.

  (** Few enough nodes. *)
  Lemma few ps : NoDup ps -> (forall p, In p ps -> c_base c <= p < c_base c + c_size c) -> (length ps <= Z.to_nat (c_size c))%nat.
  Proof.
    intros ND H. rewrite <- (map_length (fun p => Z.to_nat (p - c_base c)) ps), <- (seq_length (Z.to_nat (c_size c)) 0).
    apply NoDup_incl_length.
    - clear -ND H. induction ps as [|p ps IH]; [constructor|]. inversion ND as [|? ? N1 N2]; subst. cbn. constructor.
      + intros I. apply in_map_iff in I. destruct I as (q & E & Q). apply N1. replace p with q; [exact Q|].
        pose proof (H q (or_intror Q)). pose proof (H p (or_introl eq_refl)). lia.
      + apply IH; [exact N2|]. intros q Q. apply H. right. exact Q.
    - intros x X. apply in_map_iff in X. destruct X as (p & <- & P). apply in_seq. pose proof (H p P). lia.
  Qed.
  Lemma few_nodes w l a s : reachable c (lh_heap w) l -> list_ok w l a s -> (length s <= Z.to_nat (c_size c))%nat.
  Proof.
    intros R K. rewrite <- (map_length fst s). apply few; [exact (lk_nodup _ _ _ _ K)|]. intros p P. destruct (node_block w l a s p K P) as (b & B & <- & Q).
    pose proof (block_range _ l b R B). pose proof ns_big. lia.
  Qed.

  (** Replacing what is known about one list. *)
  Lemma update_nth {A} (l : list A) i x j : (i < length l)%nat -> nth_error (update l i x) j = if (j =? i)%nat then Some x else nth_error l j.
  Proof.
    revert i j. induction l as [|y l IH]; intros i j H; [inversion H|]. destruct i as [|i], j as [|j]; cbn; try reflexivity. cbn in H. apply IH. lia.
  Qed.
  Lemma update_length {A} (l : list A) i x : length (update l i x) = length l.
  Proof. revert i. induction l as [|y l IH]; intros [|i]; cbn; auto. Qed.

  (** The words and bytes of a list depend only on its object and its nodes. *)
  Lemma list_ok_frame w w' l l' a s : reachable c (lh_heap w) l -> good_place a -> list_ok w l a s ->
    (forall k, k = 0 \/ k = 8 \/ k = 16 -> lh_words w' (a + k) = lh_words w (a + k)) ->
    (forall b, In b l -> In (hd_ptr b) (addrs s) -> In b l' /\ forall x, hd_ptr b <= x < hd_ptr b + hd_req b -> h_mem (lh_heap w') x = h_mem (lh_heap w) x) ->
    list_ok w' l' a s.
  Proof.
    intros R G K HW HB. pose proof ns_big as NB.
    assert (WO : forall k, k = 0 \/ k = 8 \/ k = 16 -> word w' (a + k) = word w (a + k)).
    { intros k KK. unfold HeapListModel.word. rewrite place_out by (assumption || lia). exact (HW k KK). }
    assert (WN : forall p k, In p (addrs s) -> k = 0 \/ k = 8 -> word w' (p + k) = word w (p + k)).
    { intros p k P KK. destruct (node_block w l a s p K P) as (b & B & <- & Q). destruct (HB b B P) as [_ HM].
      unfold HeapListModel.word. rewrite (owned_in _ l b (hd_ptr b + k) R B) by lia. apply rd_ext. intros x X. apply HM. lia. }
    constructor.
    - apply (links_ext _ _ _ _ (lk_links _ _ _ _ K)).
      + intros x [<-|X]; [rewrite <- (Z.add_0_r a); apply WO; lia|rewrite <- (Z.add_0_r x); apply WN; [exact X|lia]].
      + intros y Y. apply in_app_or in Y. destruct Y as [Y|[<-|[]]]; [apply WN; [exact Y|lia]|apply WO; lia].
    - rewrite WO by lia. exact (lk_size _ _ _ _ K).
    - intros e E. destruct (lk_nodes _ _ _ _ K e E) as (E1 & E2 & b & B & BP & BQ). split; [exact E1|].
      destruct (HB b B) as [B' HM]; [rewrite BP; apply in_map, E|]. split; [|exists b; auto].
      rewrite <- E2. apply read_ext. intros j J. apply HM. lia.
    - exact (lk_nodup _ _ _ _ K).
  Qed.

  Lemma linv_set w l lo ss i a s w' l' s' : linv w l lo ss -> nth_error (lh_lists w) i = Some a -> nth_error ss i = Some s ->
    reachable c (lh_heap w') l' -> lh_lists w' = lh_lists w ->
    (forall x, in_buffer c x = false -> x <> a -> x <> a + 8 -> x <> a + 16 -> lh_words w' x = lh_words w x) ->
    (forall b, In b l -> ~ In (hd_ptr b) (addrs s) -> In b l' /\ forall x, hd_ptr b <= x < hd_ptr b + hd_req b -> h_mem (lh_heap w') x = h_mem (lh_heap w) x) ->
    (forall b, In b l' -> In (hd_ptr b) (addrs s') \/ (In b l /\ ~ In (hd_ptr b) (addrs s))) ->
    list_ok w' l' a s' ->
    (forall p, In p (addrs s') -> In p (addrs s) \/ ~ In p (map hd_ptr l)) ->
    linv w' l' lo (update ss i s') /\
    (forall b x, In b lo -> hd_ptr b <= x < hd_ptr b + hd_req b -> h_mem (lh_heap w') x = h_mem (lh_heap w) x).
  Proof.
    intros [IR IO IP IA IL IK ID IX IALL] EI ES R' LL HW HB HB' K' HN.
    assert (SI : (i < length ss)%nat) by (apply nth_error_Some; congruence).
    assert (LO : forall b, In b lo -> ~ In (hd_ptr b) (addrs s)).
    { intros b B P. apply (IX i s (hd_ptr b) ES P). apply in_map, B. }
    assert (OT : forall j t b, nth_error ss j = Some t -> j <> i -> In (hd_ptr b) (addrs t) -> ~ In (hd_ptr b) (addrs s)).
    { intros j t b EJ NE P. exact (ID j i t s (hd_ptr b) EJ ES NE P). }
    assert (NB : forall j t p, nth_error ss j = Some t -> In p (addrs t) -> In p (map hd_ptr l)).
    { intros j t p EJ P. destruct (nth_error (lh_lists w) j) as [aj|] eqn:EA; [|apply nth_error_None in EA; assert (j < length ss)%nat by (apply nth_error_Some; congruence); lia].
      destruct (node_block w l aj t p (IK j aj t EA EJ) P) as (b & B & <- & _). apply in_map, B. }
    split; [constructor|].
    - exact R'.
    - intros b B. apply (HB b (IO b B) (LO b B)).
    - rewrite LL. exact IP.
    - rewrite LL. exact IA.
    - rewrite update_length, LL. exact IL.
    - rewrite LL. intros j b t EA ET. rewrite update_nth in ET by exact SI. destruct (Nat.eqb_spec j i) as [->|NE].
      + rewrite EI in EA. injection EA as <-. injection ET as <-. exact K'.
      + apply (list_ok_frame w w' l l' b t IR (IP j b EA) (IK j b t EA ET)).
        * intros k KK. destruct (IA j i b a EA EI NE); apply HW; try lia; apply place_out; try lia; exact (IP j b EA).
        * intros x X P. apply HB; [exact X|]. exact (OT j t x ET NE P).
    - intros j k t u p ET EU NE P. rewrite update_nth in ET, EU by exact SI.
      destruct (Nat.eqb_spec j i) as [->|NJ], (Nat.eqb_spec k i) as [->|NK]; [congruence| | |exact (ID j k t u p ET EU NE P)].
      + injection ET as <-. destruct (HN p P) as [P1|P1]; [exact (ID i k s u p ES EU ltac:(congruence) P1)|]. intros X. apply P1. exact (NB k u p EU X).
      + injection EU as <-. intros X. destruct (HN p X) as [P1|P1]; [exact (ID j i t s p ET ES NJ P P1)|]. apply P1. exact (NB j t p ET P).
    - intros j t p ET P. rewrite update_nth in ET by exact SI. destruct (Nat.eqb_spec j i) as [->|NJ]; [|exact (IX j t p ET P)].
      injection ET as <-. destruct (HN p P) as [P1|P1]; [exact (IX i s p ES P1)|]. intros X. apply P1. apply in_map_iff in X. destruct X as (b & <- & B). apply in_map, IO, B.
    - intros b B. destruct (HB' b B) as [P|[BL NP]].
      + right. exists i, s'. rewrite update_nth, Nat.eqb_refl by exact SI. auto.
      + destruct (IALL b BL) as [BO|(j & t & ET & P)]; [left; exact BO|right]. exists j, t. rewrite update_nth by exact SI.
        destruct (Nat.eqb_spec j i) as [->|NJ]; [|auto]. rewrite ES in ET. injection ET as <-. contradiction.
    - intros b x B X. apply (HB b (IO b B) (LO b B)). exact X.
  Qed.
End HList.

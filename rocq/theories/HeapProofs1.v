(** Block lists, the memory representation, and its geometry. *)
From Verif Require Export BaseLemmas HeapSpec.

(** ** constants *)
Lemma hss_val : x_heap_struct_size = 16. Proof. reflexivity. Qed.
Lemma hmin_val : heap_minimum_block_size = 32. Proof. reflexivity. Qed.
Lemma bit_val : heap_block_allocated_bitmask = 2 ^ 63. Proof. reflexivity. Qed.
Lemma nbit_val : u64 (Z.lnot heap_block_allocated_bitmask) = 9223372036854775807.
Proof. reflexivity. Qed.
Lemma nmask_val : not_mask = 18446744073709551608. Proof. reflexivity. Qed.

Notation prot := heap_protect_block_pointer.
Lemma prot_prot p : prot (prot p) = p.
Proof. unfold prot. rewrite Z.lxor_assoc, Z.lxor_nilpotent. apply Z.lxor_0_r. Qed.
Lemma prot_range p : 0 <= p < W64 -> 0 <= prot p < W64.
Proof. intros H. apply lxor_range; [exact H|split; [discriminate|reflexivity]]. Qed.
Lemma prot_inj p q : prot p = prot q -> p = q.
Proof. intros H. rewrite <- (prot_prot p), H. apply prot_prot. Qed.
Global Opaque heap_protect_block_pointer.

(** ** block lists *)
Record blk := Blk { b_addr : Z; b_len : Z; b_used : bool }.

Fixpoint tiles (s : Z) (bl : list blk) (e : Z) : Prop :=
  match bl with
  | [] => s = e
  | b :: t => b_addr b = s /\ 16 <= b_len b /\ b_len b mod 8 = 0 /\ tiles (s + b_len b) t e
  end.

Fixpoint frees (bl : list blk) : list (Z * Z) :=
  match bl with
  | [] => []
  | b :: t => if b_used b then frees t else (b_addr b, b_len b) :: frees t
  end.

Fixpoint free_sum (bl : list blk) : Z :=
  match bl with
  | [] => 0
  | b :: t => (if b_used b then 0 else b_len b) + free_sum t
  end.

Fixpoint no_adj (bl : list blk) : Prop :=
  match bl with
  | b :: t => match t with
              | [] => True
              | b2 :: _ => b_used b || b_used b2 = true /\ no_adj t
              end
  | [] => True
  end.

Lemma tiles_app s l1 l2 e :
  tiles s (l1 ++ l2) e <-> exists k, tiles s l1 k /\ tiles k l2 e.
Proof.
  revert s; induction l1 as [|b l1 IH]; intros s; cbn [tiles app].
  - split; [intros H; exists s; auto|intros (k & -> & H); exact H].
  - rewrite IH. split.
    + intros (A & B & C & k & H1 & H2). exists k. tauto.
    + intros (k & (A & B & C & H1) & H2). repeat split; auto. exists k. tauto.
Qed.

Lemma tiles_le s bl e : tiles s bl e -> s <= e.
Proof.
  revert s; induction bl as [|b bl IH]; intros s; cbn [tiles]; [lia|].
  intros (A & B & C & H). specialize (IH _ H). lia.
Qed.

Lemma tiles_mod s bl e : tiles s bl e -> s mod 8 = 0 -> e mod 8 = 0.
Proof.
  revert s; induction bl as [|b bl IH]; intros s; cbn [tiles]; [intros ->; auto|].
  intros (A & B & C & H) M. apply (IH _ H). lia.
Qed.

Lemma tiles_in s bl e b :
  tiles s bl e -> s mod 8 = 0 -> In b bl ->
  s <= b_addr b /\ 16 <= b_len b /\ b_len b mod 8 = 0 /\ b_addr b mod 8 = 0
  /\ b_addr b + b_len b <= e.
Proof.
  intros T M I. apply in_split in I. destruct I as (l1 & l2 & ->).
  apply tiles_app in T. destruct T as (k & T1 & T2).
  pose proof (tiles_le _ _ _ T1). pose proof (tiles_mod _ _ _ T1 M).
  cbn [tiles] in T2. destruct T2 as (A & B & C & T2).
  pose proof (tiles_le _ _ _ T2). lia.
Qed.

Lemma frees_app l1 l2 : frees (l1 ++ l2) = frees l1 ++ frees l2.
Proof. induction l1 as [|b l1 IH]; cbn; [reflexivity|]. destruct (b_used b); cbn; rewrite IH; reflexivity. Qed.

Lemma free_sum_app l1 l2 : free_sum (l1 ++ l2) = free_sum l1 + free_sum l2.
Proof. induction l1 as [|b l1 IH]; cbn [app free_sum]; [lia|]. rewrite IH. lia. Qed.

Lemma in_frees a s bl : In (a, s) (frees bl) <-> In (Blk a s false) bl.
Proof.
  induction bl as [|b bl IH]; cbn; [tauto|].
  destruct b as [ba bs bu]; cbn. destruct bu; cbn; rewrite IH; split.
  - auto.
  - intros [E|H]; [discriminate|exact H].
  - intros [E|H]; [left; congruence|auto].
  - intros [E|H]; [left; congruence|auto].
Qed.

Lemma free_sum_bound s bl e : tiles s bl e -> 0 <= free_sum bl <= e - s.
Proof.
  revert s; induction bl as [|b bl IH]; intros s; cbn [tiles free_sum]; [lia|].
  intros (A & B & C & H). specialize (IH _ H). destruct (b_used b); lia.
Qed.

Lemma frees_len s bl e : tiles s bl e -> 16 * Z.of_nat (length (frees bl)) <= e - s.
Proof.
  revert s; induction bl as [|b bl IH]; intros s; cbn [tiles frees]; [cbn; lia|].
  intros (A & B & C & H). specialize (IH _ H). destruct (b_used b); cbn [length]; lia.
Qed.

(** addresses of the elements of a free list *)
Definition addrs (fl : list (Z * Z)) : list Z := map fst fl.
Definition head_addr (fl : list (Z * Z)) (e : Z) : Z :=
  match fl with [] => e | (a, _) :: _ => a end.
Fixpoint last_addr (fl : list (Z * Z)) (p : Z) : Z :=
  match fl with [] => p | (a, _) :: t => last_addr t a end.

Lemma last_addr_app f1 a s p : last_addr (f1 ++ [(a, s)]) p = a.
Proof. revert p; induction f1 as [|[b t] f1 IH]; intros p; cbn; [reflexivity|apply IH]. Qed.

Lemma last_addr_in f p : In (last_addr f p) (p :: addrs f).
Proof.
  revert p; induction f as [|[a s] f IH]; intros p; cbn; [auto|].
  right. specialize (IH a). cbn in IH. exact IH.
Qed.

(** ** memory representation of the free list *)
Fixpoint chain (m : memory) (prev : Z) (fl : list (Z * Z)) (e : Z) : Prop :=
  match fl with
  | [] => rd m prev = prot e
  | (a, s) :: t => rd m prev = prot a /\ rd m (a + 8) = s /\ chain m a t e
  end.

Lemma chain_app m prev f1 f2 e :
  chain m prev (f1 ++ f2) e <->
  chain m prev f1 (head_addr f2 e) /\ chain m (last_addr f1 prev) f2 e.
Proof.
  revert prev; induction f1 as [|[a s] f1 IH]; intros prev; cbn [app chain last_addr].
  - split; [|tauto]. intros H. split; [|exact H]. destruct f2 as [|[a s] f2]; cbn [chain head_addr] in *; tauto.
  - rewrite IH. tauto.
Qed.

Lemma chain_next m prev fl e : chain m prev fl e -> rd m prev = prot (head_addr fl e).
Proof. destruct fl as [|[a s] fl]; cbn [chain head_addr]; tauto. Qed.

Lemma chain_last m prev fl e : chain m prev fl e -> rd m (last_addr fl prev) = prot e.
Proof. revert prev; induction fl as [|[a s] fl IH]; intros prev; cbn [chain last_addr]; [auto|]. intros (_ & _ & H). apply (IH _ H). Qed.

Lemma chain_size m prev fl e a s : chain m prev fl e -> In (a, s) fl -> rd m (a + 8) = s.
Proof.
  revert prev; induction fl as [|[b t] fl IH]; intros prev; cbn [chain In]; [tauto|].
  intros (_ & S & H) [E|I]; [congruence|eauto].
Qed.

(** Changing the successor of the last element. *)
Lemma chain_relink m M prev fl x y :
  chain m prev fl x ->
  NoDup (prev :: addrs fl) ->
  (forall q, In q (prev :: addrs fl) -> q <> last_addr fl prev -> rd M q = rd m q) ->
  (forall q, In q (addrs fl) -> rd M (q + 8) = rd m (q + 8)) ->
  rd M (last_addr fl prev) = prot y ->
  chain M prev fl y.
Proof.
  revert prev; induction fl as [|[a s] fl IH]; intros prev; cbn [chain last_addr addrs map fst].
  - intros _ _ _ _ H. exact H.
  - intros (A & B & C) ND HN HS HL.
    inversion ND as [|? ? NI ND']; subst.
    repeat split.
    + rewrite HN; [exact A|left; reflexivity|].
      intros E. apply NI. rewrite E. apply last_addr_in.
    + rewrite HS; [reflexivity|left; reflexivity].
    + apply IH; try assumption.
      * intros q Q NQ. apply HN; [right; exact Q|exact NQ].
      * intros q Q. apply HS. right; exact Q.
Qed.

Lemma chain_ext m M prev fl e :
  chain m prev fl e ->
  (forall q, In q (prev :: addrs fl) -> rd M q = rd m q) ->
  (forall q, In q (addrs fl) -> rd M (q + 8) = rd m (q + 8)) ->
  chain M prev fl e.
Proof.
  revert prev; induction fl as [|[a s] fl IH]; intros prev; cbn [chain addrs map fst].
  - intros A HN _. rewrite HN; [exact A|left; reflexivity].
  - intros (A & B & C) HN HS. repeat split.
    + rewrite HN; [exact A|left; reflexivity].
    + rewrite HS; [exact B|left; reflexivity].
    + apply IH; [exact C| |].
      * intros q Q. apply HN. right; exact Q.
      * intros q Q. apply HS. right; exact Q.
Qed.

(** ** representation invariant *)
Definition hdr_used (m : memory) (b : blk) : Prop :=
  b_used b = true -> rd m (b_addr b) = prot 0 /\ rd m (b_addr b + 8) = b_len b + 2 ^ 63.

Record mrepr (c : cfg) (m : memory) (bl : list blk) : Prop := {
  r_tiles : tiles (area_start c) bl (area_end c);
  r_noadj : no_adj bl;
  r_xs : rd m (c_xs c + 8) = 0;
  r_endsize : rd m (area_end c + 8) = 0;
  r_endnext : rd m (area_end c) = prot 0;
  r_used : forall b, In b bl -> hdr_used m b;
  r_chain : chain m (c_xs c) (frees bl) (area_end c)
}.

Record repr (c : cfg) (h : heap) (bl : list blk) : Prop := {
  r_mem : mrepr c (h_mem h) bl;
  r_end : h_end h = area_end c;
  r_free : h_free h = free_sum bl
}.

(** ** geometry *)
Lemma area_start_mod c : area_start c mod 8 = 0.
Proof. unfold area_start. lia. Qed.
Lemma area_end_mod c : area_end c mod 8 = 0.
Proof. unfold area_end. lia. Qed.
Lemma area_start_ge c : c_base c <= area_start c.
Proof. unfold area_start. lia. Qed.
Lemma area_end_le c : area_end c + 16 <= c_base c + c_size c.
Proof. unfold area_end. lia. Qed.

Record geo (c : cfg) : Prop := {
  g_base : 8 <= c_base c;
  g_start : c_base c <= area_start c;
  g_startmod : area_start c mod 8 = 0;
  g_room : area_start c + 16 <= area_end c;
  g_endmod : area_end c mod 8 = 0;
  g_end : area_end c + 16 <= c_base c + c_size c;
  g_size : c_size c < 2 ^ 63;
  g_xs : c_base c + c_size c <= c_xs c \/ 0 < c_xs c /\ c_xs c + 16 <= c_base c;
  g_xsmod : c_xs c mod 8 = 0;
  g_top : c_xs c + 16 < W64 /\ c_base c + c_size c < W64
}.

Lemma placed_geo c : placed c -> roomy c -> geo c.
Proof.
  intros [] R. constructor; try assumption.
  - apply area_start_ge.
  - apply area_start_mod.
  - apply area_end_mod.
  - apply area_end_le.
  - tauto.
  - left. assumption.
  - lia.
Qed.

Lemma word_ok_in c a :
  a mod 8 = 0 -> c_base c <= a -> a + 8 <= c_base c + c_size c -> word_ok c a = true.
Proof. intros. unfold word_ok. lia. Qed.

Lemma word_ok_xs c : c_xs c mod 8 = 0 -> word_ok c (c_xs c) = true /\ word_ok c (c_xs c + 8) = true.
Proof. intros. unfold word_ok. lia. Qed.

(** a header (two words) that may be accessed *)
Definition hdr_ok (c : cfg) (a : Z) : Prop :=
  a mod 8 = 0 /\ ((c_base c <= a /\ a + 16 <= c_base c + c_size c) \/ a = c_xs c).

Lemma hdr_ok_words c a : c_xs c mod 8 = 0 -> hdr_ok c a -> word_ok c a = true /\ word_ok c (a + 8) = true.
Proof. intros G [M [[A B]| ->]]; [split; apply word_ok_in; lia|]. apply word_ok_xs; exact G. Qed.

Lemma load_ok c m a : word_ok c a = true -> load c m a = Ok (rd m a).
Proof. intros H. unfold load. rewrite H. reflexivity. Qed.
Lemma store_ok c m a v : word_ok c a = true -> store c m a v = Ok (wr m a v).
Proof. intros H. unfold store. rewrite H. reflexivity. Qed.

Lemma ld_next_ok c m a : geo c -> hdr_ok c a -> ld_next c m a = Ok (rd m a).
Proof. intros G H. apply load_ok. apply hdr_ok_words; [apply G|exact H]. Qed.
Lemma ld_size_ok c m a : geo c -> hdr_ok c a -> ld_size c m a = Ok (rd m (a + 8)).
Proof. intros G H. apply load_ok. apply hdr_ok_words; [apply G|exact H]. Qed.
Lemma st_next_ok c m a v : geo c -> hdr_ok c a -> st_next c m a v = Ok (wr m a v).
Proof. intros G H. apply store_ok. apply hdr_ok_words; [apply G|exact H]. Qed.
Lemma st_size_ok c m a v : geo c -> hdr_ok c a -> st_size c m a v = Ok (wr m (a + 8) v).
Proof. intros G H. apply store_ok. apply hdr_ok_words; [apply G|exact H]. Qed.

Lemma hdr_ok_block c bl b :
  geo c -> tiles (area_start c) bl (area_end c) -> In b bl -> hdr_ok c (b_addr b).
Proof.
  intros G T I. pose proof (tiles_in _ _ _ _ T (g_startmod c G) I). destruct G.
  split; [lia|left; lia].
Qed.

Lemma hdr_ok_end c : geo c -> hdr_ok c (area_end c).
Proof. intros []. split; [lia|left; lia]. Qed.
Lemma hdr_ok_xs c : geo c -> hdr_ok c (c_xs c).
Proof. intros []. split; [lia|right; reflexivity]. Qed.

(** Facts about one block [b] of [l1 ++ b :: l2]. *)
Lemma tiles_mid s l1 b l2 e :
  tiles s (l1 ++ b :: l2) e ->
  tiles s l1 (b_addr b) /\ 16 <= b_len b /\ b_len b mod 8 = 0 /\ tiles (b_addr b + b_len b) l2 e.
Proof.
  intros T. apply tiles_app in T. destruct T as (k & T1 & A & B & C & T2). subst k. tauto.
Qed.

(** NoDup of free-list addresses together with the list head. *)
Lemma frees_addrs_range s bl e q :
  tiles s bl e -> s mod 8 = 0 -> In q (addrs (frees bl)) ->
  s <= q /\ q + 16 <= e /\ q mod 8 = 0.
Proof.
  intros T M I. unfold addrs in I. apply in_map_iff in I. destruct I as ([a z] & E & I).
  cbn in E; subst q. apply in_frees in I. pose proof (tiles_in _ _ _ _ T M I). cbn in *. lia.
Qed.

Lemma frees_nodup s bl e : tiles s bl e -> s mod 8 = 0 -> NoDup (addrs (frees bl)).
Proof.
  revert s; induction bl as [|b bl IH]; intros s T M; cbn; [constructor|].
  cbn [tiles] in T. destruct T as (A & B & C & T).
  assert (M' : (s + b_len b) mod 8 = 0) by lia.
  destruct (b_used b); [eauto|]. cbn. constructor; [|eauto].
  intros I. pose proof (frees_addrs_range _ _ _ _ T M' I). lia.
Qed.

Lemma frees_nodup_xs c bl :
  geo c -> tiles (area_start c) bl (area_end c) -> NoDup (c_xs c :: addrs (frees bl)).
Proof.
  intros G T. constructor; [|apply (frees_nodup _ _ _ T), G].
  intros I. pose proof (frees_addrs_range _ _ _ _ T (g_startmod c G) I). destruct G. lia.
Qed.

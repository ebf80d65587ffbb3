From Verif Require Export HeapVecSpec HeapProofs5 HeapProofs6.

(** ** lists and bytes *)
Lemma read_length m a n : length (read_bytes m a n) = n.
Proof. unfold read_bytes. rewrite map_length, seq_length. reflexivity. Qed.
Lemma read_nth m a n j : (j < n)%nat -> nth j (read_bytes m a n) 0 = m (a + Z.of_nat j).
Proof.
  intros H. unfold read_bytes. rewrite (nth_indep _ 0 (m (a + Z.of_nat 0%nat))) by (rewrite map_length, seq_length; exact H).
  rewrite (map_nth (fun j => m (a + Z.of_nat j)) (seq 0 n) 0%nat j), seq_nth by exact H. reflexivity.
Qed.
Lemma read_ext m1 m2 a1 a2 n : (forall j, 0 <= j < Z.of_nat n -> m1 (a1 + j) = m2 (a2 + j)) -> read_bytes m1 a1 n = read_bytes m2 a2 n.
Proof. intros H. unfold read_bytes. apply map_ext_in. intros j J. apply in_seq in J. apply H. lia. Qed.
Lemma read_is m a l : (forall j, (j < length l)%nat -> m (a + Z.of_nat j) = nth j l 0) -> read_bytes m a (length l) = l.
Proof.
  intros H. apply (nth_ext _ _ 0 0); [apply read_length|]. intros j J. rewrite read_length in J. rewrite read_nth by exact J. apply H, J.
Qed.

Lemma vput_length l i v : length (vput l i v) = length l.
Proof. revert i. induction l as [|x l IH]; intros [|i]; cbn; auto. Qed.
Lemma vput_nth l i v j : (i < length l)%nat -> nth_error (vput l i v) j = if (j =? i)%nat then Some v else nth_error l j.
Proof.
  revert i j. induction l as [|x l IH]; intros i j H; [inversion H|]. destruct i as [|i], j as [|j]; cbn; try reflexivity.
  cbn in H. rewrite IH by lia. reflexivity.
Qed.
Lemma map_vput {B} (f f' : vec -> B) l i v : (forall j u, j <> i -> nth_error l j = Some u -> f' u = f u) ->
  map f' (vput l i v) = update (map f l) i (f' v).
Proof.
  revert i. induction l as [|x l IH]; intros i H; [destruct i; reflexivity|]. destruct i as [|i]; cbn [vput map update].
  - f_equal. apply map_ext_in. intros u U. apply In_nth_error in U. destruct U as [j U]. apply (H (S j) u); [lia|exact U].
  - rewrite (H 0%nat x); [|lia|reflexivity]. f_equal. apply IH. intros j u NE E. apply (H (S j) u); [lia|exact E].
Qed.

Section Vec.
  Variable c : cfg.
  Variable sz : Z.
  Hypothesis PL : placed c.
  Hypothesis RM : roomy c.
  Hypothesis SP : 0 < sz.

  (** Storing bytes inside a held block. *)
  Lemma write_ok : forall bs h l b a, reachable c h l -> In b l -> hd_ptr b <= a -> a + Z.of_nat (length bs) <= hd_ptr b + hd_req b ->
    Forall (fun b => 0 <= b < 256) bs ->
    exists h', write_bytes c h a bs = Ok h' /\ reachable c h' l /\ free_heap_size h' = free_heap_size h /\
      (forall j, (j < length bs)%nat -> h_mem h' (a + Z.of_nat j) = nth j bs 0) /\
      (forall x, x < a \/ a + Z.of_nat (length bs) <= x -> h_mem h' x = h_mem h x).
  Proof.
    induction bs as [|v bs IH]; intros h l b a R B L U F; cbn [write_bytes].
    - exists h. split; [reflexivity|]. split; [exact R|]. split; [reflexivity|]. split; [cbn; lia|]. reflexivity.
    - inversion F as [|? ? V F']; subst. cbn [length] in U.
      assert (P : permitted l (Write a v)) by (split; [exact V|exists b; split; [exact B|lia]]).
      destruct (calls_defined c PL RM h l (Write a v) R P) as (h1 & r & A).
      pose proof (reachable_step c h l (Write a v) h1 r R P A) as R1. cbn [hold] in R1.
      destruct (write_byte c h l a v h1 r A P) as [W1 W2].
      cbn [apply] in A. destruct (client_write c h a v) as [h1'| |] eqn:E; [|discriminate|discriminate]. cbn [bind] in A. injection A as <- <-.
      assert (FH : free_heap_size h1' = free_heap_size h).
      { unfold client_write in E. destruct ((c_base c <=? a) && (a <? c_base c + c_size c)); [|discriminate]. injection E as <-. reflexivity. }
      destruct (IH h1' l b (a + 1) R1 B) as (h' & E' & R' & FH' & W3 & W4); [lia|lia|exact F'|].
      exists h'. cbn [bind]. split; [exact E'|]. split; [exact R'|]. split; [congruence|]. split.
      + intros j J. destruct j as [|j].
        * rewrite Z.add_0_r. cbn [nth]. rewrite W4 by lia. exact W1.
        * cbn [nth length] in *. rewrite <- W3 by lia. f_equal. lia.
      + intros x X. rewrite W4 by (cbn [length] in X; lia). apply W2. cbn [length] in X. lia.
  Qed.

  (** The invariant. *)
  Definition vec_ok (h : heap) (l lo : list held) (v : vec) : Prop :=
    Forall (is_elem sz) (contents sz h v) /\
    ((v = empty_vec) \/
     (0 <= ve_size v <= ve_cap v /\ 0 < ve_cap v /\ ve_cap v <= max_size sz /\ ve_data v <> 0 /\ ~ In (ve_data v) (map hd_ptr lo) /\
      exists b, In b l /\ hd_ptr b = ve_data v /\ hd_req b = ve_cap v * sz)).
  Record vinv (w : vheap) (l lo : list held) : Prop := {
    vi_reach : reachable c (vh_heap w) l;
    vi_others : forall b, In b lo -> In b l;
    vi_vecs : forall i v, nth_error (vh_vecs w) i = Some v -> vec_ok (vh_heap w) l lo v;
    vi_apart : forall i j v u, nth_error (vh_vecs w) i = Some v -> nth_error (vh_vecs w) j = Some u -> i <> j -> ve_data v <> 0 -> ve_data v <> ve_data u;
    vi_all : forall b, In b l -> In b lo \/ exists i v, nth_error (vh_vecs w) i = Some v /\ hd_ptr b = ve_data v
  }.

  Lemma max_pos : sz < 2 ^ 63 -> 1 <= max_size sz.
  Proof. intros H. unfold max_size. apply Z.div_le_lower_bound; lia. Qed.
  Lemma max_mul n : n <= max_size sz -> n * sz < 2 ^ 63.
  Proof. intros H. unfold max_size in H. pose proof (Z.mul_div_le (2 ^ 63 - 1) sz SP). nia. Qed.

  Lemma contents_ext h1 h2 v1 v2 : ve_size v1 = ve_size v2 ->
    (forall x, 0 <= x < ve_size v1 * sz -> h_mem h1 (ve_data v1 + x) = h_mem h2 (ve_data v2 + x)) ->
    contents sz h1 v1 = contents sz h2 v2.
  Proof.
    intros ES H. unfold contents. rewrite <- ES. apply map_ext_in. intros k K. apply in_seq in K.
    apply read_ext. intros j J. rewrite <- !Z.add_assoc. apply H. rewrite Z2Nat.id in J by lia. nia.
  Qed.
  Lemma contents_snoc h v x n : 0 <= n -> is_elem sz x -> ve_size v = n + 1 ->
    (forall j, (j < length x)%nat -> h_mem h (ve_data v + n * sz + Z.of_nat j) = nth j x 0) ->
    contents sz h v = contents sz h (Vec (ve_data v) n (ve_cap v)) ++ [x].
  Proof.
    intros N [LX _] ES H. unfold contents. rewrite ES. cbn [ve_data ve_size]. replace (Z.to_nat (n + 1)) with (Z.to_nat n + 1)%nat by lia.
    rewrite seq_app, map_app. f_equal. cbn [seq map]. f_equal. replace (Z.to_nat sz) with (length x) by lia. apply read_is.
    intros j J. rewrite <- H by exact J. f_equal. lia.
  Qed.
  Lemma contents_length h v : length (contents sz h v) = Z.to_nat (ve_size v).
  Proof. unfold contents. rewrite map_length, seq_length. reflexivity. Qed.

  (** The bytes of the elements. *)
  Lemma elem_bytes h v x : Forall (is_elem sz) (contents sz h v) -> 0 <= x < ve_size v * sz -> 0 <= h_mem h (ve_data v + x) < 256.
  Proof.
    intros F X. set (k := x / sz). assert (K : 0 <= k < ve_size v) by (unfold k; split; [apply Z.div_pos; lia|apply Z.div_lt_upper_bound; lia]).
    set (e := read_bytes (h_mem h) (ve_data v + Z.of_nat (Z.to_nat k) * sz) (Z.to_nat sz)).
    assert (IE : In e (contents sz h v)).
    { unfold contents. apply (in_map (fun k => read_bytes (h_mem h) (ve_data v + Z.of_nat k * sz) (Z.to_nat sz))). apply in_seq. lia. }
    rewrite Forall_forall in F. destruct (F e IE) as [_ FB]. rewrite Forall_forall in FB.
    assert (IX : In (h_mem h (ve_data v + x)) e).
    { unfold e, read_bytes. apply in_map_iff. exists (Z.to_nat (x mod sz)). pose proof (Z.mod_pos_bound x sz SP). split.
      - f_equal. rewrite !Z2Nat.id by lia. unfold k. pose proof (Z.div_mod x sz ltac:(lia)). lia.
      - apply in_seq. lia. }
    exact (FB _ IX).
  Qed.
  Lemma elems_bytes h v : Forall (is_elem sz) (contents sz h v) -> 0 <= ve_size v ->
    Forall (fun b => 0 <= b < 256) (read_bytes (h_mem h) (ve_data v) (Z.to_nat (ve_size v * sz))).
  Proof.
    intros F S. apply Forall_forall. intros y Y. unfold read_bytes in Y. apply in_map_iff in Y. destruct Y as (j & <- & J). apply in_seq in J.
    apply elem_bytes; [exact F|lia].
  Qed.
End Vec.

(** Lemmas for a heap shared by threads. *)
From Verif Require Export HeapShareSpec HeapProofs4.

(** One thread running by itself. *)
Inductive goes (c : cfg) : heap -> code -> list (hcall * Z) -> heap -> code -> Prop :=
| goes_here h d : goes c h d [] h d
| goes_on h d h1 d1 o os h2 d2 :
    tstep c h d = Ok (h1, d1, o) -> goes c h1 d1 os h2 d2 -> goes c h d (o ++ os) h2 d2.

Lemma goes_trans c h d o h1 d1 o1 h2 d2 :
  goes c h d o h1 d1 -> goes c h1 d1 o1 h2 d2 -> goes c h d (o ++ o1) h2 d2.
Proof.
  induction 1; intros G; [exact G|]. rewrite <- app_assoc. eapply goes_on; [eassumption|auto].
Qed.
Lemma goes_trans0 c h d h1 d1 o1 h2 d2 :
  goes c h d [] h1 d1 -> goes c h1 d1 o1 h2 d2 -> goes c h d o1 h2 d2.
Proof. intros A B. exact (goes_trans _ _ _ _ _ _ _ _ _ A B). Qed.

Section Steps.
  Variable c : cfg.
  Lemma goes_rd h a k v o h' d' : load c (h_mem h) a = Ok v -> goes c h (k v) o h' d' -> goes c h (Rd a k) o h' d'.
  Proof. intros E G. apply (goes_on c h (Rd a k) h (k v) [] o h' d'); [cbn; rewrite E; reflexivity|exact G]. Qed.
  Lemma goes_wr h a v k m o h' d' :
    store c (h_mem h) a v = Ok m -> goes c (set_mem h m) k o h' d' -> goes c h (Wr a v k) o h' d'.
  Proof. intros E G. apply (goes_on c h (Wr a v k) (set_mem h m) k [] o h' d'); [cbn; rewrite E; reflexivity|exact G]. Qed.
  Lemma goes_get h f k o h' d' : goes c h (k (get h f)) o h' d' -> goes c h (Get f k) o h' d'.
  Proof. intros G. apply (goes_on c h (Get f k) h (k (get h f)) [] o h' d'); [reflexivity|exact G]. Qed.
  Lemma goes_put h f v k o h' d' : goes c (put h f v) k o h' d' -> goes c h (Put f v k) o h' d'.
  Proof. intros G. apply (goes_on c h (Put f v k) (put h f v) k [] o h' d'); [reflexivity|exact G]. Qed.
  Lemma goes_end h k o h' d' : goes c h (k (h_end h)) o h' d' -> goes c h (End k) o h' d'.
  Proof. intros G. apply (goes_on c h (End k) h (k (h_end h)) [] o h' d'); [reflexivity|exact G]. Qed.
  Lemma goes_cb h k o h' d' : goes c h (k (h_cb h)) o h' d' -> goes c h (Cb k) o h' d'.
  Proof. intros G. apply (goes_on c h (Cb k) h (k (h_cb h)) [] o h' d'); [reflexivity|exact G]. Qed.
  Lemma goes_fire h k o h' d' : goes c (fire h) k o h' d' -> goes c h (Fire k) o h' d'.
  Proof. intros G. apply (goes_on c h (Fire k) (fire h) k [] o h' d'); [reflexivity|exact G]. Qed.
  Lemma goes_out h x r k o h' d' : goes c h k o h' d' -> goes c h (Out x r k) ((x, r) :: o) h' d'.
  Proof. intros G. apply (goes_on c h (Out x r k) h k [(x, r)] o h' d'); [reflexivity|exact G]. Qed.
End Steps.

(** ** schedules *)
Lemma set_code_same l i d : nth_error l i = Some d -> set_code l i d = l.
Proof.
  revert i; induction l as [|x l IH]; intros [|i]; cbn; try discriminate; [intros [= ->]; reflexivity|].
  intros E. rewrite IH by exact E. reflexivity.
Qed.
Lemma set_code_set l i d e : set_code (set_code l i d) i e = set_code l i e.
Proof. revert i; induction l as [|x l IH]; intros [|i]; cbn; try reflexivity. rewrite IH. reflexivity. Qed.
Lemma set_code_nth l i d x : nth_error l i = Some x -> nth_error (set_code l i d) i = Some d.
Proof. revert i; induction l as [|y l IH]; intros [|i]; cbn; try discriminate; auto. Qed.
Lemma set_code_other l i j d : i <> j -> nth_error (set_code l i d) j = nth_error l j.
Proof. revert i j; induction l as [|y l IH]; intros [|i] [|j] N; cbn; try reflexivity; try congruence. apply IH. congruence. Qed.

Lemma hrun_app c w s1 s2 w1 : hrun c w s1 = Ok w1 -> hrun c w (s1 ++ s2) = hrun c w1 s2.
Proof.
  revert w; induction s1 as [|i s1 IH]; intros w; cbn [hrun app]; [intros [= ->]; reflexivity|].
  destruct (hstep c w i); cbn [bind]; try discriminate. apply IH.
Qed.

Definition by_thread (i : nat) (o : list (hcall * Z)) : list (nat * hcall * Z) := map (fun e => (i, fst e, snd e)) o.

Lemma goes_sched c h d o h' d' : goes c h d o h' d' ->
  forall thr log i, nth_error thr i = Some d ->
  exists sched, hrun c (HW h thr log) sched = Ok (HW h' (set_code thr i d') (log ++ by_thread i o)).
Proof.
  induction 1 as [h d|h d h1 d1 o os h2 d2 E _ IH]; intros thr log i N.
  - exists []. cbn. rewrite set_code_same, app_nil_r by exact N. reflexivity.
  - destruct (IH (set_code thr i d1) (log ++ by_thread i o) i (set_code_nth _ _ _ _ N)) as (s & R).
    exists (i :: s). cbn [hrun]. unfold hstep. cbn [w_threads w_heap w_log]. rewrite N, E. cbn [bind].
    fold (by_thread i o). rewrite R. f_equal. rewrite set_code_set. f_equal.
    unfold by_thread. rewrite map_app, app_assoc. reflexivity.
Qed.

(** ** a call made alone *)
Lemma find_goes c h w k fuel : forall prev blk p b,
  find_block fuel c (h_mem h) prev blk w = Ok (p, b) -> goes c h (find_code fuel prev blk w k) [] h (k p b).
Proof.
  induction fuel as [|f IH]; intros prev blk p b; cbn [find_block find_code]; [discriminate|].
  unfold ld_size, ld_next. destruct (load c (h_mem h) (blk + 8)) as [s| |] eqn:E1; cbn [bind]; try discriminate.
  intros H. eapply goes_rd; [exact E1|]. cbv beta.
  destruct (s <? w); [|injection H as <- <-; apply goes_here].
  destruct (load c (h_mem h) blk) as [nx| |] eqn:E2; cbn [bind] in H; try discriminate.
  eapply goes_rd; [exact E2|]. cbv beta.
  destruct (negb (nx =? heap_protect_block_pointer 0)); [|injection H as <- <-; apply goes_here].
  eapply goes_rd; [exact E2|]. apply IH, H.
Qed.

Ltac bd H :=
  match type of H with
  | context [load ?c ?m ?a] => let E := fresh "E" in let v := fresh "v" in
      destruct (load c m a) as [v| |] eqn:E; cbn [bind] in H; try discriminate H
  | context [store ?c ?m ?a ?x] => let E := fresh "E" in let v := fresh "m" in
      destruct (store c m a x) as [v| |] eqn:E; cbn [bind] in H; try discriminate H
  end.
Ltac go := match goal with
  | |- goes _ _ (Rd _ _) _ _ _ => eapply goes_rd; [eassumption|]; cbv beta
  | |- goes _ _ (Wr _ _ _) _ _ _ => eapply goes_wr; [eassumption|]
  | |- goes _ _ (Get _ _) _ _ _ => apply goes_get; cbv beta
  | |- goes _ _ (Put _ _ _) _ _ _ => apply goes_put
  | |- goes _ _ (End _) _ _ _ => apply goes_end; cbv beta
  | |- goes _ _ (Cb _) _ _ _ => apply goes_cb; cbv beta
  end.

Lemma take_goes c h prev blk w k h' ret nx :
  load c (h_mem h) prev = Ok nx ->
  take_block c h prev blk w = Ok (h', ret) ->
  ret = u64 (heap_protect_block_pointer nx + x_heap_struct_size) /\
  goes c h (take_code prev blk w k) [] h' k.
Proof.
  intros E0. unfold take_block, take_code, ld_next, ld_size, st_next, st_size. intros H.
  rewrite E0 in H. cbn [bind] in H. bd H. bd H. bd H.
  destruct (heap_minimum_block_size <? u64 (v0 - w)) eqn:SP.
  - bd H. bd H. bd H. bd H. bd H. bd H. unfold heap_allocate_block, ld_size, st_size in H.
    rewrite E8 in H. cbn [bind] in H. bd H. bd H.
    injection H as <- <-. split; [reflexivity|].
    repeat go. rewrite SP. repeat go. cbn [get put set_mem h_free h_min h_mem].
    destruct (_ <? h_min h); repeat go; cbn [get put set_mem h_mem h_end h_free h_min h_allocs h_frees h_cb h_fired]; apply goes_here.
  - cbn [bind] in H. unfold heap_allocate_block, ld_size, st_size in H.
    rewrite !E2 in H. cbn [bind] in H. bd H. bd H.
    injection H as <- <-. split; [reflexivity|].
    repeat go. rewrite SP. repeat go. cbn [get put set_mem h_free h_min h_mem].
    destruct (_ <? h_min h); repeat go; cbn [get put set_mem h_mem h_end h_free h_min h_allocs h_frees h_cb h_fired]; apply goes_here.
Qed.

Lemma alloc_goes c h n k h' r :
  allocate c h n = Ok (h', r) -> goes c h (alloc_code (walk_fuel c) (c_xs c) n k) [] h' (k r).
Proof.
  unfold allocate. destruct (allocate_core c h (adjust n)) as [[h1 r1]| |] eqn:EC; cbn [bind]; try discriminate.
  intros H.
  assert (FIN : goes c h1 (Cb (fun cb => if (r1 =? 0) && cb then Fire (k r1) else k r1)) [] h' (k r)).
  { apply goes_cb. destruct ((r1 =? 0) && h_cb h1); injection H as <- <-; [apply goes_fire|]; apply goes_here. }
  clear H. revert EC. unfold allocate_core, alloc_code. set (w := adjust n).
  destruct (heap_block_size_is_valid w); [|intros [= <- <-]; exact FIN].
  destruct (0 <? w); cbn [andb]; [|intros [= <- <-]; exact FIN].
  intros EC. go. cbn [get]. destruct (w <=? h_free h); [|injection EC as <- <-; exact FIN].
  unfold ld_next in EC. bd EC.
  destruct (find_block _ _ _ _ _ _) as [[p b]| |] eqn:EF in EC; cbn [bind] in EC; try discriminate.
  go. eapply goes_trans0; [apply find_goes, EF|]. cbv beta. go.
  destruct (negb (b =? h_end h)); [|injection EC as <- <-; exact FIN].
  assert (L : exists nx, load c (h_mem h) p = Ok nx).
  { unfold take_block, ld_next in EC. destruct (load c (h_mem h) p); cbn [bind] in EC; try discriminate. eauto. }
  destruct L as (nx & L). go.
  destruct (take_goes c h p b w (Cb (fun cb => if (u64 (heap_protect_block_pointer nx + x_heap_struct_size) =? 0) && cb
      then Fire (k (u64 (heap_protect_block_pointer nx + x_heap_struct_size)))
      else k (u64 (heap_protect_block_pointer nx + x_heap_struct_size)))) h1 r1 nx L EC) as [-> G].
  eapply goes_trans0; [exact G|exact FIN].
Qed.

Lemma pos_goes c h blk k fuel : forall it x,
  find_pos fuel c (h_mem h) it blk = Ok x -> goes c h (pos_code fuel it blk k) [] h (k x).
Proof.
  induction fuel as [|f IH]; intros it x; cbn [find_pos pos_code]; [discriminate|].
  unfold ld_next. destruct (load c (h_mem h) it) as [nx| |] eqn:E; cbn [bind]; try discriminate.
  intros H. go. destruct (_ <? blk); [|injection H as <-; apply goes_here]. go. apply IH, H.
Qed.

Lemma insert_goes c h blk0 k m :
  prv_insert_block_into_free_list c (h_mem h) (h_end h) blk0 = Ok m ->
  goes c h (insert_code (walk_fuel c) (c_xs c) blk0 k) [] (set_mem h m) k.
Proof.
  unfold prv_insert_block_into_free_list, insert_code.
  destruct (find_pos _ _ _ _ _) as [it| |] eqn:EP; cbn [bind]; try discriminate.
  intros H. eapply goes_trans0; [apply pos_goes, EP|]. cbv beta.
  unfold ld_size, ld_next, st_size, st_next in H. bd H. go.
  (* the part after the first merge *)
  assert (SECOND : forall h0 blk, h_end h0 = h_end h ->
    (sb <- load c (h_mem h0) (blk + 8) ;;
     nx <- load c (h_mem h0) it ;;
     m0 <- (if u64 (blk + sb) =? heap_protect_block_pointer nx then
          if negb (heap_protect_block_pointer nx =? h_end h) then
            sn <- load c (h_mem h0) (heap_protect_block_pointer nx + 8) ;;
            m0 <- store c (h_mem h0) (blk + 8) (u64 (sb + sn)) ;;
            nx2 <- load c m0 it ;;
            nn <- load c m0 (heap_protect_block_pointer nx2) ;;
            store c m0 blk nn
          else store c (h_mem h0) blk (heap_protect_block_pointer (h_end h))
        else store c (h_mem h0) blk nx) ;;
     if negb (it =? blk) then store c m0 it (heap_protect_block_pointer blk) else Ok m0) = Ok m ->
    goes c h0 (Rd (blk + 8) (fun sb => Rd it (fun nx =>
      if u64 (blk + sb) =? heap_protect_block_pointer nx then
        Rd it (fun nx1 => End (fun e =>
        if negb (heap_protect_block_pointer nx1 =? e) then
          Rd it (fun nx2 => Rd (heap_protect_block_pointer nx2 + 8) (fun sn => Rd (blk + 8) (fun s1 =>
          Wr (blk + 8) (u64 (s1 + sn)) (
          Rd it (fun nx3 => Rd (heap_protect_block_pointer nx3) (fun nn =>
          Wr blk nn (if negb (it =? blk) then Wr it (heap_protect_block_pointer blk) k else k)))))))
        else End (fun e => Wr blk (heap_protect_block_pointer e) (if negb (it =? blk) then Wr it (heap_protect_block_pointer blk) k else k))))
      else Rd it (fun nx1 => Wr blk nx1 (if negb (it =? blk) then Wr it (heap_protect_block_pointer blk) k else k)))))
      [] (set_mem h0 m) k).
  { clear. intros h0 blk EE H. bd H. bd H. go. go.
    destruct (u64 (blk + v) =? heap_protect_block_pointer v0).
    - go. go. rewrite EE. destruct (negb (heap_protect_block_pointer v0 =? h_end h)).
      + bd H. bd H. bd H. bd H. bd H. repeat go.
        destruct (negb (it =? blk)); [go|injection H as <-]; apply goes_here.
      + bd H. go. rewrite EE. go. destruct (negb (it =? blk)); [go|injection H as <-]; apply goes_here.
    - bd H. repeat go. destruct (negb (it =? blk)); [go|injection H as <-]; apply goes_here. }
  destruct (u64 (it + v) =? blk0).
  - bd H. bd H. repeat go. exact (SECOND (set_mem h m0) it eq_refl H).
  - cbn [bind] in H. exact (SECOND h blk0 eq_refl H).
Qed.

Lemma free_goes c h p k h' :
  deallocate c h p = Ok h' -> goes c h (free_code (walk_fuel c) (c_xs c) p k) [] h' k.
Proof.
  unfold deallocate, free_code. destruct (p =? 0); [intros [= <-]; apply goes_here|].
  set (link := u64 (p - x_heap_struct_size)). unfold heap_block_is_allocated, ld_size, ld_next. intros H. bd H. go.
  destruct (negb (Z.land v heap_block_allocated_bitmask =? 0)); [|injection H as <-; apply goes_here].
  bd H. go. destruct (v0 =? heap_protect_block_pointer 0); [|injection H as <-; apply goes_here].
  unfold heap_free_block, ld_size, st_size in H. rewrite E in H. cbn [bind] in H. bd H. bd H.
  go. go. go. go. go.
  destruct (prv_insert_block_into_free_list _ _ _ _) as [m1| |] eqn:EI in H; cbn [bind] in H; try discriminate.
  injection H as <-. eapply goes_trans0; [apply insert_goes; exact EI|]. repeat go. apply goes_here.
Qed.

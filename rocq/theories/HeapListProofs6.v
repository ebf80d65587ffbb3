From Coq Require Import Permutation.
From Verif Require Export HeapListProofs5.

(** ** sequences *)
Lemma before_split p e s1 y s2 : ~ In p (map fst s1) -> insert_before p e (s1 ++ (p, y) :: s2) = s1 ++ e :: (p, y) :: s2.
Proof.
  induction s1 as [|[q z] s1 IH]; cbn [app insert_before map fst In]; intros N.
  - rewrite Z.eqb_refl. reflexivity.
  - destruct (Z.eqb_spec q p); [exfalso; apply N; auto|]. rewrite IH by (intros H; apply N; auto). reflexivity.
Qed.
Lemma before_end p e s : ~ In p (map fst s) -> insert_before p e s = s ++ [e].
Proof.
  induction s as [|[q z] s IH]; cbn [app insert_before map fst In]; intros N; [reflexivity|].
  destruct (Z.eqb_spec q p); [exfalso; apply N; auto|]. rewrite IH by (intros H; apply N; auto). reflexivity.
Qed.
Lemma filter_none (p : Z) (s : list (Z * elem)) : ~ In p (map fst s) -> filter (fun y => negb (fst y =? p)) s = s.
Proof.
  induction s as [|[q z] s IH]; cbn [filter map fst In]; intros N; [reflexivity|].
  destruct (Z.eqb_spec q p); [exfalso; apply N; auto|]. cbn. rewrite IH by (intros H; apply N; auto). reflexivity.
Qed.
Lemma set_none (p : Z) (x : elem) (s : list (Z * elem)) : ~ In p (map fst s) -> map (fun y => if fst y =? p then (p, x) else y) s = s.
Proof.
  induction s as [|[q z] s IH]; cbn [map fst In]; intros N; [reflexivity|].
  destruct (Z.eqb_spec q p); [exfalso; apply N; auto|]. rewrite IH by (intros H; apply N; auto). reflexivity.
Qed.
Lemma nodup_split (p : Z) (y : elem) s1 s2 : NoDup (map fst (s1 ++ (p, y) :: s2)) -> ~ In p (map fst s1) /\ ~ In p (map fst s2).
Proof.
  rewrite map_app. cbn [map fst]. intros ND. apply NoDup_remove_2 in ND. split; intros H; apply ND, in_or_app; auto.
Qed.
Lemma split_at p (s : list (Z * elem)) : In p (map fst s) -> exists s1 y s2, s = s1 ++ (p, y) :: s2.
Proof. intros H. apply in_map_iff in H. destruct H as ([q y] & E & H). cbn in E. subst q. apply in_split in H. destruct H as (s1 & s2 & ->). eauto. Qed.

Section HList.
  Variable c : cfg.
  Variable sz : Z.
  Hypothesis PL : placed c.
  Hypothesis RM : roomy c.
  Hypothesis SP : 0 < sz.
  Hypothesis SB : node_size sz < 2 ^ 63.
  Notation word := (word c).
  Notation ns := (node_size sz).
  Notation linv := (linv c sz).
  Notation list_ok := (list_ok c sz).

  Definition result_ok (w : lheap) (l : list held) (k : lcmd) (r : lret) : Prop :=
    match k with
    | LErase i p => exists a s1 x s2, nth_error (lh_lists w) i = Some a /\ forwards c sz w a = s1 ++ (p, x) :: s2 /\ r = LIter (hd a (map fst s2))
    | LInsert _ _ _ | LPushBack _ _ | LPushFront _ _ => r = LBadAlloc \/ exists n, r = LIter n /\ ~ In n (map hd_ptr l)
    | LOther _ => exists p, r = LGot p
    | _ => r = LDone
    end.
  Definition lfine (w : lheap) (l lo : list held) (ss : list (list (Z * elem))) (k : lcmd) : Prop :=
    exists w' r l', lstep c sz w k = Ok (w', r) /\
      linv w' l' (lothers lo k r (free_heap_size (lh_heap w)) (free_heap_size (lh_heap w'))) (on_seqs ss k r) /\
      (r = LBadAlloc <-> needs_node k = true /\ ~ exists z, free_window c l z ns) /\
      (lmissing r = true -> unchanged (lh_heap w) (lh_heap w') /\ lh_words w' = lh_words w /\ lh_lists w' = lh_lists w) /\
      (lis_other k = false -> forall d z, In d lo -> hd_ptr d <= z < hd_ptr d + hd_req d -> h_mem (lh_heap w') z = h_mem (lh_heap w) z) /\
      result_ok w l k r.

  Lemma insert_fine w l lo ss k i a s1 s2 pos Y x : linv w l lo ss -> nth_error (lh_lists w) i = Some a -> nth_error ss i = Some (s1 ++ s2) ->
    addrs s2 ++ [a] = pos :: Y -> is_elem sz x -> lstep c sz w k = insert_node c sz w a pos x -> needs_node k = true ->
    (forall n, ~ In n (map hd_ptr l) -> on_seqs ss k (LIter n) = update ss i (s1 ++ (n, x) :: s2)) -> lfine w l lo ss k.
  Proof.
    intros I EA ES EY EX EK NN EN. destruct (insert_ok c sz PL RM SP SB w l lo ss i a s1 s2 pos Y x I EA ES EY EX) as (w' & r & E & H).
    assert (EB : on_seqs ss k LBadAlloc = ss) by (destruct k; try discriminate NN; reflexivity).
    assert (LO : forall r f0 f1, lothers lo k r f0 f1 = lo) by (intros; destruct k; try discriminate NN; reflexivity).
    destruct H as [(-> & NW & R' & U & HW & HL)|(n & b & -> & WIN & FR & BP & BQ & I' & HL & KL)].
    - exists w', LBadAlloc, l. rewrite EK, LO, EB. split; [exact E|]. split.
      { pose proof (linv_refused c sz PL RM SP w l lo ss (lh_heap w') I R' U) as I'. rewrite <- HW, <- HL in I'. destruct w'; exact I'. }
      split; [split; auto|]. split; [auto|]. split; [intros _ d z _ _; apply U|]. destruct k; try discriminate NN; left; reflexivity.
    - exists w', (LIter n), (b :: l). rewrite EK, LO, (EN n FR). split; [exact E|]. split; [exact I'|]. split; [split; [discriminate|intros [_ N]; contradiction]|].
      split; [discriminate|]. split; [intros _; exact KL|]. destruct k; try discriminate NN; right; exists n; auto.
  Qed.

  Lemma last_word w h t p x a : links (word w) (h :: addrs (t ++ [(p, x)])) (addrs (t ++ [(p, x)]) ++ [a]) -> word w (a + 8) = p.
  Proof.
    unfold addrs. rewrite map_app. cbn [map fst]. fold (addrs t). intros H.
    assert (L : length (h :: addrs t) = length (addrs t ++ [p])) by (rewrite app_length; cbn; lia).
    change (h :: addrs t ++ [p]) with ((h :: addrs t) ++ [p]) in H. apply links_app in H; [|exact L]. destruct H as [_ H2].
    destruct (links_cons _ _ _ _ _ H2) as [[_ H3] _]. exact H3.
  Qed.

  Lemma lfine_step w l lo ss k : linv w l lo ss -> lpermitted c sz w lo k -> lfine w l lo ss k.
  Proof.
    intros I P. pose proof (li_reach _ _ _ _ _ _ I) as R.
    assert (AT : forall i, (i < length (lh_lists w))%nat -> exists a, nth_error (lh_lists w) i = Some a).
    { intros i L. destruct (nth_error (lh_lists w) i) as [a|] eqn:E; [eauto|]. apply nth_error_None in E. lia. }
    assert (NTH : forall i s, nth_error ss i = Some s -> nth i ss [] = s) by (intros i s E; apply nth_error_nth; exact E).
    assert (OWN : forall i a, nth_error (lh_lists w) i = Some a -> owned c w l a /\ owned c w l (a + 8)).
    { intros i a EA. assert (CA : cell c sz w l a) by (right; exists i; split; [exact EA|exact (li_places _ _ _ _ _ _ I i a EA)]).
      split; [rewrite <- (Z.add_0_r a)|]; apply (cell_owned c sz PL RM SP w l a); auto. }
    assert (FST : forall i a, nth_error (lh_lists w) i = Some a -> word w a = hd a (addrs (forwards c sz w a))).
    { intros i a EA. pose proof (linv_at c sz w l lo ss i a I EA) as ES. apply (links_chain _ a _ a (lk_links _ _ _ _ _ _ (li_ok _ _ _ _ _ _ I i a _ EA ES))). }
    assert (ND : forall i a s, nth_error (lh_lists w) i = Some a -> nth_error ss i = Some s -> NoDup (a :: map fst s)) by (intros i a s; exact (list_nodup c sz PL RM SP w l lo ss i a s I)).
    destruct k as [a|i|i p x|i x|i x|i p|i|i|i p x|i|o]; cbn [lpermitted] in P.
    - destruct (linv_new c sz PL RM SP w l lo ss a I P) as (w' & E & I' & HH).
      exists w', LDone, l. cbn [lstep]. rewrite E. cbn [bind lothers on_seqs]. split; [reflexivity|]. split; [exact I'|].
      split; [split; [discriminate|intros [D _]; discriminate D]|]. split; [discriminate|]. split; [intros _ d z _ _; rewrite HH; reflexivity|reflexivity].
    - destruct (AT i P) as [a EA]. pose proof (linv_at c sz w l lo ss i a I EA) as ES.
      destruct (clear_ok c sz PL RM SP w l lo ss i a _ I EA ES) as (w' & l' & E & I' & HL & _ & KL).
      exists w', LDone, l'. cbn [lstep]. unfold on_list. rewrite EA, E. cbn [lothers on_seqs]. split; [reflexivity|]. split; [exact I'|].
      split; [split; [discriminate|intros [D _]; discriminate D]|]. split; [discriminate|]. split; [intros _; exact KL|reflexivity].
    - destruct P as [EX [(a & EA & IN)|EA]].
      + pose proof (linv_at c sz w l lo ss i a I EA) as ES. destruct (split_at p _ IN) as (s1 & y & s2 & ESP). rewrite ESP in ES.
        pose proof (ND i a _ EA ES) as N. apply NoDup_cons_iff in N. destruct (nodup_split p y s1 s2 (proj2 N)) as [N1 _].
        apply (insert_fine w l lo ss (LInsert i p x) i a s1 ((p, y) :: s2) p (addrs s2 ++ [a]) x I EA ES eq_refl EX); [cbn [lstep]; unfold on_list; rewrite EA; reflexivity|reflexivity|].
        intros n _. cbn [on_seqs]. rewrite (NTH i _ ES), before_split by exact N1. reflexivity.
      + pose proof (linv_at c sz w l lo ss i p I EA) as ES. pose proof (ND i p _ EA ES) as N. apply NoDup_cons_iff in N. destruct N as [N _].
        apply (insert_fine w l lo ss (LInsert i p x) i p (forwards c sz w p) [] p [] x I EA ltac:(rewrite app_nil_r; exact ES) eq_refl EX); [cbn [lstep]; unfold on_list; rewrite EA; reflexivity|reflexivity|].
        intros n _. cbn [on_seqs]. rewrite (NTH i _ ES), before_end by exact N. reflexivity.
    - destruct P as [PI EX]. destruct (AT i PI) as [a EA]. pose proof (linv_at c sz w l lo ss i a I EA) as ES.
      apply (insert_fine w l lo ss (LPushBack i x) i a (forwards c sz w a) [] a [] x I EA ltac:(rewrite app_nil_r; exact ES) eq_refl EX); [cbn [lstep]; unfold on_list; rewrite EA; reflexivity|reflexivity|].
      intros n _. cbn [on_seqs]. rewrite (NTH i _ ES). reflexivity.
    - destruct P as [PI EX]. destruct (AT i PI) as [a EA]. pose proof (linv_at c sz w l lo ss i a I EA) as ES.
      destruct (after_place a (addrs (forwards c sz w a))) as (pos & Y & EY & _).
      apply (insert_fine w l lo ss (LPushFront i x) i a [] (forwards c sz w a) pos Y x I EA ES EY EX); [|reflexivity|].
      + cbn [lstep]. unfold on_list. rewrite EA, (get_ok c PL RM w l a R (proj1 (OWN i a EA))), (FST i a EA). cbn [bind].
        replace (hd a (addrs (forwards c sz w a))) with pos; [reflexivity|]. destruct (addrs (forwards c sz w a)) as [|q t]; cbn in EY |- *; congruence.
      + intros n _. cbn [on_seqs]. rewrite (NTH i _ ES). reflexivity.
    - destruct P as (a & EA & IN). pose proof (linv_at c sz w l lo ss i a I EA) as ES. destruct (split_at p _ IN) as (s1 & y & s2 & ESP).
      assert (ES' := ES). rewrite ESP in ES'. pose proof (ND i a _ EA ES') as N. apply NoDup_cons_iff in N. destruct (nodup_split p y s1 s2 (proj2 N)) as [N1 N2].
      destruct (after_place a (addrs s2)) as (q & Y & EY & _).
      destruct (erase_ok c sz PL RM SP w l lo ss i a s1 s2 p y q Y I EA ES' EY) as (w' & l' & E & I' & HL & _ & KL).
      exists w', (LIter q), l'. cbn [lstep]. unfold on_list. rewrite EA, E. cbn [lothers on_seqs]. split; [reflexivity|]. split.
      { rewrite (NTH i _ ES'), filter_app, filter_none by exact N1. cbn [filter fst]. rewrite Z.eqb_refl. cbn [negb]. rewrite filter_none by exact N2. exact I'. }
      split; [split; [discriminate|intros [D _]; discriminate D]|]. split; [discriminate|]. split; [intros _; exact KL|].
      exists a, s1, y, s2. split; [exact EA|]. split; [exact ESP|]. f_equal. change (map fst s2) with (addrs s2). destruct (addrs s2); cbn in EY |- *; congruence.
    - destruct P as (p0 & a & EA & IN). pose proof (linv_at c sz w l lo ss i a I EA) as ES.
      assert (NE : forwards c sz w a <> []) by (intros E; rewrite E in IN; destruct IN).
      destruct (exists_last NE) as (t & [p y] & ESP). assert (ES' := ES). rewrite ESP in ES'.
      destruct (erase_ok c sz PL RM SP w l lo ss i a t [] p y a [] I EA ES' eq_refl) as (w' & l' & E & I' & HL & _ & KL). rewrite app_nil_r in I'.
      exists w', LDone, l'. cbn [lstep]. unfold on_list. rewrite EA, (get_ok c PL RM w l _ R (proj2 (OWN i a EA))).
      rewrite (last_word w a t p y a (lk_links _ _ _ _ _ _ (li_ok _ _ _ _ _ _ I i a _ EA ES'))). cbn [bind]. rewrite E. cbn [bind lothers on_seqs]. split; [reflexivity|]. split.
      { rewrite (NTH i _ ES'), removelast_last. exact I'. }
      split; [split; [discriminate|intros [D _]; discriminate D]|]. split; [discriminate|]. split; [intros _; exact KL|reflexivity].
    - destruct P as (p0 & a & EA & IN). pose proof (linv_at c sz w l lo ss i a I EA) as ES. pose proof (FST i a EA) as EF.
      destruct (forwards c sz w a) as [|[p y] t] eqn:ESP; [destruct IN|]. cbn [addrs map fst hd] in EF.
      destruct (after_place a (addrs t)) as (q & Y & EY & _).
      destruct (erase_ok c sz PL RM SP w l lo ss i a [] t p y q Y I EA ES EY) as (w' & l' & E & I' & HL & _ & KL). cbn [app] in I'.
      exists w', LDone, l'. cbn [lstep]. unfold on_list. rewrite EA, (get_ok c PL RM w l _ R (proj1 (OWN i a EA))), EF. cbn [bind]. rewrite E. cbn [bind lothers on_seqs].
      split; [reflexivity|]. split; [rewrite (NTH i _ ES); exact I'|].
      split; [split; [discriminate|intros [D _]; discriminate D]|]. split; [discriminate|]. split; [intros _; exact KL|reflexivity].
    - destruct P as [(a & EA & IN) EX]. pose proof (linv_at c sz w l lo ss i a I EA) as ES. destruct (split_at p _ IN) as (s1 & y & s2 & ESP). rewrite ESP in ES.
      pose proof (ND i a _ EA ES) as N. apply NoDup_cons_iff in N. destruct (nodup_split p y s1 s2 (proj2 N)) as [N1 N2].
      destruct (set_ok c sz PL RM SP w l lo ss i a s1 s2 p y x I EA ES EX) as (h' & E & I' & F & KL).
      exists (LH h' (lh_words w) (lh_lists w)), LDone, l. cbn [lstep]. unfold on_list. rewrite EA, E. cbn [bind lothers on_seqs]. split; [reflexivity|]. split.
      { rewrite (NTH i _ ES), map_app, set_none by exact N1. cbn [map fst]. rewrite Z.eqb_refl, set_none by exact N2. exact I'. }
      split; [split; [discriminate|intros [D _]; discriminate D]|]. split; [discriminate|]. split; [intros _; exact KL|reflexivity].
    - destruct (AT i P) as [a EA]. pose proof (linv_at c sz w l lo ss i a I EA) as ES.
      destruct (clear_ok c sz PL RM SP w l lo ss i a _ I EA ES) as (w' & l' & E & I' & HL & _ & KL).
      exists w', LDone, l'. cbn [lstep]. unfold on_list. rewrite EA, E. cbn [lothers on_seqs]. split; [reflexivity|]. split; [exact I'|].
      split; [split; [discriminate|intros [D _]; discriminate D]|]. split; [discriminate|]. split; [intros _; exact KL|reflexivity].
    - destruct (linv_other c sz PL RM SP w l lo ss o I P) as (h' & p & A & I').
      exists (LH h' (lh_words w) (lh_lists w)), (LGot p), (hold l o p (free_heap_size (lh_heap w)) (free_heap_size h')).
      cbn [lstep]. rewrite A. cbn [bind lothers on_seqs lh_heap]. split; [reflexivity|]. split; [exact I'|].
      split; [split; [discriminate|intros [D _]; discriminate D]|]. split; [discriminate|]. split; [discriminate|exists p; reflexivity].
  Qed.

  Lemma lruns_inv w lo evs : lruns c sz w lo evs -> exists l, linv w l lo (on_seqs_all evs).
  Proof.
    induction 1 as [h0 words E|w lo evs k w' r RU [l I] P ST].
    - exists []. exact (linv_start c sz h0 words E).
    - destruct (lfine_step w l lo _ k I P) as (w1 & r1 & l1 & ST1 & V1 & _). rewrite ST in ST1. injection ST1 as <- <-.
      exists l1. unfold on_seqs_all in *. rewrite fold_left_app. exact V1.
  Qed.
  Lemma lruns_step w lo evs k : lruns c sz w lo evs -> lpermitted c sz w lo k -> exists l, linv w l lo (on_seqs_all evs) /\ lfine w l lo (on_seqs_all evs) k.
  Proof. intros RU P. destruct (lruns_inv w lo evs RU) as [l I]. exists l. split; [exact I|]. exact (lfine_step w l lo _ k I P). Qed.

  (** ** nothing is lost *)
  Lemma llo_nodup w lo evs : lruns c sz w lo evs -> NoDup (map hd_ptr lo).
  Proof.
    induction 1 as [h0 words E|w lo evs k w' r RU IH P ST]; [constructor|].
    destruct (lruns_inv w lo evs RU) as [l I].
    destruct k as [a|i|i p x|i x|i x|i p|i|i|i p x|i|o]; cbn [lothers]; try exact IH. destruct r as [| |p|p]; try exact IH.
    cbn [lstep] in ST. destruct (apply c (lh_heap w) o) as [[h' q]| |] eqn:A; cbn [bind] in ST; try discriminate. injection ST as <- <-. cbn [lh_heap] in *.
    assert (PLl : permitted l o).
    { pose proof (li_others _ _ _ _ _ _ I) as VO. cbn [lpermitted] in P. destruct o; cbn [permitted] in *; auto.
      - destruct P as [->|(b & B & E)]; [left; reflexivity|right; exists b; auto].
      - destruct P as [V (b & B & E)]. split; [exact V|exists b; auto]. }
    pose proof (reach_nodup c PL RM _ _ (reachable_step c _ l o h' q (li_reach _ _ _ _ _ _ I) PLl A)) as ND.
    assert (FREE : forall n, NoDup (map hd_ptr (Held q n (free_heap_size (lh_heap w) - free_heap_size h') :: l)) -> NoDup (map hd_ptr (Held q n (free_heap_size (lh_heap w) - free_heap_size h') :: lo))).
    { intros n N. cbn [map hd_ptr] in *. apply NoDup_cons_iff in N. destruct N as [N _]. constructor; [|exact IH].
      intros IN. apply N. apply in_map_iff in IN. destruct IN as (b & EB & B). rewrite <- EB. apply in_map. exact (li_others _ _ _ _ _ _ I b B). }
    destruct o as [n|n m|z| |z|a y]; cbn [hold] in *; try exact IH.
    - destruct (q =? 0); [exact IH|exact (FREE _ ND)].
    - destruct (q =? 0); [exact IH|exact (FREE _ ND)].
    - clear - IH. induction lo as [|b lo I]; [constructor|]. cbn [map] in IH. apply NoDup_cons_iff in IH. destruct IH as [NI IH]. cbn [filter].
      destruct (negb (hd_ptr b =? z)); [|exact (I IH)]. cbn [map]. constructor; [|exact (I IH)]. intros IN. apply NI.
      apply in_map_iff in IN. destruct IN as (b' & EB & B). apply filter_In in B. rewrite <- EB. apply in_map, B.
  Qed.
  Lemma list_total w lo evs h0 : lruns c sz w lo evs -> construct c = Ok h0 -> Forall (fun s => s = []) (on_seqs_all evs) ->
    free_heap_size (lh_heap w) + total_footprint lo = free_heap_size h0.
  Proof.
    intros RU E0 F. destruct (lruns_inv w lo evs RU) as [l I]. pose proof (llo_nodup w lo evs RU) as ND.
    pose proof (li_reach _ _ _ _ _ _ I) as R. destruct (accounting c PL RM _ l h0 R E0) as [AC _]. rewrite <- AC. f_equal.
    assert (PE : Permutation lo l).
    { apply NoDup_Permutation; [exact (NoDup_map_inv _ _ ND)|exact (NoDup_map_inv _ _ (reach_nodup c PL RM _ _ R))|].
      intros b. split; [exact (li_others _ _ _ _ _ _ I b)|]. intros B. destruct (li_all _ _ _ _ _ _ I b B) as [BO|(i & s & EI & EP)]; [exact BO|exfalso].
      rewrite Forall_forall in F. rewrite (F s (nth_error_In _ _ EI)) in EP. destruct EP. }
    unfold total_footprint. clear - PE. induction PE; cbn [map fold_right]; lia.
  Qed.
  Lemma ldrops n : forall w lo evs m, lruns c sz w lo evs -> (m + n = length (lh_lists w))%nat ->
    (forall i s, (i < m)%nat -> nth_error (on_seqs_all evs) i = Some s -> s = []) ->
    exists w' evs', lexec c sz w (map LDrop (seq m n)) = Ok (w', repeat LDone n) /\ lruns c sz w' lo evs' /\ Forall (fun s => s = []) (on_seqs_all evs').
  Proof.
    induction n as [|n IH]; intros w lo evs m RU LE EM; cbn [seq map lexec repeat].
    - exists w, evs. split; [reflexivity|]. split; [exact RU|]. apply Forall_forall. intros s V. apply In_nth_error in V. destruct V as [i E].
      apply (EM i s); [|exact E]. destruct (lruns_inv w lo evs RU) as [l I]. pose proof (li_len _ _ _ _ _ _ I). assert (i < length (on_seqs_all evs))%nat by (apply nth_error_Some; congruence). lia.
    - assert (P : lpermitted c sz w lo (LDrop m)) by (cbn; lia).
      destruct (lruns_step w lo evs (LDrop m) RU P) as (l & I & w1 & r & l1 & ST & I1 & _ & _ & _ & RO). cbn [result_ok] in RO. subst r.
      pose proof (lr_step c sz w lo evs _ w1 _ RU P ST) as RU1. cbn [lothers on_seqs] in RU1, I1.
      assert (EV : on_seqs_all (evs ++ [(LDrop m, LDone)]) = update (on_seqs_all evs) m []) by (unfold on_seqs_all; rewrite fold_left_app; reflexivity).
      pose proof (li_len _ _ _ _ _ _ I) as L0. pose proof (li_len _ _ _ _ _ _ I1) as L1. rewrite HeapListProofs.update_length in L1.
      destruct (IH w1 lo _ (1 + m)%nat RU1) as (w2 & evs2 & S3 & RU2 & F2).
      + lia.
      + intros i s L E. rewrite EV, HeapListProofs.update_nth in E by lia. destruct (Nat.eqb_spec i m); [congruence|]. apply (EM i s); [lia|exact E].
      + exists w2, evs2. rewrite ST. cbn [bind]. cbn [Nat.add] in S3. rewrite S3. cbn [bind]. auto.
  Qed.
End HList.

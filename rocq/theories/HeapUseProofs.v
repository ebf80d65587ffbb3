(** Lemmas about callbacks that use the heap. *)
From Coq Require Import Permutation.
From Verif Require Export HeapUseSpec HeapProofs7.

Lemma session_table c h l evs h' l' :
  session c h l evs h' l' -> l' = table (free_heap_size h) l evs.
Proof. induction 1 as [|h l o h1 r evs h2 l2 P A S IH]; [reflexivity|exact IH]. Qed.

Lemma session_app c h l e1 h1 l1 : session c h l e1 h1 l1 ->
  forall e2 h2 l2, session c h1 l1 e2 h2 l2 -> session c h l (e1 ++ e2) h2 l2.
Proof. induction 1; intros; cbn [app]; [assumption|]. econstructor; eauto. Qed.

Lemma session_one c h l o h1 r :
  permitted l o -> apply c h o = Ok (h1, r) ->
  session c h l [(o, r, free_heap_size h1)] h1 (hold l o r (free_heap_size h) (free_heap_size h1)).
Proof. intros. econstructor; [eassumption|eassumption|constructor]. Qed.

Section Use.
Context (c : cfg) (PL : placed c) (RM : roomy c).
Let G : geo c := placed_geo c PL RM.
Variable cb : list event -> hbody.
Variable h0 : heap.
Hypothesis C0 : construct c = Ok h0.
Hypothesis CB : forall t, polite c h0 t (cb t).

(** What a call, and its callbacks, does: it makes the corresponding plain session. *)
Definition plain (t : list event) (o : op) (x : res (heap * list event * Z)) : Prop :=
  match x with
  | Ok (h', t', r) => exists f rest l', t' = t ++ (o, r, f) :: rest /\ session c h0 [] t' h' l' /\
                            (rest = [] \/ refused o r)
  | UB => False
  | Fuel => True
  end.

Lemma snoc t h l o h1 r :
  session c h0 [] t h l -> permitted l o -> apply c h o = Ok (h1, r) ->
  session c h0 [] (t ++ [(o, r, free_heap_size h1)]) h1 (hold l o r (free_heap_size h) (free_heap_size h1)).
Proof. intros S P A. exact (session_app _ _ _ _ _ _ S _ _ _ (session_one _ _ _ _ _ _ P A)). Qed.

Lemma plain_snoc t h l o h1 r :
  session c h0 [] t h l -> permitted l o -> apply c h o = Ok (h1, r) ->
  plain t o (Ok (h1, t ++ [(o, r, free_heap_size h1)], r)).
Proof.
  intros S P A. exists (free_heap_size h1), [], (hold l o r (free_heap_size h) (free_heap_size h1)).
  split; [reflexivity|]. split; [exact (snoc _ _ _ _ _ _ S P A)|left; reflexivity].
Qed.

Lemma body_plain call :
  (forall h t l o, session c h0 [] t h l -> permitted l o -> (forall x, o <> OnFail x) -> plain t o (call h t o)) ->
  forall b h t l, session c h0 [] t h l -> polite c h0 t b ->
  match body_run call h t b with
  | Ok (h', t') => exists rest l', t' = t ++ rest /\ session c h0 [] t' h' l'
  | UB => False
  | Fuel => True
  end.
Proof.
  intros HC. induction b as [|o k IH]; intros h t l S P; cbn [body_run].
  - exists [], l. rewrite app_nil_r. auto.
  - cbn [polite] in P. destruct P as (P1 & P2 & P3). specialize (P1 h l S).
    specialize (HC h t l o S P1 P2). destruct (call h t o) as [[[h1 t1] r]| |]; cbn [bind plain] in *; auto.
    destruct HC as (f & rest & l1 & -> & S1 & RR).
    specialize (IH (t ++ (o, r, f) :: rest) h1 (t ++ (o, r, f) :: rest) l1 S1 (P3 _ _ _ RR)).
    destruct (body_run call h1 _ _) as [[h2 t2]| |]; auto.
    destruct IH as (rest2 & l2 & -> & S2). exists (((o, r, f) :: rest) ++ rest2), l2.
    split; [rewrite <- app_assoc; reflexivity|exact S2].
Qed.

Lemma exec_plain fuel : forall inside h t l o,
  session c h0 [] t h l -> permitted l o -> (inside = true -> forall x, o <> OnFail x) ->
  plain t o (exec c cb fuel inside h t o).
Proof.
  induction fuel as [|f IH]; intros inside h t l o S P NF; [exact Logic.I|].
  assert (I : inv c h l) by exact (inv_reachable c h l G (ex_intro _ h0 (ex_intro _ t (conj C0 S)))).
  assert (ALLOC : forall n (P' : permitted l o), is_size n ->
     (forall h1 r, allocate c h n = Ok (h1, r) -> r = 0 -> apply c h o = Ok (h1, 0)) ->
     match allocate_cb c cb (exec c cb f true) h t o n with
     | Ok (h', t', r) =>
         (r = 0 /\ exists ff rest l', t' = t ++ (o, r, ff) :: rest /\ session c h0 [] t' h' l') \/
         (r <> 0 /\ allocate c h n = Ok (h', r) /\ t' = t ++ [(o, r, free_heap_size h')])
     | UB => False
     | Fuel => True
     end).
  { intros n P' N AP. destruct (inv_alloc c h l n G I N) as (h1 & r & A & I1 & Z0 & NZ).
    unfold allocate in A. unfold allocate_cb, allocate in *.
    destruct (allocate_core c h (adjust n)) as [[h2 ret]| |]; cbn [bind] in *; try discriminate.
    destruct (Z.eqb_spec ret 0) as [E|E]; cbn [andb] in *.
    - subst ret. destruct (h_cb h2) eqn:CBE.
      + injection A as <- <-. specialize (AP _ _ eq_refl eq_refl).
        pose proof (snoc _ _ _ _ _ _ S P' AP) as S1.
        pose proof (body_plain (exec c cb f true)
                      (fun h t l o S P NF => IH true h t l o S P (fun _ => NF))
                      (cb (t ++ [(o, 0, free_heap_size (fire h2))])) _ _ _ S1 (CB _)) as B.
        destruct (body_run _ _ _ _) as [[h' t']| |]; cbn [bind] in *; auto.
        left. split; [reflexivity|]. destruct B as (rest & l' & -> & S2).
        exists (free_heap_size (fire h2)), rest, l'. split; [rewrite <- app_assoc; reflexivity|exact S2].
      + injection A as <- <-. specialize (AP _ _ eq_refl eq_refl).
        left. split; [reflexivity|]. exists (free_heap_size h2), [], (hold l o 0 (free_heap_size h) (free_heap_size h2)).
        split; [reflexivity|]. exact (snoc _ _ _ _ _ _ S P' AP).
    - injection A as <- <-. right. auto. }
  destruct o as [n|num size|p| |b|a v]; cbn [exec].
  - specialize (ALLOC n P P (fun h1 r A E => eq_trans A (f_equal (fun z => Ok (h1, z)) E))).
    destruct (allocate_cb _ _ _ _ _ _ _) as [[[h' t'] r]| |]; cbn [plain]; auto.
    destruct ALLOC as [[R0 (ff & rest & l' & X1 & X2)]|(_ & A & ->)].
    + exists ff, rest, l'. split; [exact X1|]. split; [exact X2|right; exact R0].
    + exact (plain_snoc t h l (Alloc n) h' r S P A).
  - destruct (heap_multiply_will_overflow num size) eqn:OV; cbn [negb].
    + apply (plain_snoc t h l (Calloc num size) h 0 S P).
      cbn [apply]. unfold callocate. rewrite OV. reflexivity.
    + assert (SZ : is_size (u64 (num * size))).
      { unfold is_size, u64. apply Z.mod_pos_bound. rewrite W64_val. lia. }
      specialize (ALLOC (u64 (num * size)) P SZ).
      assert (AP : forall h1 r, allocate c h (u64 (num * size)) = Ok (h1, r) -> r = 0 ->
                                apply c h (Calloc num size) = Ok (h1, 0)).
      { intros h1 r A ->. cbn [apply]. unfold callocate. rewrite OV, A. reflexivity. }
      specialize (ALLOC AP).
      destruct (allocate_cb _ _ _ _ _ _ _) as [[[h' t'] r]| |]; cbn [bind]; auto.
      destruct ALLOC as [[R0 (ff & rest & l' & X1 & X2)]|(NZ & A & ->)].
      { subst r. cbn [Z.eqb negb plain]. exists ff, rest, l'. split; [exact X1|]. split; [exact X2|right; reflexivity]. }
      destruct (Z.eqb_spec r 0) as [E|_]; [contradiction|]. cbn [negb].
      destruct P as [P1 P2]. destruct (inv_calloc c h l num size G I P1 P2) as (h1 & r1 & A1 & _).
      pose proof A1 as A2. unfold callocate in A1. rewrite OV, A in A1. cbn [bind negb] in A1.
      destruct (Z.eqb_spec r 0) as [E|_]; [contradiction|]. cbn [negb] in A1.
      destruct (memset0 c (h_mem h') r (u64 (num * size))) as [m| |]; cbn [bind] in *; try discriminate.
      injection A1 as <- <-.
      exact (plain_snoc t h l (Calloc num size) (set_mem h' m) r S (conj P1 P2) A2).
  - destruct (inv_apply c h l (Free p) G I P) as (h1 & r & A & _). rewrite A. cbn [bind].
    exact (plain_snoc _ _ _ _ _ _ S P A).
  - exact (plain_snoc t h l ResetMin (reset_minimum_ever_free_heap_size h) 0 S P eq_refl).
  - destruct inside; [exfalso; apply (NF eq_refl b); reflexivity|].
    exact (plain_snoc t h l (OnFail b) (on_fail h b) 0 S P eq_refl).
  - destruct (inv_apply c h l (Write a v) G I P) as (h1 & r & A & _). rewrite A. cbn [bind].
    exact (plain_snoc _ _ _ _ _ _ S P A).
Qed.

(** Whether the callback is set can be read off the history. *)
Lemma set_gen h l evs h' l' : session c h l evs h' l' -> inv c h l ->
  h_cb h' = fold_left (fun b (e : event) => match e with (OnFail x, _, _) => x | _ => b end) evs (h_cb h).
Proof.
  induction 1 as [|h l o h1 r evs h2 l2 P A S IH]; intros I; [reflexivity|].
  assert (I1 : inv c h1 (hold l o r (h_free h) (h_free h1))).
  { destruct (inv_apply c h l o G I P) as (h1' & r' & A' & I'). rewrite A in A'. injection A' as <- <-. exact I'. }
  rewrite (IH I1). cbn [fold_left]. f_equal. clear IH S I1.
  destruct o as [n|num size|p| |b|a v]; cbn [permitted apply] in *.
  - destruct (inv_alloc c h l n G I P) as (h' & r' & A1 & _ & Z0 & NZ).
    rewrite A in A1. injection A1 as <- <-. destruct (Z.eq_dec r 0) as [X|X].
    + rewrite (Z0 X). unfold fired. destruct (h_cb h) eqn:E; [exact E|exact E].
    + apply NZ, X.
  - destruct P as [P1 P2]. destruct (inv_calloc c h l num size G I P1 P2) as (h' & r' & A1 & _ & Z0 & NZ).
    rewrite A in A1. injection A1 as <- <-. destruct (Z.eq_dec r 0) as [X|X].
    + rewrite (Z0 X). destruct (num * size <? W64); [|reflexivity]. unfold fired. destruct (h_cb h) eqn:E; exact E.
    + apply NZ, X.
  - destruct P as [->|(b & BI & <-)].
    + cbn in A. injection A as <- _. reflexivity.
    + destruct (inv_free c h l b G I BI) as (h' & A1 & _ & _ & _ & _ & _ & CB' & _).
      rewrite A1 in A. cbn in A. injection A as <- _. exact CB'.
  - injection A as <- _. reflexivity.
  - injection A as <- _. reflexivity.
  - unfold client_write in A. destruct ((c_base c <=? a) && (a <? c_base c + c_size c)); [|discriminate].
    cbn in A. injection A as <- _. reflexivity.
Qed.
Lemma set_history t h l : session c h0 [] t h l -> h_cb h = callback_set t.
Proof.
  intros S. rewrite (set_gen _ _ _ _ _ S (inv_construct c h0 G C0)).
  destruct (construct_spec c G (g_size c G)) as (m & E' & _). rewrite C0 in E'. injection E' as ->. reflexivity.
Qed.

Lemma core_cb h l n h1 r : inv c h l -> is_size n -> allocate_core c h (adjust n) = Ok (h1, r) -> h_cb h1 = h_cb h.
Proof.
  intros I N E. destruct (inv_alloc c h l n G I N) as (h' & r' & A & _ & Z0 & NZ). unfold allocate in A. rewrite E in A. cbn [bind] in A.
  destruct (Z.eqb_spec r 0) as [X|X]; cbn [andb] in A.
  - destruct (h_cb h1) eqn:CE; injection A as <- <-; specialize (Z0 X); unfold fired in Z0; destruct (h_cb h) eqn:CH; try reflexivity.
    + apply (f_equal h_cb) in Z0. cbn in Z0. congruence.
    + apply (f_equal h_cb) in Z0. cbn in Z0. congruence.
  - injection A as <- <-. apply NZ, X.
Qed.

Definition follows (t : list event) (o : op) (x : res (heap * list event * Z)) : Prop :=
  match x with
  | Ok (_, t', r) => exists f rest, t' = t ++ (o, r, f) :: rest /\ reacts cb t (o, r, f) rest
  | _ => True
  end.
Lemma body_follows call :
  (forall h t l o, session c h0 [] t h l -> permitted l o -> (forall x, o <> OnFail x) -> plain t o (call h t o) /\ follows t o (call h t o)) ->
  forall b h t l, session c h0 [] t h l -> polite c h0 t b ->
  match body_run call h t b with
  | Ok (_, t') => exists rest, t' = t ++ rest /\ plays cb t b rest
  | _ => True
  end.
Proof.
  intros HC. induction b as [|o k IH]; intros h t l S P; cbn [body_run].
  - exists []. rewrite app_nil_r. split; [reflexivity|constructor].
  - cbn [polite] in P. destruct P as (P1 & P2 & P3). specialize (P1 h l S).
    destruct (HC h t l o S P1 P2) as (HP & HF). destruct (call h t o) as [[[h1 t1] r]| |]; cbn [bind plain follows] in *; auto.
    destruct HP as (f & rest & l1 & -> & S1 & RR). destruct HF as (f' & rest' & E & RE).
    apply app_inv_head in E. injection E as <- <-.
    specialize (IH (t ++ (o, r, f) :: rest) h1 (t ++ (o, r, f) :: rest) l1 S1 (P3 _ _ _ RR)).
    destruct (body_run call h1 _ _) as [[h2 t2]| |]; auto.
    destruct IH as (rest2 & -> & PL2). exists (((o, r, f) :: rest) ++ rest2).
    split; [rewrite <- app_assoc; reflexivity|]. cbn [app]. constructor; assumption.
Qed.

Lemma exec_follows fuel : forall inside h t l o,
  session c h0 [] t h l -> permitted l o -> (inside = true -> forall x, o <> OnFail x) ->
  follows t o (exec c cb fuel inside h t o).
Proof.
  induction fuel as [|f IH]; intros inside h t l o S P NF; [exact Logic.I|].
  assert (I : inv c h l) by exact (inv_reachable c h l G (ex_intro _ h0 (ex_intro _ t (conj C0 S)))).
  pose proof (set_history t h l S) as CH.
  assert (PA : forall o', match o' with Alloc _ | Calloc _ _ => False | _ => True end -> forall r f, alarm t (o', r, f) = false).
  { intros o' NA r f'. unfold alarm. destruct o'; try destruct NA; reflexivity. }
  assert (ALLOC : forall n, is_size n ->
     (forall h1, allocate c h n = Ok (h1, 0) -> apply c h o = Ok (h1, 0)) ->
     (forall r f', alarm t (o, r, f') = (r =? 0) && h_cb h) ->
     match allocate_cb c cb (exec c cb f true) h t o n with
     | Ok (h', t', r) => exists f rest, t' = t ++ (o, r, f) :: rest /\ reacts cb t (o, r, f) rest
     | _ => True
     end).
  { intros n N AP AL. pose proof (fun h1 r => core_cb h l n h1 r I N) as KC.
    unfold allocate_cb, allocate in *.
    destruct (allocate_core c h (adjust n)) as [[h2 ret]| |]; cbn [bind] in *; auto. specialize (KC h2 ret eq_refl).
    destruct ((ret =? 0) && h_cb h2) eqn:E; cbn [bind].
    - rewrite KC in E. apply andb_true_iff in E. destruct E as (E1 & E2). apply Z.eqb_eq in E1. subst ret.
      assert (A1 : apply c h o = Ok (fire h2, 0)) by (apply AP; reflexivity).
      pose proof (snoc _ _ _ _ _ _ S P A1) as S1.
      pose proof (body_follows (exec c cb f true)
                    (fun h t l o S P NF => conj (exec_plain f true h t l o S P (fun _ => NF)) (IH true h t l o S P (fun _ => NF)))
                    (cb (t ++ [(o, 0, free_heap_size (fire h2))])) _ _ _ S1 (CB _)) as B.
      destruct (body_run _ _ _ _) as [[h' t']| |]; cbn [bind] in *; auto.
      destruct B as (rest & -> & B). exists (free_heap_size (fire h2)), rest. split; [rewrite <- app_assoc; reflexivity|].
      apply reacts_runs; [rewrite AL, E2; reflexivity|exact B].
    - exists (free_heap_size h2), []. split; [reflexivity|]. apply reacts_not. rewrite AL, <- KC. exact E. }
  destruct o as [n|num size|p| |b|a v]; cbn [exec].
  - apply ALLOC; [exact P|intros h1 A; exact A|]. intros r f'. unfold alarm. rewrite <- CH. cbn.
    destruct (h_cb h), (r =? 0); reflexivity.
  - destruct P as [P1 P2]. pose proof (needed_size_mul num size P1 P2) as OV. rewrite OV, negb_involutive.
    destruct (num * size <? W64) eqn:LT.
    + assert (SZ : is_size (u64 (num * size))).
      { unfold is_size, u64. apply Z.mod_pos_bound. rewrite W64_val. lia. }
      specialize (ALLOC (u64 (num * size)) SZ).
      match type of ALLOC with ?X -> ?Y -> _ => assert (X1 : X); [|assert (Y1 : Y); [|specialize (ALLOC X1 Y1)]] end.
      { intros h1 A. cbn [apply]. unfold callocate. rewrite OV, A. reflexivity. }
      { intros r f'. unfold alarm. rewrite <- CH. cbn [alarms]. rewrite LT. destruct (h_cb h), (r =? 0); reflexivity. }
      destruct (allocate_cb _ _ _ _ _ _ _) as [[[h' t'] r]| |]; cbn [bind]; auto.
      destruct (negb (r =? 0)); [|exact ALLOC]. destruct (memset0 c (h_mem h') r (u64 (num * size))) as [m| |]; cbn [bind follows]; auto.
    + exists (free_heap_size h), []. split; [reflexivity|]. apply reacts_not. unfold alarm. cbn [alarms]. rewrite LT, andb_false_r. reflexivity.
  - destruct (apply c h (Free p)) as [[h1 r]| |]; cbn [bind follows]; auto. exists (free_heap_size h1), [].
    split; [reflexivity|]. apply reacts_not, PA. exact Logic.I.
  - exists (free_heap_size (reset_minimum_ever_free_heap_size h)), []. split; [reflexivity|]. apply reacts_not, PA. exact Logic.I.
  - destruct inside; [exact Logic.I|]. exists (free_heap_size (on_fail h b)), []. split; [reflexivity|]. apply reacts_not, PA. exact Logic.I.
  - destruct (apply c h (Write a v)) as [[h1 r]| |]; cbn [bind follows]; auto. exists (free_heap_size h1), [].
    split; [reflexivity|]. apply reacts_not, PA. exact Logic.I.
Qed.

(** A callback that asks for nothing: everything returns. *)
Lemma quiet_call f h t l o :
  session c h0 [] t h l -> permitted l o -> (forall x, o <> OnFail x) ->
  match o with Alloc _ | Calloc _ _ => False | _ => True end ->
  exists h1 r, apply c h o = Ok (h1, r) /\
    exec c cb (S f) true h t o = Ok (h1, t ++ [(o, r, free_heap_size h1)], r).
Proof.
  intros S P NF Q.
  assert (I : inv c h l) by exact (inv_reachable c h l G (ex_intro _ h0 (ex_intro _ t (conj C0 S)))).
  destruct (inv_apply c h l o G I P) as (h1 & r & A & _). exists h1, r. split; [exact A|].
  destruct o as [n|num size|p| |b|a v]; try contradiction; cbn [exec].
  - rewrite A. reflexivity.
  - rewrite A. reflexivity.
  - exfalso. apply (NF b). reflexivity.
  - rewrite A. reflexivity.
Qed.

Lemma quiet_body f b : forall h t l,
  session c h0 [] t h l -> polite c h0 t b -> never_asks b ->
  exists x, body_run (exec c cb (S f) true) h t b = Ok x.
Proof.
  induction b as [|o k IH]; intros h t l S P N; cbn [body_run]; [eauto|].
  cbn [polite never_asks] in P, N. destruct P as (P1 & P2 & P3). destruct N as [N1 N2].
  specialize (P1 h l S).
  destruct (quiet_call f h t l o S P1 P2 N1) as (h1 & r & A & E). rewrite E. cbn [bind].
  eapply IH; [exact (snoc _ _ _ _ _ _ S P1 A)|apply P3; left; reflexivity|apply N2].
Qed.

Lemma quiet_exec f h t l o :
  (forall t, never_asks (cb t)) -> session c h0 [] t h l -> permitted l o ->
  exists x, exec c cb (S (S f)) false h t o = Ok x.
Proof.
  intros Q S P. remember (Datatypes.S f) as sf eqn:SF.
  assert (I : inv c h l) by exact (inv_reachable c h l G (ex_intro _ h0 (ex_intro _ t (conj C0 S)))).
  assert (AL : forall n, is_size n ->
     (forall h1 r, allocate c h n = Ok (h1, r) -> r = 0 -> apply c h o = Ok (h1, 0)) ->
     exists h1 t1 r1, allocate_cb c cb (exec c cb sf true) h t o n = Ok (h1, t1, r1) /\
       (r1 <> 0 -> allocate c h n = Ok (h1, r1))).
  { intros n N AP. destruct (inv_alloc c h l n G I N) as (h1 & r & A & _).
    unfold allocate_cb, allocate in *.
    destruct (allocate_core c h (adjust n)) as [[h2 ret]| |]; cbn [bind] in *; try discriminate.
    destruct (Z.eqb_spec ret 0) as [E|E]; cbn [andb] in *.
    - subst ret. destruct (h_cb h2); [|eexists _, _, _; split; [reflexivity|auto]].
      injection A as <- <-. specialize (AP _ _ eq_refl eq_refl).
      destruct (quiet_body f (cb (t ++ [(o, 0, free_heap_size (fire h2))])) _ _ _
                  (snoc _ _ _ _ _ _ S P AP) (CB _) (Q _)) as ([h3 t3] & B).
      rewrite SF, B. cbn [bind]. eexists _, _, _. split; [reflexivity|]. intros X; contradiction X; reflexivity.
    - eexists _, _, _. split; [reflexivity|auto]. }
  destruct o as [n|num size|p| |b|a v].
  - destruct (AL n P (fun h1 r A E => eq_trans A (f_equal (fun z => Ok (h1, z)) E))) as (h1 & t1 & r1 & E & _).
    exists (h1, t1, r1). exact E.
  - cbn [exec]. destruct (heap_multiply_will_overflow num size) eqn:OV; cbn [negb]; [eauto|].
    assert (SZ : is_size (u64 (num * size))).
    { unfold is_size, u64. apply Z.mod_pos_bound. rewrite W64_val. lia. }
    destruct (AL (u64 (num * size)) SZ) as (h1 & t1 & r1 & E & NZ).
    { intros h1 r A ->. cbn [apply]. unfold callocate. rewrite OV, A. reflexivity. }
    rewrite E. cbn [bind]. destruct (Z.eqb_spec r1 0) as [X|X]; cbn [negb]; [eauto|].
    destruct P as [P1 P2]. destruct (inv_calloc c h l num size G I P1 P2) as (h2 & r2 & A1 & _).
    unfold callocate in A1. rewrite OV, (NZ X) in A1. cbn [bind negb] in A1.
    destruct (Z.eqb_spec r1 0) as [E'|_]; [contradiction|]. cbn [negb] in A1.
    destruct (memset0 c (h_mem h1) r1 (u64 (num * size))); cbn [bind] in *; try discriminate. eauto.
  - cbn [exec]. destruct (inv_apply c h l (Free p) G I P) as (h1 & r & A & _). rewrite A. cbn [bind]. eauto.
  - cbn [exec apply bind]. eauto.
  - cbn [exec apply bind]. eauto.
  - cbn [exec]. destruct (inv_apply c h l (Write a v) G I P) as (h1 & r & A & _). rewrite A. cbn [bind]. eauto.
Qed.
End Use.

Lemma session_split c h0 l0 t : forall h l, session c h0 l0 t h l ->
  forall x h' l', session c h0 l0 (t ++ x) h' l' -> session c h l x h' l'.
Proof.
  induction 1 as [|h l o h1 r evs h2 l2 P A S IH]; intros x h' l' S'; [exact S'|].
  apply IH. cbn [app] in S'. inversion S' as [|? ? ? h1' ? ? ? ? P' A' S'' ]; subst.
  rewrite A in A'. injection A' as <- . exact S''.
Qed.

Lemma exec_after c cb h0 fuel h t l o :
  placed c -> roomy c -> construct c = Ok h0 -> (forall t, polite c h0 t (cb t)) ->
  session c h0 [] t h l -> permitted l o ->
  match exec c cb fuel false h t o with
  | Ok (h', t', r) => exists h1 rest l', apply c h o = Ok (h1, r) /\
      t' = t ++ (o, r, free_heap_size h1) :: rest /\
      session c h1 (hold l o r (free_heap_size h) (free_heap_size h1)) rest h' l' /\
      reacts cb t (o, r, free_heap_size h1) rest
  | UB => False
  | Fuel => True
  end.
Proof.
  intros PL RM C0 CB S P.
  pose proof (exec_plain c PL RM cb h0 C0 CB fuel false h t l o S P
                (fun X => match Bool.diff_false_true X with end)) as X.
  pose proof (exec_follows c PL RM cb h0 C0 CB fuel false h t l o S P
                (fun X => match Bool.diff_false_true X with end)) as Y.
  unfold plain in X. unfold follows in Y. destruct (exec c cb fuel false h t o) as [[[h' t'] r]| |]; auto.
  destruct X as (f & rest & l' & E & S' & RR). subst t'.
  pose proof (session_split _ _ _ _ _ _ S _ _ _ S') as S2.
  inversion S2 as [|? ? ? h1 ? ? ? ? P' A' S'' ]; subst. exists h1, rest, l'.
  destruct Y as (f' & rest' & E & RE). apply app_inv_head in E. injection E as <- <-. auto.
Qed.

Lemma session_cut c x : forall t h0 l0 h' l', session c h0 l0 (t ++ x) h' l' ->
  exists h l, session c h0 l0 t h l /\ session c h l x h' l'.
Proof.
  induction t as [|e t IH]; intros h0 l0 h' l' S; [exists h0, l0; split; [constructor|exact S]|].
  cbn [app] in S. inversion S as [|? ? ? h1 ? ? ? ? P A S1]; subst.
  destruct (IH _ _ _ _ S1) as (h & l & S2 & S3). exists h, l. split; [|exact S3]. econstructor; eassumption.
Qed.

Lemma free_all_polite c h0 bs : forall t,
  (forall h l, session c h0 [] t h l -> incl bs l /\ NoDup (map hd_ptr bs)) -> polite c h0 t (free_all bs).
Proof.
  induction bs as [|b bs IH]; intros t H; [exact Logic.I|]. cbn [free_all fold_right polite]. split; [|split].
  - intros h l S. destruct (H h l S) as [IN _]. right. exists b. split; [apply IN; left; reflexivity|reflexivity].
  - discriminate.
  - intros r f rest [->|[]]. apply IH. intros h' l' S'.
    destruct (session_cut _ _ _ _ _ _ _ S') as (h & l & S & S1).
    destruct (H h l S) as [IN ND]. cbn [map] in ND. inversion ND as [|? ? NI ND']; subst. split; [|exact ND'].
    inversion S1 as [|? ? ? h1 ? ? ? ? P A S2]; subst. inversion S2; subst. cbn [hold].
    intros x X. apply filter_In. split; [apply IN; right; exact X|].
    destruct (Z.eqb_spec (hd_ptr x) (hd_ptr b)) as [E|E]; [|reflexivity].
    exfalso. apply NI. rewrite <- E. apply in_map, X.
Qed.

Lemma give_all_back_polite c h0 t : placed c -> roomy c -> construct c = Ok h0 ->
  polite c h0 t (give_all_back (free_heap_size h0) t).
Proof.
  intros PL RM C0. apply free_all_polite. intros h l S. rewrite <- (session_table _ _ _ _ _ _ S).
  split; [apply incl_refl|]. apply (inv_nodup c PL RM h l).
  exact (inv_reachable c h l (placed_geo c PL RM) (ex_intro _ h0 (ex_intro _ t (conj C0 S)))).
Qed.

Lemma free_all_quiet bs : never_asks (free_all bs).
Proof. induction bs as [|b bs IH]; cbn; auto. Qed.

(** ** retrying *)
Lemma window_mono c l a n m : n <= m -> free_window c l a m -> free_window c l a n.
Proof.
  intros L (A & B & D). assert (needed n <= needed m) by (unfold needed; lia).
  split; [lia|]. split; [lia|]. intros b I. specialize (D b I). unfold disjoint in *. lia.
Qed.

Lemma retry c cb n : placed c -> roomy c -> 0 < n ->
  (forall t, exists m k, cb t = HDo (Alloc m) k /\ n <= m < W64) ->
  forall fuel inside h l t m, reachable c h l -> h_cb h = true -> n <= m < W64 ->
  (forall a, ~ free_window c l a n) -> exec c cb fuel inside h t (Alloc m) = Fuel.
Proof.
  intros PL RM NP CB. induction fuel as [|f IH]; intros inside h l t m R HC M NW; [reflexivity|].
  assert (SM : is_size m) by (unfold is_size; lia).
  pose proof (inv_reachable c h l (placed_geo c PL RM) R) as I.
  destruct (inv_alloc c h l m (placed_geo c PL RM) I SM) as (h1 & r & A & _ & Z0 & _).
  destruct (first_fit c PL RM h l m h1 r R SM A) as [FF _].
  assert (r = 0).
  { destruct (Z.eq_dec r 0) as [E|E]; [exact E|]. apply FF in E. destruct E as (_ & _ & a & W).
    exfalso. apply (NW a). exact (window_mono _ _ _ _ _ (proj1 M) W). }
  subst r. specialize (Z0 eq_refl).
  pose proof (reachable_step c h l (Alloc m) h1 0 R SM A) as R1. cbn [hold Z.eqb] in R1.
  cbn [exec]. unfold allocate_cb. unfold allocate in A.
  destruct (allocate_core c h (adjust m)) as [[h2 ret]| |]; cbn [bind] in *; try discriminate.
  destruct (Z.eqb_spec ret 0) as [E|E]; cbn [andb] in *; [|injection A as _ ->; contradiction E; reflexivity].
  destruct (h_cb h2) eqn:CB2.
  - injection A as <- _.
    destruct (CB (t ++ [(Alloc m, ret, free_heap_size (fire h2))])) as (m' & k & EB & M').
    rewrite EB. cbn [body_run]. rewrite (IH true (fire h2) l); [reflexivity|exact R1|exact CB2|exact M'|exact NW].
  - injection A as <- _. rewrite Z0 in CB2. unfold fired in CB2. rewrite HC in CB2. cbn in CB2. congruence.
Qed.

(** ** threads *)
Lemma take_split c h prev blk w :
  take_block c h prev blk w = (r <- take_ret c h prev ;; take_rest c h prev blk w r).
Proof. unfold take_block, take_ret, take_rest. destruct (ld_next c (h_mem h) prev); reflexivity. Qed.

Lemma alone c h n q :
  trun c h (TStart n) q [true; true; true] = ('(h', r) <- allocate c h n ;; Ok (h', TDone r, q)).
Proof.
  unfold allocate, allocate_core. cbn [trun tstep].
  destruct (heap_block_size_is_valid (adjust n)); cbn [andb].
  2:{ cbn [bind Z.eqb]. unfold refuse. destruct (h_cb h) eqn:E; reflexivity. }
  destruct ((0 <? adjust n) && (adjust n <=? h_free h)).
  2:{ cbn [bind Z.eqb]. unfold refuse. destruct (h_cb h) eqn:E; reflexivity. }
  destruct (ld_next c (h_mem h) (c_xs c)) as [first| |]; cbn [bind]; try reflexivity.
  destruct (find_block _ _ _ _ _ _) as [[prev blk]| |]; cbn [bind]; try reflexivity.
  destruct (negb (blk =? h_end h)).
  2:{ cbn [bind Z.eqb]. unfold refuse. destruct (h_cb h) eqn:E; reflexivity. }
  cbn [bind tstep]. rewrite take_split.
  destruct (take_ret c h prev) as [r| |]; cbn [bind tstep]; try reflexivity.
  destruct (take_rest c h prev blk (adjust n) r) as [[h' r']| |]; cbn [bind tstep]; try reflexivity.
  unfold refuse. destruct (r' =? 0), (h_cb h'); reflexivity.
Qed.

Lemma rest_defined c h prev blk w r :
  geo c -> hdr_ok c prev -> hdr_ok c blk -> hdr_ok c (u64 (blk + w)) ->
  exists h', take_rest c h prev blk w r = Ok (h', r).
Proof.
  intros G P B N. unfold take_rest, heap_allocate_block.
  rewrite ld_next_ok by assumption. cbn [bind]. rewrite st_next_ok by assumption. cbn [bind].
  rewrite ld_size_ok by assumption. cbn [bind].
  destruct (heap_minimum_block_size <? _); cbn [bind];
    repeat (first [rewrite ld_next_ok by assumption | rewrite ld_size_ok by assumption
                  | rewrite st_next_ok by assumption | rewrite st_size_ok by assumption]; cbn [bind]);
    eexists; reflexivity.
Qed.

Lemma search_facts c h l n h1 r :
  placed c -> roomy c -> reachable c h l -> is_size n -> allocate c h n = Ok (h1, r) -> r <> 0 ->
  exists prev blk, tstep c h (TStart n) = Ok (h, TFound (adjust n) prev blk) /\
    hdr_ok c prev /\ hdr_ok c blk /\ hdr_ok c (u64 (blk + adjust n)) /\ take_ret c h prev = Ok r.
Proof.
  intros PL RM R N A NZ. pose proof (placed_geo c PL RM) as G.
  apply (inv_reachable _ _ _ G) in R. destruct R as (bl & R & C).
  pose proof (r_mem _ _ _ R) as RM'. pose proof (r_tiles _ _ _ RM') as T.
  pose proof (allocate_spec c h bl n G R N) as AS. unfold a_alloc in AS.
  destruct (0 <? n) eqn:N0; cbn [andb] in AS; [|rewrite A in AS; injection AS as _ ->; contradiction].
  pose proof (needed_bounds n ltac:(lia)) as NB.
  destruct (needed n <? 2 ^ 63) eqn:N63; [|rewrite A in AS; injection AS as _ ->; contradiction].
  destruct (a_take (needed n) bl) as [[bl' a]|] eqn:TK; [|rewrite A in AS; injection AS as _ ->; contradiction].
  destruct AS as (h2 & l1 & s & l2 & AE & _ & E1 & _ & WS & SM & _).
  rewrite A in AE. injection AE as <- ->.
  assert (AJ : adjust n = needed n).
  { rewrite adjust_spec by exact N. rewrite N0. replace (needed n <? W64) with true by (rewrite W64_val; lia). reflexivity. }
  rewrite AJ. subst bl.
  pose proof (pred_facts c l1 _ l2 G T) as (PO & _).
  pose proof (tiles_mid _ _ _ _ _ T) as (T1 & A16 & AM & T2). cbn [b_addr b_len] in *.
  pose proof (tiles_le _ _ _ T1) as L1. pose proof (tiles_le _ _ _ T2) as L2.
  pose proof (tiles_mod _ _ _ T1 (g_startmod c G)) as AMOD.
  pose proof (r_chain _ _ _ RM') as CH. pose proof (chain_next _ _ _ _ CH) as XN.
  exists (last_addr (frees l1) (c_xs c)), a.
  assert (SZ : needed n <= h_free h < 2 ^ 63).
  { rewrite (r_free _ _ _ R). pose proof (free_sum_bound _ _ _ T). split; [|geo_facts G; lia].
    pose proof (free_sum_in (l1 ++ Blk a s false :: l2) a s) as X.
    assert (s <= free_sum (l1 ++ Blk a s false :: l2)); [|lia].
    apply X; [|apply in_elt]. intros b I. pose proof (tiles_in _ _ _ _ T (g_startmod c G) I). lia. }
  assert (E0 : area_end c <> 0) by (geo_facts G; lia).
  assert (FBS := find_block_spec c (h_mem h) (needed n) (area_end c) G (hdr_ok_end c G) E0
                   (r_endnext _ _ _ RM') (r_endsize _ _ _ RM') ltac:(lia) _ (walk_fuel c) (c_xs c) CH).
  assert (FF : ff (needed n) (c_xs c) (frees (l1 ++ Blk a s false :: l2)) = Some (last_addr (frees l1) (c_xs c), a)).
  { rewrite frees_app. cbn [frees b_used b_addr b_len].
    clear - SM WS. revert SM. generalize (c_xs c) as p. induction (frees l1) as [|[x t] f IH]; intros p SM; cbn [app ff last_addr].
    - replace (s <? needed n) with false by lia. reflexivity.
    - pose proof (SM x t (or_introl eq_refl)). replace (t <? needed n) with true by lia. cbn [fst].
      apply IH. intros y u I. apply (SM y u). right. exact I. }
  rewrite FF in FBS.
  split; [|split; [exact PO|split; [geo_facts G; split; [lia|left; lia]|split]]].
  - cbn [tstep]. rewrite AJ. unfold heap_block_size_is_valid. rewrite bit_val.
    rewrite small_land_top by lia. cbn [Z.eqb]. replace (0 <? needed n) with true by lia.
    replace (needed n <=? h_free h) with true by lia. cbn [andb].
    rewrite ld_next_ok by (try exact G; apply hdr_ok_xs; exact G). cbn [bind]. rewrite XN, prot_prot, FBS.
    + cbn [bind]. rewrite (r_end _ _ _ R). replace (a =? area_end c) with false by lia. reflexivity.
    + intros q Q. pose proof (frees_addrs_range _ _ _ _ T (g_startmod c G) Q). geo_facts G.
      split; [split; [lia|left; lia]|lia].
    + pose proof (frees_len _ _ _ T). unfold walk_fuel. geo_facts G. lia.
  - geo_facts G. rewrite u64_id by lia. split; [lia|left; lia].
  - unfold take_ret. rewrite ld_next_ok by (try exact G; exact PO). cbn [bind].
    rewrite frees_app in CH. cbn [frees b_used b_addr b_len] in CH. apply chain_app in CH. cbn [head_addr chain] in CH.
    destruct CH as (_ & PN & _). rewrite PN, prot_prot, hss_val, u64_id by (geo_facts G; lia). reflexivity.
Qed.

Lemma same_block c h l n h1 r :
  placed c -> roomy c -> reachable c h l -> is_size n -> allocate c h n = Ok (h1, r) -> r <> 0 ->
  exists h', trun c h (TStart n) (TStart n) [true; false; true; false; true; false] = Ok (h', TDone r, TDone r).
Proof.
  intros PL RM R N A NZ. pose proof (placed_geo c PL RM) as G.
  destruct (search_facts c h l n h1 r PL RM R N A NZ) as (prev & blk & T1 & HP & HB & HN & TR).
  cbn [trun]. rewrite T1. cbn [bind]. rewrite T1. cbn [bind tstep]. rewrite TR. cbn [bind tstep].
  rewrite TR. cbn [bind tstep].
  destruct (rest_defined c h prev blk (adjust n) r G HP HB HN) as (h2 & E2). rewrite E2. cbn [bind].
  assert (X : r =? 0 = false) by lia. rewrite X. cbn [tstep].
  destruct (rest_defined c h2 prev blk (adjust n) r G HP HB HN) as (h3 & E3). rewrite E3. cbn [bind]. rewrite X.
  exists h3. reflexivity.
Qed.

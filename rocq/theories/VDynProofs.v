(** One thread using the dynamic value observable by itself; schedules made of such runs. *)
From Verif Require Export ValuesProofs5 VDynSpec.
From Verif Require ObsShareProofs3.

Section Goes.
  Variable t : ity.
  Notation dstep := (dstep t).
  Notation drun := (drun t).

  Inductive goes : dmem -> dcode -> list vev -> dmem -> dcode -> Prop :=
  | goes_here m d : goes m d [] m d
  | goes_on m d m1 d1 e es m2 d2 : dstep m d = Ok (m1, d1, e) -> goes m1 d1 es m2 d2 -> goes m d (e ++ es) m2 d2.
  Lemma goes_trans m d e m1 d1 e1 m2 d2 : goes m d e m1 d1 -> goes m1 d1 e1 m2 d2 -> goes m d (e ++ e1) m2 d2.
  Proof. induction 1; intros G; [exact G|]. rewrite <- app_assoc. eapply goes_on; [eassumption|auto]. Qed.
  Lemma goes_trans0 m d m1 d1 e1 m2 d2 : goes m d [] m1 d1 -> goes m1 d1 e1 m2 d2 -> goes m d e1 m2 d2.
  Proof. intros A B. exact (goes_trans _ _ _ _ _ _ _ _ A B). Qed.
  Lemma goes_one m d m1 d1 e : dstep m d = Ok (m1, d1, e) -> goes m d e m1 d1.
  Proof. intros E. rewrite <- (app_nil_r e). eapply goes_on; [exact E|constructor]. Qed.
  Lemma goes_step m d m1 d1 es m2 d2 : dstep m d = Ok (m1, d1, []) -> goes m1 d1 es m2 d2 -> goes m d es m2 d2.
  Proof. intros E G. exact (goes_on m d m1 d1 [] es m2 d2 E G). Qed.

  Lemma dput_same f i d : dput f i d i = d.
  Proof. unfold dput. rewrite Nat.eqb_refl. reflexivity. Qed.
  Lemma dput_other f i d j : j <> i -> dput f i d j = f j.
  Proof. intros N. unfold dput. destruct (Nat.eqb_spec j i); [congruence|reflexivity]. Qed.
  Lemma drun_app s1 : forall w w1 s2, drun w s1 = Ok w1 -> drun w (s1 ++ s2) = drun w1 s2.
  Proof.
    induction s1 as [|i s1 IH]; intros w w1 s2; cbn [VDynModel.drun app]; [intros [= ->]; reflexivity|].
    destruct (dmove t w i); cbn [bind]; try discriminate. apply IH.
  Qed.
  Record goes_to (w : dworld) (i : nat) (es : list vev) (m : dmem) (d : dcode) (w' : dworld) : Prop := {
    gt_mem : d_mem w' = m;
    gt_own : d_thr w' i = d;
    gt_other : forall j, j <> i -> d_thr w' j = d_thr w j;
    gt_log : d_log w' = d_log w ++ map (pair i) es }.
  Lemma goes_sched m d es m' d' i : goes m d es m' d' -> forall w, d_mem w = m -> d_thr w i = d ->
    exists k w', drun w (repeat i k) = Ok w' /\ goes_to w i es m' d' w'.
  Proof.
    induction 1 as [m d|m d m1 d1 e es m2 d2 E _ IH]; intros w EM ED.
    - exists O, w. split; [reflexivity|]. split; auto. rewrite app_nil_r. reflexivity.
    - destruct (IH (DWd m1 (dput (d_thr w) i d1) (d_log w ++ map (pair i) e)) eq_refl (dput_same _ _ _)) as (k & w' & R & [G1 G2 G3 G4]).
      exists (S k), w'. split.
      + cbn [repeat VDynModel.drun]. unfold dmove. rewrite EM, ED, E. exact R.
      + split; [exact G1|exact G2| |].
        * intros j N. rewrite G3 by exact N. apply dput_other, N.
        * rewrite G4. cbn [d_log]. rewrite map_app, app_assoc. reflexivity.
  Qed.

  (** Two calls cut into pieces: [i] gets to [da], [j] to [db], [i] goes on to [dc], [j] to [dd]. *)
  Lemma cut m a b i j m1 da ea m2 db eb m3 dc ec m4 dd ed : i <> j ->
    goes m (d_prog t [a]) ea m1 da -> goes m1 (d_prog t [b]) eb m2 db -> goes m2 da ec m3 dc -> goes m3 db ed m4 dd ->
    exists s w, drun (dstarted t m (two i j a b)) s = Ok w /\ d_mem w = m4 /\ d_thr w i = dc /\ d_thr w j = dd /\
      (forall k, k <> i -> k <> j -> d_thr w k = DStop) /\
      d_log w = map (pair i) ea ++ map (pair j) eb ++ map (pair i) ec ++ map (pair j) ed.
  Proof.
    intros N H1 H2 H3 H4. set (w0 := dstarted t m (two i j a b)).
    assert (TI : d_thr w0 i = d_prog t [a]) by (cbn; unfold two; rewrite Nat.eqb_refl; reflexivity).
    assert (TJ : d_thr w0 j = d_prog t [b]).
    { cbn. unfold two. destruct (Nat.eqb_spec j i); [congruence|]. rewrite Nat.eqb_refl. reflexivity. }
    assert (TK : forall k, k <> i -> k <> j -> d_thr w0 k = DStop).
    { intros k K1 K2. cbn. unfold two. destruct (Nat.eqb_spec k i); [congruence|]. destruct (Nat.eqb_spec k j); [congruence|]. reflexivity. }
    destruct (goes_sched _ _ _ _ _ i H1 w0 eq_refl TI) as (k1 & w1 & R1 & [A1 A2 A3 A4]).
    destruct (goes_sched _ _ _ _ _ j H2 w1 A1) as (k2 & w2 & R2 & [B1 B2 B3 B4]); [rewrite A3 by auto; exact TJ|].
    destruct (goes_sched _ _ _ _ _ i H3 w2 B1) as (k3 & w3 & R3 & [C1 C2 C3 C4]); [rewrite B3 by auto; exact A2|].
    destruct (goes_sched _ _ _ _ _ j H4 w3 C1) as (k4 & w4 & R4 & [D1 D2 D3 D4]); [rewrite C3 by auto; exact B2|].
    exists (repeat i k1 ++ repeat j k2 ++ repeat i k3 ++ repeat j k4), w4.
    split; [rewrite (drun_app _ _ _ _ R1), (drun_app _ _ _ _ R2), (drun_app _ _ _ _ R3); exact R4|].
    split; [exact D1|]. split; [rewrite D3 by auto; exact C2|]. split; [exact D2|].
    split; [intros k K1 K2; rewrite D3, C3, B3, A3 by auto; apply TK; assumption|].
    rewrite D4, C4, B4, A4. cbn [w0 dstarted d_log app]. rewrite <- !app_assoc. reflexivity.
  Qed.
  Lemma cut_done i j w : d_thr w i = DStop -> d_thr w j = DStop -> (forall k, k <> i -> k <> j -> d_thr w k = DStop) -> all_done w.
  Proof. intros A B C k. destruct (Nat.eq_dec k i) as [->|]; [exact A|]. destruct (Nat.eq_dec k j) as [->|]; [exact B|]. apply C; assumption. Qed.

  (** ** arrays *)
  Lemma store_same h : forall b a x, nth_error h b = Some x -> nth_error (d_store h b a) b = Some a.
  Proof. induction h as [|y h IH]; intros [|b] a x E; cbn in *; try discriminate; [reflexivity|]. eapply IH, E. Qed.
  Lemma store_other h : forall b a c, c <> b -> nth_error (d_store h b a) c = nth_error h c.
  Proof. induction h as [|y h IH]; intros [|b] a [|c] N; cbn; try congruence; try reflexivity. apply IH. congruence. Qed.
  Lemma store_length h : forall b a, length (d_store h b a) = length h.
  Proof. induction h as [|y h IH]; intros [|b] a; cbn; try reflexivity. rewrite IH. reflexivity. Qed.
  Lemma store_twice h : forall b a a', d_store (d_store h b a) b a' = d_store h b a'.
  Proof. induction h as [|y h IH]; intros [|b] a a'; cbn; try reflexivity. rewrite IH. reflexivity. Qed.
  Lemma store_id h : forall b x, nth_error h b = Some x -> d_store h b x = h.
  Proof. induction h as [|y h IH]; intros [|b] x E; cbn in *; try discriminate; [congruence|]. rewrite (IH b x E). reflexivity. Qed.
  Lemma array_of m b a : nth_error (d_heap m) b = Some (Some a) -> d_array m b = Ok a.
  Proof. unfold d_array. intros ->. reflexivity. Qed.
  Lemma get_goes m b a i x k es m2 d2 : nth_error (d_heap m) b = Some (Some a) -> slot a i = Ok x -> goes m (k x) es m2 d2 -> goes m (DGet (b, i) k) es m2 d2.
  Proof. intros A S G. eapply goes_step; [cbn; rewrite (array_of _ _ _ A); cbn [bind]; rewrite S; reflexivity|exact G]. Qed.
  Lemma put_goes m b a i x a' k es m2 d2 : nth_error (d_heap m) b = Some (Some a) -> put_slot a i x = Ok a' ->
    goes (with_heap m (d_store (d_heap m) b (Some a'))) k es m2 d2 -> goes m (DPut (b, i) x k) es m2 d2.
  Proof. intros A S G. eapply goes_step; [cbn; rewrite (array_of _ _ _ A); cbn [bind]; rewrite S; reflexivity|exact G]. Qed.

  Lemma range_goes m b n k : d_start m = b -> d_fin m = (b, n) -> goes m (d_range k) [] m (k b n).
  Proof.
    intros E F. unfold d_range. eapply goes_step; [reflexivity|]. eapply goes_step; [reflexivity|]. rewrite E, F. cbn [fst snd].
    rewrite Nat.eqb_refl. constructor.
  Qed.
  Lemma find_goes m o b a k : nth_error (d_heap m) b = Some (Some a) -> forall rem i f, find_from a i rem o = Ok f ->
    goes m (d_find o b i rem k) [] m (k f).
  Proof.
    intros A. induction rem as [|q IH]; intros i f; cbn [find_from d_find]; [intros [= <-]; constructor|].
    destruct (slot a i) as [x| |] eqn:E; cbn [bind]; try discriminate. intros H.
    eapply get_goes; [exact A|exact E|]. cbv beta. destruct (points_to x o); [injection H as <-; constructor|apply IH, H].
  Qed.
  Lemma move_goes o b k : forall rem m a r i a' it, nth_error (d_heap m) b = Some (Some a) -> compact a r i rem o = Ok (a', it) ->
    goes m (d_move o b r i rem k) [] (with_heap m (d_store (d_heap m) b (Some a'))) (k it).
  Proof.
    induction rem as [|q IH]; intros m a r i a' it A; cbn [compact d_move].
    - intros [= <- <-]. rewrite (store_id _ _ _ A). replace (with_heap m (d_heap m)) with m by (destruct m; reflexivity). constructor.
    - destruct (slot a i) as [x| |] eqn:E; cbn [bind]; try discriminate. intros H.
      eapply get_goes; [exact A|exact E|]. cbv beta. destruct (points_to x o); [eapply IH; [exact A|exact H]|].
      destruct (put_slot a r x) as [a1| |] eqn:EP; cbn [bind] in H; try discriminate.
      eapply put_goes; [exact A|exact EP|].
      specialize (IH (with_heap m (d_store (d_heap m) b (Some a1))) a1 (S r) (S i) a' it (store_same _ _ _ _ A) H).
      cbn [with_heap d_heap d_val d_start d_fin d_end d_mirror] in IH. rewrite store_twice in IH. exact IH.
  Qed.
  Lemma slot_left (a tl : list ptr) i x : slot a i = Ok x -> slot (a ++ tl) i = Ok x.
  Proof.
    unfold slot. intros H. destruct (nth_error a i) eqn:E; [|discriminate].
    rewrite nth_error_app1 by (apply nth_error_Some; rewrite E; discriminate). rewrite E. exact H.
  Qed.
  Lemma set_left (tl : list ptr) x : forall a i, (i < length a)%nat -> set_nth (a ++ tl) i x = set_nth a i x ++ tl.
  Proof. induction a as [|y a IH]; intros [|i] L; cbn in *; try lia; [reflexivity|]. rewrite IH by lia. reflexivity. Qed.
  Lemma put_left (a tl : list ptr) i x a' : put_slot a i x = Ok a' -> put_slot (a ++ tl) i x = Ok (a' ++ tl).
  Proof.
    unfold put_slot. intros H. destruct (nth_error a i) eqn:E; [|discriminate]. injection H as <-.
    assert (L : (i < length a)%nat) by (apply nth_error_Some; rewrite E; discriminate).
    rewrite nth_error_app1 by exact L. rewrite E, set_left by exact L. reflexivity.
  Qed.
  Lemma find_left tl o : forall rem a i f, find_from a i rem o = Ok f -> find_from (a ++ tl) i rem o = Ok f.
  Proof.
    induction rem as [|q IH]; intros a i f; cbn [find_from]; [auto|]. destruct (slot a i) as [x| |] eqn:E; cbn [bind]; try discriminate.
    rewrite (slot_left _ _ _ _ E). cbn [bind]. destruct (points_to x o); [auto|apply IH].
  Qed.
  Lemma compact_left tl o : forall rem a r i a' it, compact a r i rem o = Ok (a', it) -> compact (a ++ tl) r i rem o = Ok (a' ++ tl, it).
  Proof.
    induction rem as [|q IH]; intros a r i a' it; cbn [compact]; [intros [= <- <-]; reflexivity|].
    destruct (slot a i) as [x| |] eqn:E; cbn [bind]; try discriminate. rewrite (slot_left _ _ _ _ E). cbn [bind].
    destruct (points_to x o); [apply IH|]. destruct (put_slot a r x) as [a1| |] eqn:EP; cbn [bind]; try discriminate.
    rewrite (put_left _ _ _ _ _ EP). cbn [bind]. apply IH.
  Qed.

  (** ** a valid vector *)
  Record vec (m : dmem) (b : nat) (l : list addr) (tl : list ptr) : Prop := {
    vc_start : d_start m = b;
    vc_heap : nth_error (d_heap m) b = Some (Some (map Some l ++ tl));
    vc_fin : d_fin m = (b, length l);
    vc_end : d_end m = (b, (length l + length tl)%nat);
    vc_null : (length l + length tl)%nat = 0%nat \/ b <> 0%nat }.
  Lemma holds_vec m l room : holds m l room <-> exists b tl, length tl = room /\ vec m b l tl.
  Proof.
    split.
    - intros (tl & E & N & H & F & C). exists (d_start m), tl. rewrite <- E in *. split; [reflexivity|]. split; auto.
    - intros (b & tl & E & [H1 H2 H3 H4 H5]). exists tl. subst b room. auto 6.
  Qed.
  Lemma scan_goes m b l tl o k : vec m b l tl ->
    exists f, goes m (d_find o b 0 (length l) k) [] m (k f) /\ (f <= length l)%nat /\ (f = length l <-> ~ In o l).
  Proof.
    intros V. destruct (find_spec l [] tl o) as [[N F]|(l1 & l2 & E & N & F)]; cbn [app length Nat.add] in F.
    - exists (length l). split; [apply (find_goes _ _ _ _ _ (vc_heap _ _ _ _ V)), F|]. split; [lia|]. tauto.
    - exists (length l1). split; [apply (find_goes _ _ _ _ _ (vc_heap _ _ _ _ V)), F|]. rewrite E, app_length. cbn [length]. split; [lia|].
      split; [lia|]. intros H. exfalso. apply H. apply in_or_app. right. left. reflexivity.
  Qed.
  Definition mirrors (mi : addr -> Z) (l : list addr) (p : Z) : addr -> Z := fold_left (fun m o => set_mirror m o p) l mi.
  Definition mval (m : dmem) (x : Z) (mi : addr -> Z) : dmem := DM x (d_start m) (d_fin m) (d_end m) (d_heap m) mi.
  Lemma tell_goes m b pre k r v : forall l mi i x tl, nth_error (d_heap m) b = Some (Some (pre ++ map Some l ++ tl)) -> i = length pre ->
    goes (mval m x mi) (d_tell v b i (length l + r) k) (map (fun o => Store o v) l) (mval m x (mirrors mi l v)) (d_tell v b (i + length l) r k).
  Proof.
    intros l. revert pre. induction l as [|o l IH]; intros pre mi i x tl A EI.
    - cbn. rewrite Nat.add_0_r. constructor.
    - cbn [length Nat.add d_tell map]. eapply get_goes; [exact A|subst i; cbn [map app]; apply slot_app|]. cbv beta iota.
      change (Store o v :: map (fun o => Store o v) l) with ([Store o v] ++ map (fun o => Store o v) l).
      eapply goes_on; [reflexivity|]. cbn [mval d_val d_start d_fin d_end d_heap d_mirror].
      replace (i + S (length l))%nat with (S i + length l)%nat by lia.
      apply (IH (pre ++ [Some o]) (set_mirror mi o v) (S i) x tl); [rewrite <- app_assoc; exact A|].
      rewrite app_length. cbn. lia.
  Qed.
  Lemma disc_goes m b k : forall l pre tl i, nth_error (d_heap m) b = Some (Some (pre ++ map Some l ++ tl)) -> i = length pre ->
    goes m (d_disc b i (length l) k) (map VDisc l) m k.
  Proof.
    induction l as [|o l IH]; intros pre tl i A EI; cbn [length d_disc map]; [constructor|].
    eapply get_goes; [exact A|subst i; cbn [map app]; apply slot_app|]. cbv beta iota.
    change (VDisc o :: map VDisc l) with ([VDisc o] ++ map VDisc l). eapply goes_on; [reflexivity|].
    apply (IH (pre ++ [Some o]) tl); [rewrite <- app_assoc; exact A|]. rewrite app_length. cbn. lia.
  Qed.
  (** Copying into an array whose cells are still empty. *)
  Lemma copy_goes b nb k : b <> nb -> forall l m pre src tl junk i,
    nth_error (d_heap m) b = Some (Some (src ++ map Some l ++ tl)) -> nth_error (d_heap m) nb = Some (Some (pre ++ repeat None (length l) ++ junk)) ->
    i = length src -> i = length pre ->
    goes m (d_copy b nb i (length l) k) [] (with_heap m (d_store (d_heap m) nb (Some (pre ++ map Some l ++ junk)))) k.
  Proof.
    intros N. induction l as [|o l IH]; intros m pre src tl junk i A B E1 E2; cbn [length d_copy map repeat app].
    - cbn [length repeat app] in B. rewrite (store_id _ _ _ B). replace (with_heap m (d_heap m)) with m by (destruct m; reflexivity). constructor.
    - eapply get_goes; [exact A|subst i; cbn [map app]; apply slot_app|]. cbv beta.
      eapply put_goes; [exact B|rewrite E2; cbn [repeat app length]; apply put_app|].
      set (m1 := with_heap m _).
      assert (A1 : nth_error (d_heap m1) b = Some (Some ((src ++ [Some o]) ++ map Some l ++ tl))).
      { unfold m1. cbn [with_heap d_heap]. rewrite store_other by exact N. rewrite <- app_assoc. exact A. }
      assert (B1 : nth_error (d_heap m1) nb = Some (Some ((pre ++ [Some o]) ++ repeat None (length l) ++ junk))).
      { unfold m1. cbn [with_heap d_heap]. rewrite <- app_assoc. eapply store_same, B. }
      specialize (IH m1 (pre ++ [Some o]) (src ++ [Some o]) tl junk (S i) A1 B1).
      rewrite !app_length in IH. cbn [length] in IH. specialize (IH ltac:(lia) ltac:(lia)).
      unfold m1 in IH at 3. cbn [with_heap d_heap] in IH. rewrite store_twice in IH. rewrite <- !app_assoc in IH. cbn [app] in IH.
      unfold m1 in IH at 2. cbn [with_heap d_val d_start d_fin d_end d_heap d_mirror] in IH. exact IH.
  Qed.

  (** Registration, up to the freeing of the old array, and the rest; or with room. *)
  Definition grown (l : list addr) (o : addr) (room : nat) : list ptr := map Some (l ++ [o]) ++ repeat None room.
  Definition set_members (b nb : nat) (l : list addr) (k : dcode) : dcode :=
    DSetStart nb (DSetFin (nb, S (length l)) (DSetEnd (nb, (length l + Nat.max (length l) 1)%nat) k)).
  Lemma grow_to_free m b l o k : vec m b l [] ->
    goes m (d_grow o k) [] (with_heap m (d_heap m ++ [Some (grown l o (Nat.max (length l) 1 - 1))]))
         (DFree b (set_members b (length (d_heap m)) l k)).
  Proof.
    intros V. unfold d_grow. eapply goes_trans0; [apply range_goes; [apply (vc_start _ _ _ _ V)|apply (vc_fin _ _ _ _ V)]|]. cbv zeta.
    set (n := length l). set (nb := length (d_heap m)). eapply goes_step; [reflexivity|]. cbv beta.
    set (h := d_heap m ++ [Some (repeat None (n + Nat.max n 1))]).
    set (m1 := with_heap m h).
    assert (LT : (b < nb)%nat) by (apply nth_error_Some; rewrite (vc_heap _ _ _ _ V); discriminate).
    assert (HB : nth_error h b = Some (Some (map Some l ++ []))) by (unfold h; rewrite nth_error_app1 by exact LT; apply (vc_heap _ _ _ _ V)).
    assert (HN : nth_error h nb = Some (Some (repeat None n ++ None :: repeat None (Nat.max n 1 - 1)))).
    { unfold h. rewrite nth_error_app2 by (unfold nb; lia). unfold nb. rewrite Nat.sub_diag. cbn [nth_error]. f_equal. f_equal.
      rewrite repeat_app. f_equal. change (None :: repeat None (Nat.max n 1 - 1)) with (repeat (@None addr) (S (Nat.max n 1 - 1))). f_equal. lia. }
    pose proof (put_app (repeat None n) None (repeat None (Nat.max n 1 - 1)) (Some o)) as PA. rewrite repeat_length in PA.
    eapply put_goes; [exact HN|exact PA|].
    assert (NE : b <> nb) by lia.
    match goal with |- goes ?x _ _ _ _ => set (m2 := x) end.
    assert (B2 : nth_error (d_heap m2) b = Some (Some ([] ++ map Some l ++ []))).
    { unfold m2. cbn [with_heap d_heap]. rewrite store_other by exact NE. exact HB. }
    assert (N2 : nth_error (d_heap m2) nb = Some (Some ([] ++ repeat None (length l) ++ Some o :: repeat None (Nat.max n 1 - 1)))).
    { unfold m2. cbn [with_heap d_heap]. eapply store_same. exact HN. }
    assert (EH : with_heap m2 (d_store (d_heap m2) nb (Some ([] ++ map Some l ++ Some o :: repeat None (Nat.max n 1 - 1))))
                 = with_heap m (d_heap m ++ [Some (grown l o (Nat.max n 1 - 1))])).
    { unfold m2, m1, with_heap. cbn [d_val d_start d_fin d_end d_heap d_mirror]. f_equal. unfold nb. rewrite store_twice. unfold h, grown.
      rewrite map_app, <- app_assoc. cbn [map app]. clear. generalize (Some (map Some l ++ Some o :: repeat None (Nat.max n 1 - 1))) as z.
      generalize (Some (repeat (@None addr) (n + Nat.max n 1))) as y. induction (d_heap m) as [|a h IH]; intros y z; cbn; [reflexivity|]. rewrite IH. reflexivity. }
    rewrite <- EH. exact (copy_goes b nb _ NE l m2 [] [] [] _ 0%nat B2 N2 eq_refl eq_refl).
  Qed.
  Lemma members_goes m b nb l k : goes m (set_members b nb l k) [] (DM (d_val m) nb (nb, S (length l)) (nb, (length l + Nat.max (length l) 1)%nat) (d_heap m) (d_mirror m)) k.
  Proof. unfold set_members. do 2 (eapply goes_step; [reflexivity|]). apply goes_one. reflexivity. Qed.
  Lemma grow_goes m b l o k : vec m b l [] ->
    exists m' b', goes m (d_grow o k) [] m' k /\ vec m' b' (l ++ [o]) (repeat None (Nat.max (length l) 1 - 1)) /\
      d_val m' = d_val m /\ d_mirror m' = d_mirror m /\ (b <> 0%nat -> nth_error (d_heap m') b = Some None) /\ b' <> b.
  Proof.
    intros V. set (nb := length (d_heap m)). set (m1 := with_heap m (d_heap m ++ [Some (grown l o (Nat.max (length l) 1 - 1))])).
    pose proof (grow_to_free m b l o k V) as G. fold nb m1 in G.
    assert (LT : (b < nb)%nat) by (apply nth_error_Some; rewrite (vc_heap _ _ _ _ V); discriminate).
    assert (HB : nth_error (d_heap m1) b = Some (Some (map Some l ++ []))).
    { unfold m1. cbn [with_heap d_heap]. rewrite nth_error_app1 by exact LT. apply (vc_heap _ _ _ _ V). }
    assert (HN : nth_error (d_heap m1) nb = Some (Some (grown l o (Nat.max (length l) 1 - 1)))).
    { unfold m1. cbn [with_heap d_heap]. rewrite nth_error_app2 by (unfold nb; lia). unfold nb. rewrite Nat.sub_diag. reflexivity. }
    set (m2 := if (b =? 0)%nat then m1 else with_heap m1 (d_store (d_heap m1) b None)).
    assert (F : goes m1 (DFree b (set_members b nb l k)) [] m2 (set_members b nb l k)).
    { apply goes_one. cbn. rewrite (array_of _ _ _ HB). cbn [bind]. unfold m2. destruct (b =? 0)%nat; reflexivity. }
    assert (N2 : nth_error (d_heap m2) nb = Some (Some (grown l o (Nat.max (length l) 1 - 1)))).
    { unfold m2. destruct (b =? 0)%nat; [exact HN|]. cbn [with_heap d_heap]. rewrite store_other by lia. exact HN. }
    eexists _, nb. split; [eapply goes_trans0; [exact G|]; eapply goes_trans0; [exact F|apply members_goes]|]. cbn [d_val d_mirror d_heap].
    split; [|split; [|split; [|split; [|lia]]]].
    - split; cbn [d_start d_heap d_fin d_end].
      + reflexivity.
      + exact N2.
      + rewrite app_length. cbn. f_equal. lia.
      + rewrite app_length, repeat_length. cbn [length]. f_equal. lia.
      + right. lia.
    - unfold m2, m1. destruct (b =? 0)%nat; reflexivity.
    - unfold m2, m1. destruct (b =? 0)%nat; reflexivity.
    - intros NZ. unfold m2. replace (b =? 0)%nat with false by (symmetry; apply Nat.eqb_neq; exact NZ).
      cbn [with_heap d_heap]. eapply store_same. exact HB.
  Qed.
  Lemma deq_same p : deq p p = true.
  Proof. unfold deq. rewrite !Nat.eqb_refl. reflexivity. Qed.
  Lemma deq_snd b i j : deq (b, i) (b, j) = (i =? j)%nat.
  Proof. unfold deq. cbn [fst snd]. rewrite Nat.eqb_refl. reflexivity. Qed.
  Lemma add_to_push m b l tl o k : vec m b l tl -> ~ In o l -> goes m (d_add o k) [] m (d_push o (k ok)).
  Proof.
    intros V N. unfold d_add. eapply goes_trans0; [apply range_goes; [apply (vc_start _ _ _ _ V)|apply (vc_fin _ _ _ _ V)]|].
    destruct (scan_goes m b l tl o (fun f => DFin (fun e => if deq (b, f) e then d_push o (k ok) else k already_contains)) V) as (f & G & _ & E).
    eapply goes_trans0; [exact G|]. eapply goes_step; [reflexivity|]. rewrite (vc_fin _ _ _ _ V), deq_snd, (proj2 E N), Nat.eqb_refl. constructor.
  Qed.
  Lemma push_full m b l o k : vec m b l [] -> goes m (d_push o k) [] m (d_grow o k).
  Proof.
    intros V. unfold d_push. eapply goes_step; [reflexivity|]. eapply goes_step; [reflexivity|].
    rewrite (vc_fin _ _ _ _ V), (vc_end _ _ _ _ V), deq_snd. cbn [length]. rewrite Nat.add_0_r, Nat.eqb_refl. constructor.
  Qed.
  (** With room: up to the writing of _M_finish. *)
  Lemma push_room m b l y tl o k : vec m b l (y :: tl) ->
    goes m (d_push o k) [] (with_heap m (d_store (d_heap m) b (Some (map Some (l ++ [o]) ++ tl)))) (DSetFin (b, S (length l)) k).
  Proof.
    intros V. unfold d_push. eapply goes_step; [reflexivity|]. eapply goes_step; [reflexivity|].
    rewrite (vc_fin _ _ _ _ V), (vc_end _ _ _ _ V), deq_snd. cbn [length].
    replace (length l =? length l + S (length tl))%nat with false by (symmetry; apply Nat.eqb_neq; lia).
    eapply goes_step; [reflexivity|]. rewrite (vc_fin _ _ _ _ V).
    eapply put_goes; [apply (vc_heap _ _ _ _ V)|apply ObsShareProofs3.put_end|]. apply goes_one. cbn [VDynModel.dstep with_heap d_fin].
    rewrite (vc_fin _ _ _ _ V). reflexivity.
  Qed.
  Lemma vec_end m b l o y tl : vec m b l (y :: tl) ->
    vec (DM (d_val m) (d_start m) (b, S (length l)) (d_end m) (d_store (d_heap m) b (Some (map Some (l ++ [o]) ++ tl))) (d_mirror m)) b (l ++ [o]) tl.
  Proof.
    intros [H1 H2 H3 H4 H5]. split; cbn [d_start d_heap d_fin d_end].
    - exact H1.
    - eapply store_same, H2.
    - rewrite app_length. cbn. f_equal. lia.
    - rewrite H4, app_length. cbn [length]. f_equal. lia.
    - right. destruct H5 as [H5|H5]; [cbn in H5; lia|exact H5].
  Qed.
  Lemma push_goes m b l tl o k : vec m b l tl ->
    exists m' b' tl', goes m (d_push o k) [] m' k /\ vec m' b' (l ++ [o]) tl' /\ d_val m' = d_val m /\ d_mirror m' = d_mirror m.
  Proof.
    intros V. destruct tl as [|y tl].
    - destruct (grow_goes m b l o k V) as (m' & b' & G & V' & E1 & E2 & _). exists m', b', (repeat None (Nat.max (length l) 1 - 1)).
      split; [eapply goes_trans0; [apply (push_full m b l o k V)|exact G]|]. auto.
    - eexists _, b, tl. split; [eapply goes_trans0; [apply (push_room m b l y tl o k V)|]; apply goes_one; reflexivity|].
      split; [apply (vec_end m b l o y tl V)|]. split; reflexivity.
  Qed.

  Lemma remove_goes m b l tl o k : vec m b l tl ->
    exists m', goes m (d_remove o k) [] m' (k (remove_answer l o)) /\ vec m' b (left_over o l) tl /\ d_val m' = d_val m /\ d_mirror m' = d_mirror m.
  Proof.
    intros V. unfold d_remove, remove_answer.
    destruct l as [|x l'] eqn:EL.
    { exists m. split; [|split; [exact V|split; reflexivity]]. do 2 (eapply goes_step; [reflexivity|]).
      rewrite (vc_start _ _ _ _ V), (vc_fin _ _ _ _ V), deq_snd. cbn. constructor. }
    rewrite <- EL in *. assert (NZ : (length l <> 0)%nat) by (rewrite EL; discriminate). clear x l' EL.
    pose proof (remove_exact l o) as RE. unfold std_remove in RE. fold (left_over o l) in RE.
    destruct (find_from (map Some l) 0 (length l) o) as [f| |] eqn:EF; cbn [bind] in RE; try discriminate.
    pose proof (find_left tl o _ _ _ _ EF) as EF'.
    set (it := length (remove Pos.eq_dec o l)) in *.
    set (dn := fun r => DFin (fun e => if deq (b, r) e then k not_found else k ok)).
    set (m' := with_heap m (d_store (d_heap m) b (Some (map Some (left_over o l) ++ tl)))).
    assert (G : goes m (if (f =? length l)%nat then dn (length l) else d_move o b f (S f) (length l - S f) dn) [] m' (dn it)).
    { destruct (f =? length l)%nat.
      - assert (E1 := f_equal (fun r => match r with Ok (_, i) => i | _ => O end) RE). cbn in E1.
        assert (E2 := f_equal (fun r => match r with Ok (a, _) => a | _ => [] end) RE). cbn in E2.
        unfold m'. rewrite <- E2, (store_id _ _ _ (vc_heap _ _ _ _ V)).
        replace (with_heap m (d_heap m)) with m by (destruct m; reflexivity). rewrite <- E1. constructor.
      - apply (move_goes o b dn _ m _ _ _ _ _ (vc_heap _ _ _ _ V)). apply compact_left. exact RE. }
    exists m'. split; [|split; [|split; reflexivity]].
    - do 2 (eapply goes_step; [reflexivity|]). rewrite (vc_start _ _ _ _ V), (vc_fin _ _ _ _ V), deq_snd.
      replace (0 =? length l)%nat with false by (symmetry; apply Nat.eqb_neq; lia).
      eapply goes_trans0; [apply range_goes; [apply (vc_start _ _ _ _ V)|apply (vc_fin _ _ _ _ V)]|]. cbv zeta.
      eapply goes_trans0; [apply (find_goes _ _ _ _ _ (vc_heap _ _ _ _ V) _ _ _ EF')|]. cbv beta.
      eapply goes_trans0; [exact G|]. eapply goes_step; [reflexivity|].
      replace (d_fin m') with (b, length l) by (unfold m'; cbn; symmetry; apply (vc_fin _ _ _ _ V)). rewrite deq_snd.
      destruct (in_dec Pos.eq_dec o l) as [HI|HI].
      + pose proof (proj1 (remove_length_eq o l)). replace (it =? length l)%nat with false; [constructor|].
        symmetry. apply Nat.eqb_neq. unfold it. tauto.
      + unfold it. rewrite (proj2 (remove_length_eq o l) HI), Nat.eqb_refl. constructor.
    - destruct V as [H1 H2 H3 H4 H5]. unfold m'. split; cbn [with_heap d_start d_heap d_fin d_end]; rewrite ?left_over_length; auto.
      eapply store_same, H2.
  Qed.
  Lemma clear_goes m b l tl k : vec m b l tl ->
    goes m (d_clear k) (map VDisc l) (DM (d_val m) (d_start m) (b, 0%nat) (d_end m) (d_heap m) (d_mirror m)) k.
  Proof.
    intros V. unfold d_clear. rewrite <- (app_nil_r (map VDisc l)). eapply goes_trans0; [apply range_goes; [apply (vc_start _ _ _ _ V)|apply (vc_fin _ _ _ _ V)]|].
    eapply goes_trans; [apply (disc_goes m b _ l [] tl 0%nat (vc_heap _ _ _ _ V) eq_refl)|]. do 2 (eapply goes_step; [reflexivity|]).
    rewrite (vc_start _ _ _ _ V), (vc_fin _ _ _ _ V), deq_snd. destruct (Nat.eqb_spec 0 (length l)) as [E|E].
    - pose proof (vc_fin _ _ _ _ V) as F. rewrite <- E in F. rewrite <- F.
      replace (DM (d_val m) b (d_fin m) (d_end m) (d_heap m) (d_mirror m)) with m by (rewrite <- (vc_start _ _ _ _ V); destruct m; reflexivity). constructor.
    - apply goes_one. cbn. rewrite (vc_start _ _ _ _ V). reflexivity.
  Qed.
  Lemma vec_cleared m b l tl : vec m b l tl -> exists tl', vec (DM (d_val m) (d_start m) (b, 0%nat) (d_end m) (d_heap m) (d_mirror m)) b [] tl'.
  Proof.
    intros [H1 H2 H3 H4 H5]. exists (map Some l ++ tl). split; cbn [d_start d_heap d_fin d_end]; auto.
    - rewrite H4, app_length, map_length. reflexivity.
    - rewrite app_length, map_length. exact H5.
  Qed.
  Lemma vec_val m b l tl x mi : vec m b l tl -> vec (mval m x mi) b l tl.
  Proof. intros [H1 H2 H3 H4 H5]. split; assumption. Qed.
  Lemma notify_goes m b l tl v k : vec m b l tl -> goes m (d_notify v k) (map (fun o => Store o v) l) (mval m (d_val m) (mirrors (d_mirror m) l v)) k.
  Proof.
    intros V. unfold d_notify. eapply goes_trans0; [apply range_goes; [apply (vc_start _ _ _ _ V)|apply (vc_fin _ _ _ _ V)]|].
    pose proof (tell_goes m b [] k 0 v l (d_mirror m) 0%nat (d_val m) tl (vc_heap _ _ _ _ V) eq_refl) as G. rewrite Nat.add_0_r in G.
    replace (mval m (d_val m) (d_mirror m)) with m in G by (destruct m; reflexivity). exact G.
  Qed.
  Lemma store_all_mirrors l v : forall mi, dv_store_all l v mi = mirrors mi l v.
  Proof. induction l as [|o l IH]; intros mi; [reflexivity|]. apply IH. Qed.

  (** A call made alone does what it does in ValuesModel. *)
  Notation idle_u := (fun _ _ _ => VReturn).
  Notation idle_d := (fun _ _ => VReturn).
  Lemma call_goes m b l tl c k n lg : vec m b l tl -> fits t (d_val m) c ->
    exists m' b' tl' w' r es, goes m (d_call t c k) es m' k /\ dcrun t idle_u idle_d 1 (DVC (d_val m) l n (d_mirror m) lg) c = Ok (w', r) /\
      vec m' b' (dc_obs w') tl' /\ d_val m' = dc_val w' /\ d_mirror m' = dc_mirror w' /\ dc_log w' = lg ++ es.
  Proof.
    intros V F. assert (P1 : passive idle_u) by (intros ? ? ?; reflexivity). assert (P2 : passive_disc idle_d) by (intros ? ?; reflexivity).
    assert (R := dc_passive t idle_u idle_d P1 P2 0 (DVC (d_val m) l n (d_mirror m) lg) c F).
    cbn [dc_val dc_obs dc_mirror dc_log] in R.
    destruct c as [o|o| |v|op]; cbn [d_call].
    - destruct (in_dec Pos.eq_dec o l) as [HI|HI]; cbn zeta iota in R.
      + exists m, b, tl. eexists _, _, [VRet (VAdd o) (RErr already_contains)].
        split; [|split; [exact R|]; cbn; split; [exact V|auto]].
        unfold d_add. eapply goes_trans0; [apply range_goes; [apply (vc_start _ _ _ _ V)|apply (vc_fin _ _ _ _ V)]|].
        edestruct (scan_goes m b l tl o) as (f & G & LE & E); [exact V|]. eapply goes_trans0; [exact G|]. eapply goes_step; [reflexivity|].
        rewrite (vc_fin _ _ _ _ V), deq_snd. destruct (Nat.eqb_spec f (length l)) as [X|X]; [apply E in X; contradiction|]. apply goes_one. reflexivity.
      + destruct (push_goes m b l tl o (DOut (VAdd o) (RErr ok) k) V) as (m' & b' & tl' & G & V' & E1 & E2).
        exists m', b', tl'. eexists _, _, [VRet (VAdd o) (RErr ok)]. split; [|split; [exact R|]; cbn; split; [exact V'|auto]].
        eapply goes_trans0; [apply (add_to_push m b l tl o _ V HI)|]. eapply goes_trans0; [exact G|]. apply goes_one. reflexivity.
    - destruct (remove_goes m b l tl o (fun e => DOut (VRemove o) (RErr e) k) V) as (m' & G & V' & E1 & E2).
      exists m', b, tl. eexists _, _, [VRet (VRemove o) (RErr (remove_answer l o))]. split; [|split; [exact R|]; cbn; split; [exact V'|auto]].
      eapply goes_trans0; [exact G|]. apply goes_one. reflexivity.
    - destruct (vec_cleared m b l tl V) as [tl' V']. eexists _, b, tl'. eexists _, _, (map VDisc l ++ [VRet VClear RUnit]).
      split; [eapply goes_trans; [apply (clear_goes m b l tl _ V)|apply goes_one; reflexivity]|]. split; [exact R|]. cbn. auto.
    - eexists _, b, tl. eexists _, _, (map (fun o => Store o (conv t v)) l ++ [VRet (VNotify v) (RErr ok)]).
      split; [eapply goes_trans; [apply (notify_goes m b l tl _ _ V)|apply goes_one; reflexivity]|]. split; [exact R|].
      cbn [dc_obs dc_val dc_mirror dc_log]. split; [apply vec_val, V|]. split; [reflexivity|]. split; [symmetry; apply store_all_mirrors|reflexivity].
    - cbn [fits] in F. destruct (published_ub t (d_val m) op) as [U FU]. destruct (published t (d_val m) op) as [p| |] eqn:EP;
        [|destruct F; apply U; reflexivity|congruence]. cbn zeta in R.
      set (m1 := mval m (apply_atomic t (d_val m) op) (d_mirror m)).
      pose proof (vec_val m b l tl (apply_atomic t (d_val m) op) (d_mirror m) V) as V1. fold m1 in V1.
      eexists _, b, tl. eexists _, _, (Applied op :: map (fun o => Store o p) l ++ [VRet (VOp op) (RVal p)]).
      split.
      + change (Applied op :: map (fun o => Store o p) l ++ [VRet (VOp op) (RVal p)]) with ([Applied op] ++ (map (fun o => Store o p) l ++ [VRet (VOp op) (RVal p)])).
        eapply goes_on; [reflexivity|]. rewrite EP. eapply goes_trans; [apply (notify_goes m1 b l tl p _ V1)|apply goes_one; reflexivity].
      + split; [exact R|]. cbn [dc_obs dc_val dc_mirror dc_log]. split; [apply vec_val, V1|]. split; [reflexivity|]. split; [symmetry; apply store_all_mirrors|reflexivity].
  Qed.
End Goes.

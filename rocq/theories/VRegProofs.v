(** One thread running by itself, and schedules made of such runs. *)
From Verif Require Export VRegSpec ValuesProofs4.

Section Goes.
  Variable t : ity.
  Variable Max : Z.
  Notation rstep := (rstep t).
  Notation rrun := (rrun t).
  Notation cap := (max_observers Max).

  Inductive goes : rmem -> rcode -> list rvev -> rmem -> rcode -> Prop :=
  | goes_here m d : goes m d [] m d
  | goes_on m d m1 d1 e es m2 d2 : rstep m d = ROk (m1, d1, e) -> goes m1 d1 es m2 d2 -> goes m d (e ++ es) m2 d2.

  Lemma goes_trans m d e m1 d1 e1 m2 d2 : goes m d e m1 d1 -> goes m1 d1 e1 m2 d2 -> goes m d (e ++ e1) m2 d2.
  Proof. induction 1; intros G; [exact G|]. rewrite <- app_assoc. eapply goes_on; [eassumption|auto]. Qed.
  Lemma goes_trans0 m d m1 d1 e1 m2 d2 : goes m d [] m1 d1 -> goes m1 d1 e1 m2 d2 -> goes m d e1 m2 d2.
  Proof. intros A B. exact (goes_trans _ _ _ _ _ _ _ _ A B). Qed.
  Lemma goes_one m d m1 d1 e : rstep m d = ROk (m1, d1, e) -> goes m d e m1 d1.
  Proof. intros E. rewrite <- (app_nil_r e). eapply goes_on; [exact E|constructor]. Qed.
  Lemma goes_step m d m1 d1 es m2 d2 : rstep m d = ROk (m1, d1, []) -> goes m1 d1 es m2 d2 -> goes m d es m2 d2.
  Proof. intros E G. exact (goes_on m d m1 d1 [] es m2 d2 E G). Qed.
  Lemma goes_slot m i k x es m2 d2 : slot (r_slots m) i = Ok x -> goes m (k x) es m2 d2 -> goes m (RSlot i k) es m2 d2.
  Proof. intros E G. eapply goes_step; [cbn [VRegModel.rstep]; rewrite E; reflexivity|exact G]. Qed.

  (** ** schedules *)
  Lemma rput_same f i d : rput f i d i = d.
  Proof. unfold rput. rewrite Nat.eqb_refl. reflexivity. Qed.
  Lemma rput_other f i d j : j <> i -> rput f i d j = f j.
  Proof. intros N. unfold rput. destruct (Nat.eqb_spec j i); [congruence|reflexivity]. Qed.
  Lemma rrun_app s1 : forall w w1 s2, rrun w s1 = ROk w1 -> rrun w (s1 ++ s2) = rrun w1 s2.
  Proof.
    induction s1 as [|i s1 IH]; intros w w1 s2; cbn [VRegModel.rrun app]; [intros [= ->]; reflexivity|].
    destruct (rmove t w i); try discriminate. apply IH.
  Qed.
  Record goes_to (w : rworld) (i : nat) (es : list rvev) (m : rmem) (d : rcode) (w' : rworld) : Prop := {
    gt_mem : r_mem w' = m;
    gt_own : r_thr w' i = d;
    gt_other : forall j, j <> i -> r_thr w' j = r_thr w j;
    gt_log : r_log w' = r_log w ++ map (pair i) es }.
  Lemma goes_sched m d es m' d' i : goes m d es m' d' -> forall w, r_mem w = m -> r_thr w i = d ->
    exists k w', rrun w (repeat i k) = ROk w' /\ goes_to w i es m' d' w'.
  Proof.
    induction 1 as [m d|m d m1 d1 e es m2 d2 E _ IH]; intros w EM ED.
    - exists O, w. split; [reflexivity|]. split; auto. rewrite app_nil_r. reflexivity.
    - destruct (IH (RWd m1 (rput (r_thr w) i d1) (r_log w ++ map (pair i) e)) eq_refl (rput_same _ _ _)) as (k & w' & R & [G1 G2 G3 G4]).
      exists (S k), w'. split.
      + cbn [repeat VRegModel.rrun]. unfold rmove. rewrite EM, ED, E. exact R.
      + split; [exact G1|exact G2| |].
        * intros j N. rewrite G3 by exact N. apply rput_other, N.
        * rewrite G4. cbn [r_log]. rewrite map_app, app_assoc. reflexivity.
  Qed.

  (** ** calls made alone *)
  Definition arr (m : rmem) (a : list ptr) (n : nat) : rmem := RM (r_val m) a n (r_mirror m) (r_fun m) (r_set m).
  Lemma scan_goes m o yes no : forall rem i b, contains_from (r_slots m) i rem o = Ok b ->
    goes m (scan_code o i rem yes no) [] m (if b then yes else no).
  Proof.
    induction rem as [|q IH]; intros i b; cbn [contains_from scan_code]; [intros [= <-]; constructor|].
    destruct (slot (r_slots m) i) as [x| |] eqn:E; cbn [bind]; try discriminate. intros H.
    eapply goes_slot; [exact E|]. cbv beta. destruct (points_to x o); [injection H as <-; constructor|apply IH, H].
  Qed.
  Lemma add_goes m o k a n e : add_observer Max (r_slots m) (r_cnt m) o = Ok (a, n, e) ->
    goes m (add_code Max o k) [] (arr m a n) (k e).
  Proof.
    unfold add_observer, add_code. intros H. eapply goes_step; [reflexivity|]. cbv beta.
    assert (ME : arr m (r_slots m) (r_cnt m) = m) by (destruct m; reflexivity).
    destruct (cap <=? r_cnt m)%nat; [injection H as <- <- <-; rewrite ME; constructor|].
    destruct (contains_from (r_slots m) 0 (r_cnt m) o) as [b| |] eqn:E; cbn [bind] in H; try discriminate.
    eapply goes_step; [reflexivity|]. eapply goes_trans0; [apply scan_goes, E|]. destruct b; cbn [negb] in H.
    - injection H as <- <- <-. rewrite ME. constructor.
    - destruct (put_slot (r_slots m) (r_cnt m) (Some o)) as [a'| |] eqn:EP; cbn [bind] in H; try discriminate. injection H as <- <- <-.
      eapply goes_step; [reflexivity|]. eapply goes_step; [reflexivity|]. eapply goes_step; [cbn; rewrite EP; reflexivity|]. constructor.
  Qed.
  Lemma left_goes m r k : goes m (left_code r k) [] (if (r_cnt m - r =? 0)%nat then m else arr m (r_slots m) r)
                                                (k (if (r_cnt m - r =? 0)%nat then not_found else ok)).
  Proof.
    unfold left_code. eapply goes_step; [reflexivity|]. cbv beta. destruct (r_cnt m - r =? 0)%nat; [constructor|].
    eapply goes_step; [reflexivity|]. constructor.
  Qed.
  Lemma move_goes o k : forall rem m r i a it, compact (r_slots m) r i rem o = Ok (a, it) ->
    goes m (move_code o r i rem k) [] (arr m a (r_cnt m)) (left_code it k).
  Proof.
    induction rem as [|q IH]; intros m r i a it; cbn [compact move_code].
    - intros [= <- <-]. replace (arr m (r_slots m) (r_cnt m)) with m by (destruct m; reflexivity). constructor.
    - destruct (slot (r_slots m) i) as [x| |] eqn:E; cbn [bind]; try discriminate. intros H.
      eapply goes_slot; [exact E|]. cbv beta. destruct (points_to x o); [apply IH, H|].
      destruct (put_slot (r_slots m) r x) as [a'| |] eqn:EP; cbn [bind] in H; try discriminate.
      eapply goes_step; [cbn; rewrite EP; reflexivity|]. apply (IH (arr m a' (r_cnt m))). exact H.
  Qed.
  Lemma find_goes o k m : forall rem i f, find_from (r_slots m) i rem o = Ok f -> (i + rem = r_cnt m)%nat ->
    forall a it, (if (f =? r_cnt m)%nat then Ok (r_slots m, r_cnt m) else compact (r_slots m) f (S f) (r_cnt m - S f) o) = Ok (a, it) ->
    goes m (find_code o i rem k) [] (arr m a (r_cnt m)) (left_code it k).
  Proof.
    induction rem as [|q IH]; intros i f; cbn [find_from find_code].
    - intros [= <-] L a it. replace (i =? r_cnt m)%nat with true by (symmetry; apply Nat.eqb_eq; lia). intros [= <- <-].
      replace (arr m (r_slots m) (r_cnt m)) with m by (destruct m; reflexivity). replace (r_cnt m) with i by lia. constructor.
    - destruct (slot (r_slots m) i) as [x| |] eqn:E; cbn [bind]; try discriminate. intros H L a it C.
      eapply goes_slot; [exact E|]. cbv beta. destruct (points_to x o).
      + injection H as <-. apply move_goes. replace (i =? r_cnt m)%nat with false in C by (symmetry; apply Nat.eqb_neq; lia).
        replace q with (r_cnt m - S i)%nat by lia. exact C.
      + apply (IH (S i) f H); [lia|exact C].
  Qed.
  Lemma remove_goes m o k a n e : remove_observer Max (r_slots m) (r_cnt m) o = Ok (a, n, e) ->
    goes m (remove_code Max o k) [] (arr m a n) (k e).
  Proof.
    unfold remove_observer, remove_code. intros H. eapply goes_step; [reflexivity|]. cbv beta.
    assert (ME : arr m (r_slots m) (r_cnt m) = m) by (destruct m; reflexivity).
    destruct (cap <? r_cnt m)%nat; [injection H as <- <- <-; rewrite ME; constructor|].
    eapply goes_step; [reflexivity|]. cbv beta. destruct (r_cnt m =? 0)%nat; [injection H as <- <- <-; rewrite ME; constructor|].
    eapply goes_step; [reflexivity|]. cbv beta. unfold std_remove in H.
    destruct (find_from (r_slots m) 0 (r_cnt m) o) as [f| |] eqn:EF; cbn [bind] in H; try discriminate.
    destruct (if (f =? r_cnt m)%nat then _ else _) as [[a' it]| |] eqn:EC in H; cbn [bind] in H; try discriminate.
    eapply goes_trans0; [apply (find_goes o k m _ _ _ EF); [lia|exact EC]|].
    pose proof (left_goes (arr m a' (r_cnt m)) it k) as LG. cbn [arr r_cnt r_slots r_val r_mirror r_fun r_set] in LG.
    destruct (r_cnt m - it =? 0)%nat; cbn [negb] in H; injection H as <- <- <-; exact LG.
  Qed.

  Section Fn.
    Variable fn : addr -> option nat.
    Variable st : addr -> nat.
    Notation idle_u := (fun _ _ _ => VReturn).
    Notation idle_d := (fun _ _ => VReturn).
    Lemma data_goes v o k w : exists es, es = seen fn (Store o v) /\
      goes (mem_of fn st w) (data_code o v k) es
           (RM (v_val w) (v_slots w) (v_cnt w) (set_mirror (v_mirror w) o v) fn st) k.
    Proof.
      eexists. split; [reflexivity|]. unfold data_code, seen.
      change (RStored o v :: match fn o with Some f => [RCalled o f v] | None => [] end)
        with ([RStored o v] ++ match fn o with Some f => [RCalled o f v] | None => [] end).
      eapply goes_on; [reflexivity|]. eapply goes_step; [reflexivity|]. cbn [mem_of r_fun r_val r_slots r_cnt r_mirror r_set]. cbv beta.
      destruct (fn o) as [f|] eqn:EF; [|constructor].
      change [RCalled o f v] with ([RCalled o f v] ++ []). eapply goes_on; [cbn; rewrite EF; reflexivity|].
      eapply goes_step; [cbn; rewrite Nat.eqb_refl; reflexivity|]. constructor.
    Qed.
    Lemma tell_goes step v k : forall rem i w w1, vloop (vcall_data idle_u step v) i rem w = Ok w1 ->
      exists evs, v_log w1 = v_log w ++ evs /\
        goes (mem_of fn st w) (tell_code v i rem k) (flat_map (seen fn) evs) (mem_of fn st w1) k.
    Proof.
      induction rem as [|q IH]; intros i w w1; cbn [vloop tell_code].
      - intros [= <-]. exists []. rewrite app_nil_r. split; [reflexivity|constructor].
      - unfold vcall_data at 1. destruct (slot (v_slots w) i) as [[o|]| |] eqn:E; cbn [bind vbody_run]; try discriminate.
        intros H. destruct (IH _ _ _ H) as (evs & EL & G). cbn [vemit v_log] in EL.
        exists (Store o v :: evs). split; [rewrite EL, <- app_assoc; reflexivity|].
        eapply goes_slot; [exact E|]. cbn [flat_map]. destruct (data_goes v o (tell_code v (S i) q k) w) as (es & -> & GD).
        eapply goes_trans; [exact GD|exact G].
    Qed.
    Lemma disc_goes step k : forall rem i w w1, vloop (vcall_disc idle_d step) i rem w = Ok w1 ->
      exists evs, v_log w1 = v_log w ++ evs /\
        goes (mem_of fn st w) (disc_code i rem k) (flat_map (seen fn) evs)
             (RM (v_val w1) (v_slots w1) 0 (v_mirror w1) fn st) k.
    Proof.
      induction rem as [|q IH]; intros i w w1; cbn [vloop disc_code].
      - intros [= <-]. exists []. rewrite app_nil_r. split; [reflexivity|]. eapply goes_step; [reflexivity|]. constructor.
      - unfold vcall_disc at 1. destruct (slot (v_slots w) i) as [[o|]| |] eqn:E; cbn [bind vbody_run]; try discriminate.
        intros H. destruct (IH _ _ _ H) as (evs & EL & G). cbn [vemit v_log] in EL.
        exists (VDisc o :: evs). split; [rewrite EL, <- app_assoc; reflexivity|].
        eapply goes_slot; [exact E|]. cbn [flat_map seen]. eapply goes_on; [reflexivity|exact G].
    Qed.
    Lemma notify_goes step v k w w1 e : vnotify Max idle_u step v w = Ok (w1, e) ->
      exists evs, v_log w1 = v_log w ++ evs /\
        goes (mem_of fn st w) (notify_code Max v k) (flat_map (seen fn) evs) (mem_of fn st w1) (k e).
    Proof.
      unfold vnotify, notify_code. intros H.
      destruct (cap <? v_cnt w)%nat eqn:EC.
      - injection H as <- <-. exists []. rewrite app_nil_r. split; [reflexivity|].
        eapply goes_step; [reflexivity|]. cbn [mem_of r_cnt]. rewrite EC. constructor.
      - destruct (vloop (vcall_data idle_u step v) 0 (v_cnt w) w) as [w2| |] eqn:EL; cbn [bind] in H; try discriminate. injection H as <- <-.
        destruct (tell_goes step v (k ok) _ _ _ _ EL) as (evs & E1 & G). exists evs. split; [exact E1|].
        eapply goes_step; [reflexivity|]. cbn [mem_of r_cnt]. rewrite EC. eapply goes_step; [reflexivity|]. exact G.
    Qed.
  End Fn.
  Lemma call_goes m c m' es k : alone t Max m c = Ok (m', es) -> goes m (call_code t Max c k) es m' k.
  Proof.
    destruct c as [c|o f]; cbn [alone].
    2:{ intros [= <- <-]. cbn [call_code]. eapply goes_step; [reflexivity|]. apply goes_one. reflexivity. }
    set (w := VW (r_val m) (r_slots m) (r_cnt m) (r_mirror m) []).
    assert (MW : m = mem_of (r_fun m) (r_set m) w) by (destruct m; reflexivity).
    destruct (vrun t Max _ _ 1 w c) as [[w1 r]| |] eqn:E; cbn [bind]; try discriminate. intros [= <- <-].
    set (fn := r_fun m) in *. set (st := r_set m) in *. assert (LW : v_log w = []) by reflexivity. clearbody fn st w. subst m.
    assert (FIN : forall evs w2 c0 r0, v_log w2 = evs -> flat_map (seen fn) (v_log (vemit w2 (VRet c0 r0))) = flat_map (seen fn) evs ++ [RRet (RC c0) r0]).
    { intros evs w2 c0 r0 <-. cbn [vemit v_log]. rewrite flat_map_app. reflexivity. }
    destruct c as [o|o| |n|op]; cbn [vrun call_code] in *.
    - destruct (add_observer Max (v_slots w) (v_cnt w) o) as [[[a n] e]| |] eqn:EA; cbn [bind] in E; try discriminate. injection E as <- <-.
      rewrite (FIN []) by exact LW. eapply goes_trans; [exact (add_goes (mem_of fn st w) o _ a n e EA)|]. apply goes_one. reflexivity.
    - destruct (remove_observer Max (v_slots w) (v_cnt w) o) as [[[a n] e]| |] eqn:EA; cbn [bind] in E; try discriminate. injection E as <- <-.
      rewrite (FIN []) by exact LW. eapply goes_trans; [exact (remove_goes (mem_of fn st w) o _ a n e EA)|]. apply goes_one. reflexivity.
    - destruct (vloop _ 0 (v_cnt w) w) as [w2| |] eqn:EL; cbn [bind] in E; try discriminate. injection E as <- <-.
      destruct (disc_goes fn st _ (ROut (RC VClear) RUnit k) _ _ _ _ EL) as (evs & E1 & G). rewrite LW in E1. cbn [app] in E1.
      rewrite (FIN evs) by exact E1. eapply goes_trans; [eapply goes_step; [reflexivity|exact G]|]. apply goes_one. reflexivity.
    - destruct (vnotify _ _ _ _ w) as [[w2 e]| |] eqn:EN; cbn [bind] in E; try discriminate. injection E as <- <-.
      destruct (notify_goes fn st _ _ (fun e => ROut (RC (VNotify n)) (RErr e) k) _ _ _ EN) as (evs & E1 & G). rewrite LW in E1. cbn [app] in E1.
      rewrite (FIN evs) by exact E1. eapply goes_trans; [exact G|]. apply goes_one. reflexivity.
    - destruct (published t (v_val w) op) as [p| |] eqn:EP; cbn [bind] in E; try discriminate.
      destruct (vnotify _ _ _ _ _) as [[w2 e]| |] eqn:EN in E; cbn [bind] in E; try discriminate. injection E as <- <-.
      destruct (notify_goes fn st _ _ (fun _ => ROut (RC (VOp op)) (RVal p) k) _ _ _ EN) as (evs & E1 & G). cbn [vemit v_log] in E1. rewrite LW in E1. cbn [app] in E1.
      rewrite (FIN (Applied op :: evs)) by exact E1. cbn [flat_map seen]. unfold op_code. rewrite <- app_assoc. eapply goes_on; [reflexivity|].
      cbn [mem_of r_val]. rewrite EP. eapply goes_trans; [exact G|]. apply goes_one. reflexivity.
  Qed.

  (** Thread [i], in front of the call [c], makes it without interruption. *)
  Lemma call_sched w i c l m' es : r_thr w i = prog t Max (c :: l) -> alone t Max (r_mem w) c = Ok (m', es) ->
    exists k w', rrun w (repeat i k) = ROk w' /\ goes_to w i es m' (prog t Max l) w'.
  Proof. intros ET A. exact (goes_sched _ _ _ _ _ i (call_goes _ _ _ _ (prog t Max l) A) w eq_refl ET). Qed.

  (** Two calls cut into pieces: [i] gets to [da], [j] to [db], [i] goes on to [dc], [j] to [dd]. *)
  Lemma cut m a b i j m1 da ea m2 db eb m3 dc ec m4 dd ed : i <> j ->
    goes m (prog t Max [a]) ea m1 da -> goes m1 (prog t Max [b]) eb m2 db -> goes m2 da ec m3 dc -> goes m3 db ed m4 dd ->
    exists s w, rrun (rstart t Max m (two i j a b)) s = ROk w /\ r_mem w = m4 /\ r_thr w i = dc /\ r_thr w j = dd /\
      (forall k, k <> i -> k <> j -> r_thr w k = RStop) /\
      r_log w = map (pair i) ea ++ map (pair j) eb ++ map (pair i) ec ++ map (pair j) ed.
  Proof.
    intros N H1 H2 H3 H4. set (w0 := rstart t Max m (two i j a b)).
    assert (TI : r_thr w0 i = prog t Max [a]) by (cbn; unfold two; rewrite Nat.eqb_refl; reflexivity).
    assert (TJ : r_thr w0 j = prog t Max [b]).
    { cbn. unfold two. destruct (Nat.eqb_spec j i); [congruence|]. rewrite Nat.eqb_refl. reflexivity. }
    assert (TK : forall k, k <> i -> k <> j -> r_thr w0 k = RStop).
    { intros k K1 K2. cbn. unfold two. destruct (Nat.eqb_spec k i); [congruence|]. destruct (Nat.eqb_spec k j); [congruence|]. reflexivity. }
    destruct (goes_sched _ _ _ _ _ i H1 w0 eq_refl TI) as (k1 & w1 & R1 & [A1 A2 A3 A4]).
    destruct (goes_sched _ _ _ _ _ j H2 w1 A1) as (k2 & w2 & R2 & [B1 B2 B3 B4]); [rewrite A3 by auto; exact TJ|].
    destruct (goes_sched _ _ _ _ _ i H3 w2 B1) as (k3 & w3 & R3 & [C1 C2 C3 C4]); [rewrite B3 by auto; exact A2|].
    destruct (goes_sched _ _ _ _ _ j H4 w3 C1) as (k4 & w4 & R4 & [D1 D2 D3 D4]); [rewrite C3 by auto; exact B2|].
    exists (repeat i k1 ++ repeat j k2 ++ repeat i k3 ++ repeat j k4), w4.
    split; [rewrite (rrun_app _ _ _ _ R1), (rrun_app _ _ _ _ R2), (rrun_app _ _ _ _ R3); exact R4|].
    split; [exact D1|]. split; [rewrite D3 by auto; exact C2|]. split; [exact D2|].
    split; [intros k K1 K2; rewrite D3, C3, B3, A3 by auto; apply TK; assumption|].
    rewrite D4, C4, B4, A4. cbn [w0 rstart r_log app]. rewrite <- !app_assoc. reflexivity.
  Qed.
  Lemma cut_done i j w : r_thr w i = RStop -> r_thr w j = RStop -> (forall k, k <> i -> k <> j -> r_thr w k = RStop) -> all_done w.
  Proof. intros A B C k. destruct (Nat.eq_dec k i) as [->|]; [exact A|]. destruct (Nat.eq_dec k j) as [->|]; [exact B|]. apply C; assumption. Qed.
End Goes.

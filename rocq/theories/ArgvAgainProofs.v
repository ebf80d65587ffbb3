(** Lemmas for one parser used several times. *)
From Verif Require Export ArgvAgainSpec ArgvProofs.

Lemma last_given_snoc {A} (conv : string -> option A) args vs v p old mid x :
  last_given_in conv args vs p old mid -> last_given conv args v p mid x ->
  last_given_in conv args (vs ++ [v]) p old x.
Proof.
  intros H [(j & s & G & C & L)|[N ->]].
  - left. exists vs, v, [], j, s. repeat split; auto; apply G.
  - destruct H as [(b & w & a & j & s & E & G & C & L & F)|[F ->]].
    + left. exists b, w, (a ++ [v]), j, s. subst vs. rewrite <- app_assoc. repeat split; auto; try apply G.
      apply Forall_app; split; auto.
    + right. split; [|reflexivity]. apply Forall_app; split; auto.
Qed.

Lemma last_given_cons {A} (conv : string -> option A) args vs v p old mid x :
  last_given conv args v p old mid -> last_given_in conv args vs p mid x ->
  last_given_in conv args (v :: vs) p old x.
Proof.
  intros H [(b & w & a & j & s & E & G & C & L & F)|[F ->]].
  - left. exists (v :: b), w, a, j, s. subst vs. repeat split; auto; apply G.
  - destruct H as [(j & s & G & C & L)|[N ->]].
    + left. exists [], v, vs, j, s. repeat split; auto; apply G.
    + right. split; [constructor; auto|reflexivity].
Qed.

Lemma last_given_again {A} (conv : string -> option A) args v p old x y :
  last_given conv args v p old x -> last_given conv args v p x y -> y = x.
Proof.
  intros H [W|[_ ->]]; [|reflexivity].
  symmetry. refine (last_given_fun conv args v args p old x y _ H _); [tauto|]. left. exact W.
Qed.

Lemma gives_join args v1 v2 p j s :
  (forall m, p <> PBool m) -> ~ waits args v1 \/ v2 = [] ->
  (gives args (v1 ++ v2) p j s <->
   gives args v1 p j s \/ exists k, j = (List.length v1 + k)%nat /\ gives args v2 p k s).
Proof.
  intros NB W. unfold gives, names. split.
  - intros ((a & E & B) & N). destruct (Nat.lt_ge_cases j (List.length v1)) as [L|L].
    + destruct (Nat.lt_ge_cases (1 + j) (List.length v1)) as [L'|L'].
      * left. rewrite nth_error_app1 in E by exact L. rewrite nth_error_app1 in N by exact L'. eauto.
      * exfalso. rewrite nth_error_app1 in E by exact L. rewrite nth_error_app2 in N by lia.
        destruct W as [W|W].
        -- apply W. destruct (nth_error_split v1 j E) as (l1 & l2 & EQ & LE).
           destruct l2 as [|b l2]; [exists l1, a, p; auto|].
           exfalso. rewrite EQ, app_length in L'. cbn in L'. lia.
        -- subst v2. destruct (S j - List.length v1)%nat; discriminate N.
    + right. exists (j - List.length v1)%nat. rewrite nth_error_app2 in E by exact L.
      rewrite nth_error_app2 in N by lia. split; [lia|]. split; [eauto|].
      rewrite <- N. f_equal. lia.
  - intros [((a & E & B) & N)|(k & -> & (a & E & B) & N)].
    + assert (L : (1 + j < List.length v1)%nat) by (apply nth_error_Some; cbn [Nat.add]; rewrite N; discriminate).
      split; [exists a; split; [rewrite nth_error_app1 by lia; exact E|exact B]|].
      rewrite nth_error_app1 by lia. exact N.
    + split; [exists a; split; [rewrite nth_error_app2 by lia; rewrite <- E; f_equal; lia|exact B]|].
      rewrite nth_error_app2 by lia. rewrite <- N. f_equal. lia.
Qed.

Lemma last_given_join {A} (conv : string -> option A) args v1 v2 p old mid x :
  (forall m, p <> PBool m) -> ~ waits args v1 \/ v2 = [] ->
  last_given conv args v1 p old mid -> last_given conv args v2 p mid x ->
  last_given conv args (v1 ++ v2) p old x.
Proof.
  intros NB W H1 H2. pose proof (fun j s => gives_join args v1 v2 p j s NB W) as GJ.
  assert (IN : forall j s, gives args v1 p j s -> (j < List.length v1)%nat).
  { intros j s ((a & E & _) & _). apply nth_error_Some. rewrite E. discriminate. }
  destruct H2 as [(j & s & G & C & L)|[N ->]].
  - left. exists (List.length v1 + j)%nat, s. split; [apply GJ; right; eauto|]. split; [exact C|].
    intros j' s' G' LT. apply GJ in G'. destruct G' as [G'|(k & -> & G')].
    + apply IN in G'. lia.
    + apply (L k s' G'). lia.
  - destruct H1 as [(j & s & G & C & L)|[N1 ->]].
    + left. exists j, s. split; [apply GJ; left; exact G|]. split; [exact C|].
      intros j' s' G' LT. apply GJ in G'. destruct G' as [G'|(k & -> & G')]; [eapply L; eauto|eapply N; eauto].
    + right. split; [|reflexivity]. intros j s G. apply GJ in G. destruct G as [G|(k & -> & G)]; eauto.
Qed.

Lemma names_join args v1 v2 p :
  (exists j, names args (v1 ++ v2) p j) <-> (exists j, names args v1 p j) \/ (exists j, names args v2 p j).
Proof.
  unfold names. split.
  - intros (j & a & E & B). destruct (Nat.lt_ge_cases j (List.length v1)) as [L|L].
    + rewrite nth_error_app1 in E by exact L. left. eauto.
    + rewrite nth_error_app2 in E by exact L. right. eauto.
  - intros [(j & a & E & B)|(j & a & E & B)].
    + exists j, a. split; [|exact B]. rewrite nth_error_app1; [exact E|].
      apply nth_error_Some. rewrite E. discriminate.
    + exists (List.length v1 + j)%nat, a. split; [|exact B]. rewrite nth_error_app2 by lia.
      rewrite <- E. f_equal. lia.
Qed.

Lemma parses_exist {D} (dbl : string -> option D) args vs : short vs -> forall o, exists r, parses dbl args o vs r.
Proof.
  induction 1 as [|v vs L _ IH]; intros o; [exists []; exact Logic.I|].
  destruct (parse_ok D dbl args v o L) as (o' & E & _). destruct (IH o') as (r & P). exists (o' :: r). split; assumption.
Qed.

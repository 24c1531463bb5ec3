(* P_Mount.v -- lemmas about the mount table. *)
From Verif Require Import Base M_Array M_Strings P_Strings M_Mount S_Mount.
From Coq Require Import Lia Sorting.Sorted.

Lemma beq_iff a b : beq a b = true <-> a = b.
Proof.
  revert b. induction a as [|x a IH]; intros [|y b]; cbn [beq]; split; intros H; try discriminate; try reflexivity.
  - apply Bool.andb_true_iff in H as [H1 H2]. apply Z.eqb_eq in H1. apply IH in H2. congruence.
  - injection H as -> ->. apply Bool.andb_true_iff. split; [apply Z.eqb_refl|apply IH; reflexivity].
Qed.
Lemma beq_refl a : beq a a = true.
Proof. apply beq_iff. reflexivity. Qed.
Lemma beq_false a b : beq a b = false <-> a <> b.
Proof.
  split.
  - intros H E. apply beq_iff in E. congruence.
  - intros H. destruct (beq a b) eqn:E; [|reflexivity]. apply beq_iff in E. contradiction.
Qed.
Lemma HasSuffix_iff s p : HasSuffix s p = true <-> exists y, s = y ++ p.
Proof.
  unfold HasSuffix. rewrite HasPrefix_iff. split; intros (y & E).
  - exists (rev y). rewrite <- (rev_involutive s), E, rev_app_distr, rev_involutive. reflexivity.
  - exists (rev y). rewrite E, rev_app_distr. reflexivity.
Qed.
Lemma TrimPrefix_app p r : TrimPrefix (p ++ r) p = r.
Proof.
  unfold TrimPrefix. rewrite (proj2 (HasPrefix_iff p (p ++ r))) by (exists r; reflexivity).
  rewrite skipn_app, skipn_all, Nat.sub_diag. reflexivity.
Qed.

Section Table.
  Context {F : Type}.
  Notation entry := (nat * (bytes * F))%type.

  Lemma valid_dec m : valid_point m <-> HasPrefix m [slash] = true /\ HasSuffix m [slash] = true.
  Proof. unfold valid_point. rewrite HasPrefix_iff, HasSuffix_iff. reflexivity. Qed.

  Lemma nth_snoc (h : list (mop F)) o i x :
    nth_error (h ++ [o]) i = Some x <-> nth_error h i = Some x \/ (i = length h /\ x = o).
  Proof.
    destruct (Nat.lt_ge_cases i (length h)) as [L|L].
    - rewrite nth_error_app1 by exact L. split; [intros H; left; exact H|intros [H|[H _]]; [exact H|lia]].
    - rewrite nth_error_app2 by exact L. split.
      + intros H. destruct (i - length h)%nat as [|k] eqn:E; cbn [nth_error] in H.
        * injection H as <-. right. split; [lia|reflexivity].
        * destruct k; discriminate H.
      + intros [H|[-> ->]].
        * assert (i < length h)%nat by (apply nth_error_Some; congruence). lia.
        * rewrite Nat.sub_diag. reflexivity.
  Qed.
  Lemma event_lt (h : list (mop F)) i o : event h i o -> (i < length h)%nat.
  Proof. unfold event. intros H. apply nth_error_Some. congruence. Qed.
  Lemma event_fun (h : list (mop F)) i o o' : event h i o -> event h i o' -> o = o'.
  Proof. unfold event. congruence. Qed.

  (* in_use, one call later *)
  Lemma in_use_snoc (h : list (mop F)) o m : in_use (h ++ [o]) m <->
    (exists f, o = MMount m f /\ valid_point m) \/ (in_use h m /\ o <> MUmount m).
  Proof.
    unfold in_use, event. split.
    - intros (V & i & f & E & N). apply nth_snoc in E. destruct E as [E|[-> E]].
      + assert (D : o <> MUmount m).
        { intros ->. apply (N (length h)); [apply (event_lt h i _ E)|]. apply nth_snoc. right. split; reflexivity. }
        right. split; [|exact D]. split; [exact V|]. exists i, f. split; [exact E|].
        intros j J H. apply (N j J). apply nth_snoc. left. exact H.
      + left. exists f. split; [symmetry; exact E|exact V].
    - intros [(f & -> & V)|[(V & i & f & E & N) D]].
      + split; [exact V|]. exists (length h), f. split; [apply nth_snoc; right; split; reflexivity|].
        intros j J H. apply nth_snoc in H. destruct H as [H|[-> H]]; [apply event_lt in H; lia|discriminate H].
      + split; [exact V|]. exists i, f. split; [apply nth_snoc; left; exact E|].
        intros j J H. apply nth_snoc in H. destruct H as [H|[-> H]]; [exact (N j J H)|congruence].
  Qed.
  Lemma live_snoc (h : list (mop F)) o i m f : live (h ++ [o]) i m f <->
    (live h i m f /\ o <> MUmount m) \/ (i = length h /\ o = MMount m f /\ valid_point m /\ ~ in_use h m).
  Proof.
    unfold live. split.
    - intros (E & V & U & N). apply nth_snoc in E. destruct E as [E|[-> E]].
      + left. pose proof (event_lt _ _ _ E) as L. split.
        * split; [exact E|]. split; [exact V|]. split.
          -- rewrite firstn_app in U. replace (i - length h)%nat with 0%nat in U by lia. cbn [firstn] in U.
             rewrite app_nil_r in U. exact U.
          -- intros j J H. apply (N j J). apply nth_snoc. left. exact H.
        * intros ->. apply (N (length h) L). apply nth_snoc. right. split; reflexivity.
      + right. split; [reflexivity|]. split; [symmetry; exact E|]. split; [exact V|].
        rewrite firstn_app, firstn_all, Nat.sub_diag in U. cbn [firstn] in U. rewrite app_nil_r in U. exact U.
    - intros [[(E & V & U & N) D]|(-> & -> & V & U)].
      + pose proof (event_lt _ _ _ E) as L. split; [apply nth_snoc; left; exact E|]. split; [exact V|]. split.
        * rewrite firstn_app. replace (i - length h)%nat with 0%nat by lia. cbn [firstn]. rewrite app_nil_r. exact U.
        * intros j J H. apply nth_snoc in H. destruct H as [H|[-> H]]; [exact (N j J H)|congruence].
      + split; [apply nth_snoc; right; split; reflexivity|]. split; [exact V|]. split.
        * rewrite firstn_app, firstn_all, Nat.sub_diag. cbn [firstn]. rewrite app_nil_r. exact U.
        * intros j J H. apply nth_snoc in H. destruct H as [H|[-> H]]; [apply event_lt in H; lia|lia].
  Qed.

  (* the table with the positions of the calls *)
  Definition es_ok (h : list (mop F)) (es : list entry) : Prop :=
    mrun h = map snd es
    /\ (forall i m f, In (i, (m, f)) es <-> live h i m f)
    /\ StronglySorted lt (map fst es)
    /\ NoDup (map (fun e : entry => fst (snd e)) es)
    /\ (forall m, in_use h m <-> exists i f, In (i, (m, f)) es).

  Lemma mrun_snoc h (o : mop F) : mrun (h ++ [o]) = mstep (mrun h) o.
  Proof. unfold mrun. rewrite fold_left_app. reflexivity. Qed.

  Lemma last_of_spec m (t : mtab F) : forall i n, last_of m t i n =
    match last_of m t 0 None with Some k => Some (i + k)%nat | None => n end.
  Proof.
    induction t as [|[m' f] t IH]; intros i n; cbn [last_of fst]; [reflexivity|].
    rewrite (IH (S i)), (IH 1%nat). destruct (last_of m t 0 None) as [k|]; [f_equal; lia|].
    destruct (beq m' m); [f_equal; lia|reflexivity].
  Qed.
  Lemma Umount_filter m (t : mtab F) : NoDup (map fst t) -> Umount m t = filter (fun e => negb (beq (fst e) m)) t.
  Proof.
    unfold Umount. induction t as [|[m' f] t IH]; intros N; [reflexivity|].
    cbn [map fst] in N. apply NoDup_cons_iff in N as [N1 N2]. specialize (IH N2).
    cbn [last_of fst filter]. rewrite last_of_spec. destruct (beq m' m) eqn:E.
    - apply beq_iff in E. subst m'.
      assert (A : last_of m t 0 None = None).
      { clear -N1. induction t as [|[m' f] t IH]; [reflexivity|]. cbn [last_of fst]. cbn [map fst In] in N1.
        assert (D : beq m' m = false) by (apply beq_false; intros ->; apply N1; left; reflexivity).
        rewrite last_of_spec, D, IH; [reflexivity|]. intros H. apply N1. right. exact H. }
      rewrite A. rewrite A in IH. cbn [firstn skipn app negb]. exact IH.
    - cbn [negb]. destruct (last_of m t 0 None) as [k|].
      + cbn [Nat.add]. change (firstn (S k) ((m', f) :: t)) with ((m', f) :: firstn k t).
        change (skipn (S (S k)) ((m', f) :: t)) with (skipn (S k) t). cbn [app]. rewrite IH. reflexivity.
      + rewrite <- IH. reflexivity.
  Qed.

  Lemma filter_map_comm {A B} (g : A -> B) (p : B -> bool) (q : A -> bool) l :
    (forall x, p (g x) = q x) -> filter p (map g l) = map g (filter q l).
  Proof. intros H. induction l as [|x l IH]; [reflexivity|]. cbn [map filter]. rewrite H. destruct (q x); cbn [map]; rewrite IH; reflexivity. Qed.
  Lemma sorted_filter (q : entry -> bool) es : StronglySorted lt (map fst es) -> StronglySorted lt (map fst (filter q es)).
  Proof.
    induction es as [|e es IH]; cbn [map filter]; intros S; [constructor|].
    inversion S as [|? ? S1 S2]; subst. destruct (q e); [|exact (IH S1)]. cbn [map]. constructor; [exact (IH S1)|].
    apply Forall_forall. intros x I. apply in_map_iff in I as (e' & <- & I). apply filter_In in I as [I _].
    rewrite Forall_forall in S2. apply S2. apply in_map. exact I.
  Qed.
  Lemma nodup_filter (g : entry -> bytes) (q : entry -> bool) es : NoDup (map g es) -> NoDup (map g (filter q es)).
  Proof.
    induction es as [|e es IH]; cbn [map filter]; intros S; [constructor|].
    apply NoDup_cons_iff in S as [S1 S2]. destruct (q e); [|exact (IH S2)]. cbn [map]. constructor; [|exact (IH S2)].
    intros I. apply S1. apply in_map_iff in I as (e' & E & I). apply filter_In in I as [I _]. rewrite <- E. apply in_map. exact I.
  Qed.
  Lemma sorted_snoc es (e : entry) : StronglySorted lt (map fst es) -> (forall x, In x es -> (fst x < fst e)%nat) ->
    StronglySorted lt (map fst (es ++ [e])).
  Proof.
    induction es as [|x es IH]; intros S L; cbn [app map]; [repeat constructor|].
    cbn [map] in S. inversion S as [|? ? S1 S2]; subst. constructor.
    - apply IH; [exact S1|]. intros y I. apply L. right. exact I.
    - rewrite map_app. apply Forall_app. split; [exact S2|]. constructor; [|constructor]. apply L. left. reflexivity.
  Qed.

  Lemma es_exists (h : list (mop F)) : exists es, es_ok h es.
  Proof.
    induction h as [|o h IH] using rev_ind.
    - exists []. split; [reflexivity|]. split; [|split; [constructor|split; [constructor|]]].
      + intros i m f. split; [intros []|]. intros (E & _). destruct i; discriminate E.
      + intros m. split; [intros (_ & i & f & E & _); destruct i; discriminate E|intros (i & f & [])].
    - destruct IH as (es & T & L & S & N & U). destruct o as [m f|m].
      + (* Mount *)
        destruct (HasPrefix m [slash]) eqn:V1; [destruct (HasSuffix m [slash]) eqn:V2|].
        * assert (V : valid_point m) by (apply valid_dec; split; assumption).
          destruct (existsb (fun t => beq (fst t) m) (mrun h)) eqn:X.
          -- (* already in use *)
             assert (B : in_use h m).
             { apply U. rewrite T in X. apply existsb_exists in X as ([m' f'] & I & E). cbn [fst] in E.
               apply beq_iff in E. subst m'. apply in_map_iff in I as ((i & m' & f'') & E & I). cbn [snd] in E.
               injection E as -> ->. exists i, f'. exact I. }
             exists es. split; [|split; [|split; [exact S|split; [exact N|]]]].
             ++ rewrite mrun_snoc. cbn [mstep]. unfold Mount. rewrite V1, V2, X. cbn [negb snd]. exact T.
             ++ intros i m' f'. rewrite live_snoc, L. split.
                ** intros H. left. split; [exact H|discriminate].
                ** intros [[H _]|(_ & E & _ & H)]; [exact H|]. injection E as <- <-. contradiction.
             ++ intros m'. rewrite in_use_snoc, <- U. split.
                ** intros [(f' & E & _)|[H _]]; [injection E as <- <-; exact B|exact H].
                ** intros H. right. split; [exact H|discriminate].
          -- (* a new entry *)
             assert (B : ~ in_use h m).
             { intros H. apply U in H as (i & f' & I). apply (in_map snd) in I. cbn [snd] in I. rewrite <- T in I.
               assert (existsb (fun t => beq (fst t) m) (mrun h) = true); [|congruence].
               apply existsb_exists. exists (m, f'). split; [exact I|apply beq_refl]. }
             exists (es ++ [(length h, (m, f))]). split; [|split; [|split; [|split]]].
             ++ rewrite mrun_snoc. cbn [mstep]. unfold Mount. rewrite V1, V2, X. cbn [negb snd].
                rewrite map_app, T. reflexivity.
             ++ intros i m' f'. rewrite live_snoc, in_app_iff, L. split.
                ** intros [H|[E|[]]]; [left; split; [exact H|discriminate]|]. injection E as <- <- <-.
                   right. split; [reflexivity|]. split; [reflexivity|]. split; assumption.
                ** intros [[H _]|(-> & E & _ & H)]; [left; exact H|]. injection E as <- <-. right. left. reflexivity.
             ++ apply sorted_snoc; [exact S|]. intros [i [m' f']] I. apply L in I. destruct I as (I & _).
                apply event_lt in I. exact I.
             ++ rewrite map_app. cbn [map fst snd]. apply NoDup_rev in N.
                rewrite <- (rev_involutive (_ ++ [m])). apply NoDup_rev. rewrite rev_app_distr. cbn [rev app].
                constructor; [|exact N]. intros I. apply in_rev in I. apply in_map_iff in I as ([i [m' f']] & E & I).
                cbn [fst snd] in E. subst m'. apply B, U. exists i, f'. exact I.
             ++ intros m'. rewrite in_use_snoc. split.
                ** intros [(f' & E & _)|[H _]].
                   --- injection E as <- <-. exists (length h), f. apply in_app_iff. right. left. reflexivity.
                   --- apply U in H as (i & f' & I). exists i, f'. apply in_app_iff. left. exact I.
                ** intros (i & f' & I). apply in_app_iff in I as [I|[E|[]]].
                   --- right. split; [apply U; exists i, f'; exact I|discriminate].
                   --- injection E as _ <- <-. left. exists f. split; [reflexivity|exact V].
        * assert (V : ~ valid_point m) by (rewrite valid_dec; intros [_ H]; congruence).
          exists es. split; [|split; [|split; [exact S|split; [exact N|]]]].
          -- rewrite mrun_snoc. cbn [mstep]. unfold Mount. rewrite V1, V2. cbn [negb snd]. exact T.
          -- intros i m' f'. rewrite live_snoc, L. split.
             ++ intros H. left. split; [exact H|discriminate].
             ++ intros [[H _]|(_ & E & H & _)]; [exact H|]. injection E as <- <-. contradiction.
          -- intros m'. rewrite in_use_snoc, <- U. split.
             ++ intros [(f' & E & H)|[H _]]; [injection E as <- <-; contradiction|exact H].
             ++ intros H. right. split; [exact H|discriminate].
        * assert (V : ~ valid_point m) by (rewrite valid_dec; intros [H _]; congruence).
          exists es. split; [|split; [|split; [exact S|split; [exact N|]]]].
          -- rewrite mrun_snoc. cbn [mstep]. unfold Mount. rewrite V1. cbn [negb snd]. exact T.
          -- intros i m' f'. rewrite live_snoc, L. split.
             ++ intros H. left. split; [exact H|discriminate].
             ++ intros [[H _]|(_ & E & H & _)]; [exact H|]. injection E as <- <-. contradiction.
          -- intros m'. rewrite in_use_snoc, <- U. split.
             ++ intros [(f' & E & H)|[H _]]; [injection E as <- <-; contradiction|exact H].
             ++ intros H. right. split; [exact H|discriminate].
      + (* Umount *)
        set (q := fun e : entry => negb (beq (fst (snd e)) m)). exists (filter q es).
        assert (Q : forall x, In x (filter q es) <-> In x es /\ fst (snd x) <> m).
        { intros x. rewrite filter_In. unfold q. rewrite Bool.negb_true_iff, beq_false. reflexivity. }
        split; [|split; [|split; [|split]]].
        * rewrite mrun_snoc. cbn [mstep]. rewrite T, Umount_filter; [apply filter_map_comm; reflexivity|].
          rewrite map_map. exact N.
        * intros i m' f'. rewrite live_snoc, Q, L. cbn [fst snd]. split.
          -- intros [H D]. left. split; [exact H|]. intros E. injection E as <-. contradiction.
          -- intros [[H D]|(_ & E & _)]; [|discriminate E]. split; [exact H|congruence].
        * apply sorted_filter. exact S.
        * apply nodup_filter. exact N.
        * intros m'. rewrite in_use_snoc, U. split.
          -- intros [(f' & E & _)|[(i & f' & I) D]]; [discriminate E|]. exists i, f'. apply Q. split; [exact I|].
             cbn [fst snd]. congruence.
          -- intros (i & f' & I). apply Q in I as [I D]. right. split; [exists i, f'; exact I|]. cbn [fst snd] in D.
             intros E. injection E as <-. contradiction.
  Qed.

  (* lookup: the last entry with a prefix *)
  Lemma scan_tab_none (r : list (bytes * F)) name : scan_tab r name = None <-> forall m f, In (m, f) r -> ~ prefix m name.
  Proof.
    induction r as [|[m f] r IH]; cbn [scan_tab]; [split; [intros _ ? ? []|reflexivity]|].
    destruct (HasPrefix name m) eqn:E.
    - split; [discriminate|]. intros H. exfalso. apply (H m f); [left; reflexivity|]. apply HasPrefix_iff. exact E.
    - rewrite IH. split.
      + intros H m' f' [X|X]; [|exact (H m' f' X)]. injection X as <- <-. intros P. apply HasPrefix_iff in P. congruence.
      + intros H m' f' X. apply (H m' f'). right. exact X.
  Qed.
  Lemma scan_tab_some (es : list entry) name f m :
    StronglySorted (fun a b => lt b a) (map fst es) ->
    (scan_tab (map snd es) name = Some (f, m) ->
     exists i, In (i, (m, f)) es /\ prefix m name /\ forall j m' f', In (j, (m', f')) es -> prefix m' name -> (j <= i)%nat).
  Proof.
    induction es as [|[i [m1 f1]] es IH]; cbn [map scan_tab fst snd]; intros S E; [discriminate|].
    inversion S as [|? ? S1 S2]; subst. destruct (HasPrefix name m1) eqn:P.
    - injection E as <- <-. exists i. split; [left; reflexivity|]. split; [apply HasPrefix_iff; exact P|].
      intros j m' f' [X|X] _; [injection X as <- _ _; lia|]. rewrite Forall_forall in S2.
      apply (in_map fst) in X. specialize (S2 j X). cbv beta in S2. lia.
    - specialize (IH S1 E) as (k & I & Q & M). exists k. split; [right; exact I|]. split; [exact Q|].
      intros j m' f' [X|X] P'; [|exact (M j m' f' X P')]. injection X as <- <- <-. apply HasPrefix_iff in P'. congruence.
  Qed.
  Lemma sorted_rev l : StronglySorted lt l -> StronglySorted (fun a b => lt b a) (rev l).
  Proof.
    induction l as [|x l IH]; intros S; [constructor|]. inversion S as [|? ? S1 S2]; subst. cbn [rev].
    specialize (IH S1). rewrite Forall_forall in S2.
    assert (G : forall k, StronglySorted (fun a b => lt b a) k -> (forall y, In y k -> lt x y) -> StronglySorted (fun a b => lt b a) (k ++ [x])).
    { clear. induction k as [|y k IH]; intros S L; cbn [app]; [repeat constructor|].
      inversion S as [|? ? S1 S2]; subst. constructor; [apply IH; [exact S1|intros z I; apply L; right; exact I]|].
      apply Forall_app. split; [exact S2|]. constructor; [|constructor]. apply L. left. reflexivity. }
    apply G; [exact IH|]. intros y I. apply S2. apply in_rev. exact I.
  Qed.

  Lemma resolves_fun h name i j (m m' : bytes) (f f' : F) : resolves h name i m f -> resolves h name j m' f' ->
    i = j /\ m = m' /\ f = f'.
  Proof.
    intros (A & P & M) (A' & P' & M'). pose proof (M j m' f' A' P') as X. pose proof (M' i m f A P) as Y.
    assert (i = j) by lia. subst j. destruct A as (A & _), A' as (A' & _). pose proof (event_fun _ _ _ _ A A') as E.
    injection E as <- <-. split; [|split]; reflexivity.
  Qed.

  Lemma lookup_none h name : lookup (mrun h) name = Err <-> forall i m (f : F), live h i m f -> ~ prefix m name.
  Proof.
    destruct (es_exists h) as (es & T & L & S & N & U). unfold lookup. rewrite T, map_length.
    destruct es as [|e es].
    - cbn [length Nat.eqb]. split; [|reflexivity]. intros _ i m f A. apply L in A. destruct A.
    - cbn [length Nat.eqb]. split.
      + intros H i m f A P. destruct (scan_tab _ name) eqn:E; [discriminate H|]. rewrite scan_tab_none in E.
        apply (E m f); [|exact P]. apply in_rev. rewrite rev_involutive. apply L in A. apply (in_map snd) in A. exact A.
      + intros H. destruct (scan_tab _ name) eqn:E; [|reflexivity]. exfalso.
        assert (X : scan_tab (rev (map snd (e :: es))) name = None); [|congruence].
        apply scan_tab_none. intros m f I. apply in_rev in I. apply in_map_iff in I as ([i [m' f']] & X & I).
        cbn [snd] in X. injection X as -> ->. apply (H i m f). apply L. exact I.
  Qed.
  Lemma lookup_some h name (f : F) m : lookup (mrun h) name = Ok (f, m) <-> exists i, resolves h name i m f.
  Proof.
    destruct (es_exists h) as (es & T & L & S & N & U).
    assert (O : forall f m, lookup (mrun h) name = Ok (f, m) -> exists i, resolves h name i m f).
    { intros f0 m0. unfold lookup. destruct (length (mrun h) =? 0)%nat; [discriminate|].
      destruct (scan_tab _ name) as [[f1 m1]|] eqn:E; [|discriminate]. intros X. injection X as -> ->.
      rewrite T, <- map_rev in E. apply scan_tab_some in E.
      - destruct E as (i & I & P & M). exists i. split; [apply L, in_rev; exact I|]. split; [exact P|].
        intros j m' f' A. apply (M j m' f'). apply -> in_rev. apply L. exact A.
      - rewrite map_rev. apply sorted_rev. exact S. }
    split; [apply O|]. intros (i & R). destruct (lookup (mrun h) name) as [[f' m']| |] eqn:E.
    - destruct (O f' m' eq_refl) as (j & R'). destruct (resolves_fun _ _ _ _ _ _ _ _ R R') as (_ & -> & ->). reflexivity.
    - exfalso. rewrite lookup_none in E. destruct R as (A & P & _). exact (E i m f A P).
    - exfalso. unfold lookup in E. destruct (length (mrun h) =? 0)%nat; [discriminate|]. destruct (scan_tab _ name); discriminate.
  Qed.

  (* removing a mount point from the table is removing its calls from the history *)
  Lemma mrun_nodup (h : list (mop F)) : NoDup (map fst (mrun h)).
  Proof. destruct (es_exists h) as (es & T & _ & _ & N & _). rewrite T, map_map. exact N. Qed.
  Lemma existsb_filter {A} (p q : A -> bool) l : (forall x, p x = true -> q x = true) -> existsb p (filter q l) = existsb p l.
  Proof.
    intros H. induction l as [|x l IH]; [reflexivity|]. cbn [filter existsb]. destruct (q x) eqn:E; cbn [existsb]; rewrite IH; [reflexivity|].
    destruct (p x) eqn:P; [|reflexivity]. apply H in P. congruence.
  Qed.
  Lemma filter_comm {A} (p q : A -> bool) l : filter p (filter q l) = filter q (filter p l).
  Proof. induction l as [|x l IH]; [reflexivity|]. cbn [filter]. destruct (p x) eqn:P, (q x) eqn:Q; cbn [filter]; rewrite ?P, ?Q, ?IH; reflexivity. Qed.
  Lemma filter_idem {A} (p : A -> bool) l : filter p (filter p l) = filter p l.
  Proof. induction l as [|x l IH]; [reflexivity|]. cbn [filter]. destruct (p x) eqn:P; cbn [filter]; rewrite ?P, ?IH; reflexivity. Qed.
  Definition other (m : bytes) (e : bytes * F) : bool := negb (beq (fst e) m).
  Lemma other_step m (t t' : mtab F) o : NoDup (map fst t) -> NoDup (map fst t') -> filter (other m) t = t' -> point_of o <> m ->
    filter (other m) (mstep t o) = mstep t' o.
  Proof.
    intros N N' E D. destruct o as [m1 f|m1]; cbn [mstep point_of] in *.
    - unfold Mount. destruct (HasPrefix m1 [slash]); cbn [negb snd]; [|exact E].
      destruct (HasSuffix m1 [slash]); cbn [negb snd]; [|exact E].
      rewrite <- E, existsb_filter.
      + destruct (existsb _ t); cbn [snd]; [reflexivity|]. rewrite filter_app. cbn [filter]. unfold other at 2. cbn [fst].
        rewrite (proj2 (beq_false m1 m) D). reflexivity.
      + intros x X. apply beq_iff in X. unfold other. rewrite X. apply Bool.negb_true_iff, beq_false. exact D.
    - rewrite (Umount_filter m1 t N), (Umount_filter m1 t' N'), filter_comm, E. reflexivity.
  Qed.
  Lemma without_app (m : bytes) (h h' : list (mop F)) o : without m (h ++ [o]) h' ->
    exists k, without m h k /\ (h' = k /\ point_of o = m \/ h' = k ++ [o] /\ point_of o <> m).
  Proof.
    revert h'. induction h as [|x h IH]; intros h' W; cbn [app] in W.
    - inversion W as [|? ? ? E W'|? ? ? E W']; subst.
      + inversion W'; subst. exists []. split; [constructor|]. left. split; reflexivity.
      + inversion W'; subst. exists []. split; [constructor|]. right. split; [reflexivity|assumption].
    - inversion W as [|? ? ? E W'|? ? ? E W']; subst.
      + destruct (IH _ W') as (k & Wk & R). exists k. split; [apply without_drop; [reflexivity|exact Wk]|exact R].
      + destruct (IH _ W') as (k & Wk & R). exists (x :: k). split; [apply without_keep; assumption|].
        destruct R as [[-> R]|[-> R]]; [left|right]; (split; [reflexivity|exact R]).
  Qed.
  Lemma mrun_without m (h h' : list (mop F)) : without m h h' -> filter (other m) (mrun h) = mrun h'.
  Proof.
    revert h'. induction h as [|o h IH] using rev_ind; intros h' W.
    - inversion W. reflexivity.
    - apply without_app in W as (k & Wk & R). specialize (IH k Wk). rewrite mrun_snoc.
      destruct R as [[-> D]|[-> D]].
      + rewrite <- IH. destruct o as [m1 f|m1]; cbn [point_of] in D; subst m1; cbn [mstep].
        * unfold Mount. destruct (HasPrefix m [slash]); cbn [negb snd]; [|reflexivity].
          destruct (HasSuffix m [slash]); cbn [negb snd]; [|reflexivity].
          destruct (existsb _ _); cbn [snd]; [reflexivity|]. rewrite filter_app. cbn [filter]. unfold other at 2. cbn [fst].
          rewrite beq_refl. cbn [negb]. rewrite app_nil_r. reflexivity.
        * rewrite Umount_filter by apply mrun_nodup. apply filter_idem.
      + rewrite mrun_snoc. apply other_step; [apply mrun_nodup|apply mrun_nodup|exact IH|exact D].
  Qed.
End Table.

(* ---------- paths ---------- *)
Lemma comps_app s d cur : comps (s ++ [slash] ++ d) cur = comps s cur ++ comps d [].
Proof.
  revert cur. induction s as [|b s IH]; intros cur; cbn [app comps].
  - change (slash =? slash) with true. reflexivity.
  - destruct (b =? slash); cbn [app]; rewrite <- IH; reflexivity.
Qed.
Lemma comps_none d : forall cur, ~ In slash d -> comps d cur = [cur ++ d].
Proof.
  induction d as [|b d IH]; intros cur N; cbn [comps]; [rewrite app_nil_r; reflexivity|].
  rewrite (proj2 (Z.eqb_neq b slash)) by (intros ->; apply N; left; reflexivity).
  rewrite IH by (intros H; apply N; right; exact H). rewrite <- app_assoc. reflexivity.
Qed.
Lemma clean1_entry rooted acc d : entry_name d -> clean1 rooted acc d = d :: acc.
Proof.
  intros (A & B & C & _). unfold clean1. rewrite (proj2 (beq_false d []) A), (proj2 (beq_false d [46]) B), (proj2 (beq_false d [46; 46]) C). reflexivity.
Qed.
Lemma prefix_head (s t : bytes) : s <> [] -> HasPrefix (s ++ t) [slash] = HasPrefix s [slash].
Proof. destruct s as [|b s]; [contradiction|]. intros _. cbn [app HasPrefix]. destruct (s ++ t), s; reflexivity. Qed.
(* a name that ends with a slash or is empty, and an entry below it *)
Lemma Clean_dir_entry s d : s <> [] -> entry_name d -> Clean (s ++ [slash] ++ d) = child (Clean (s ++ [slash])) d.
Proof.
  intros E D. unfold Clean, child. cbn [fst snd]. rewrite !(prefix_head s) by exact E.
  rewrite (comps_app s d), (comps_none d) by apply D. change (s ++ [slash]) with (s ++ [slash] ++ []).
  rewrite (comps_app s []). cbn [comps app]. rewrite !fold_left_app. cbn [fold_left].
  rewrite clean1_entry by exact D. cbn [rev]. reflexivity.
Qed.
Lemma Clean_slash s : s <> [] -> Clean (s ++ [slash]) = Clean s.
Proof.
  intros E. unfold Clean. rewrite (prefix_head s) by exact E. change (s ++ [slash]) with (s ++ [slash] ++ []).
  rewrite (comps_app s []). cbn [comps app]. rewrite fold_left_app. reflexivity.
Qed.
Lemma JoinPath_entry root n d : root <> [] -> directory_name n -> entry_name d -> JoinPath root (n ++ d) = child (JoinPath root n) d.
Proof.
  intros R Hn D. unfold JoinPath. rewrite (proj2 (beq_false root []) R).
  assert (X : n ++ d <> []) by (destruct D as (D & _); destruct n; [exact D|discriminate]).
  rewrite (proj2 (beq_false _ _) X). destruct Hn as [->|(a & ->)].
  - cbn [app]. change (beq [] []) with true. cbv iota.
    change (root ++ slash :: d) with (root ++ [slash] ++ d). rewrite Clean_dir_entry, Clean_slash by assumption. reflexivity.
  - assert (Y : a ++ [slash] <> []) by (destruct a; discriminate). rewrite (proj2 (beq_false _ _) Y).
    rewrite <- !app_assoc. rewrite !(app_assoc root [slash]), !(app_assoc (root ++ [slash]) a).
    rewrite !app_assoc. rewrite <- (app_assoc _ [slash] d). rewrite Clean_dir_entry; [reflexivity| |exact D].
    destruct root; [contradiction|discriminate].
Qed.
Lemma JoinPath_slash root n : root <> [] -> n <> [] -> JoinPath root (n ++ [slash]) = JoinPath root n.
Proof.
  intros R Hn. unfold JoinPath. rewrite (proj2 (beq_false root []) R), (proj2 (beq_false n []) Hn).
  assert (X : n ++ [slash] <> []) by (destruct n; discriminate). rewrite (proj2 (beq_false _ _) X).
  rewrite !app_assoc. apply Clean_slash. destruct root; [contradiction|discriminate].
Qed.

(* ---------- lookup in a table of entries ---------- *)
Lemma scan_tab_ext {F} (r : list (bytes * F)) n n' : (forall m f, In (m, f) r -> (prefix m n <-> prefix m n')) ->
  scan_tab r n = scan_tab r n'.
Proof.
  induction r as [|[m f] r IH]; intros H; [reflexivity|]. cbn [scan_tab].
  assert (E : HasPrefix n m = HasPrefix n' m).
  { specialize (H m f (or_introl eq_refl)). unfold prefix in H. rewrite <- !HasPrefix_iff in H.
    destruct (HasPrefix n m), (HasPrefix n' m); try reflexivity; [symmetry; apply H; reflexivity|apply H; reflexivity]. }
  rewrite E, IH; [reflexivity|]. intros m' f' I. apply (H m' f'). right. exact I.
Qed.
Lemma scan_tab_prefix {F} (r : list (bytes * F)) n f m : scan_tab r n = Some (f, m) -> exists rel, n = m ++ rel.
Proof.
  induction r as [|[m1 f1] r IH]; cbn [scan_tab]; [discriminate|]. destruct (HasPrefix n m1) eqn:E; [|exact IH].
  intros X. injection X as <- <-. apply HasPrefix_iff. exact E.
Qed.

(* Prop_Mount.v -- C116 to C119: mount points, opening and writing files. *)
From Verif Require Import Base M_Array M_Strings P_Strings M_Mount S_Mount P_Mount.
From Coq Require Import Lia Sorting.Sorted.

(* ---------- C116: which file system a name belongs to ---------- *)
(* Opening a name calls the file system of the most recent live mount whose mount point the name
   starts with, with the rest of the name. *)
Theorem C116_open_resolves {F} (h : list (mop F)) (name rel m : bytes) (f : F) :
  open_target (mrun h) name = Ok (f, rel, m) <-> exists i, resolves h name i m f /\ name = m ++ rel.
Proof.
  unfold open_target. split.
  - destruct (lookup (mrun h) name) as [[f' m']| |] eqn:E; cbn [obind fst snd]; [|discriminate|discriminate].
    intros X. injection X as -> <- ->. apply lookup_some in E as (i & R). exists i. split; [exact R|].
    destruct R as (_ & (r & ->) & _). rewrite TrimPrefix_app. reflexivity.
  - intros (i & R & ->). rewrite (proj2 (lookup_some h (m ++ rel) f m)) by (exists i; exact R).
    cbn [obind fst snd]. rewrite TrimPrefix_app. reflexivity.
Qed.
(* Opening is an error exactly if no live mount matches, and never a panic. *)
Theorem C116_open_error {F} (h : list (mop F)) (name : bytes) :
  (open_target (mrun h) name = Err <-> forall i m f, live h i m f -> ~ prefix m name)
  /\ open_target (mrun h) name <> Panic.
Proof.
  unfold open_target. destruct (lookup (mrun h) name) as [[f' m']| |] eqn:E; cbn [obind].
  - split; [|discriminate]. split; [discriminate|]. intros H. exfalso. apply lookup_some in E as (i & A & P & _). exact (H i m' f' A P).
  - split; [|discriminate]. split; [|reflexivity]. intros _. apply lookup_none. exact E.
  - exfalso. unfold lookup in E. destruct (length (mrun h) =? 0)%nat; [discriminate|]. destruct (scan_tab _ name); discriminate.
Qed.
(* A file system that is mounted last on the root hides all others, also those with a longer
   mount point. *)
Theorem C116_root_hides {F} (h : list (mop F)) (f : F) (rel : bytes) : ~ in_use h [slash] ->
  open_target (mrun (h ++ [MMount [slash] f])) ([slash] ++ rel) = Ok (f, rel, [slash]).
Proof.
  intros U. apply C116_open_resolves. exists (length h). split; [|reflexivity].
  assert (V : valid_point [slash]) by (split; exists []; reflexivity).
  split; [apply live_snoc; right; split; [reflexivity|]; split; [reflexivity|]; split; assumption|].
  split; [exists rel; reflexivity|]. intros j m g A _. apply live_snoc in A. destruct A as [[(A & _) _]|(-> & _)]; [|lia].
  apply event_lt in A. lia.
Qed.
(* Creating a file chooses the same file system and the same rest of the name; it needs a
   writable one. *)
Theorem C116_create_agrees {F} (h : list (mop F)) (writable : F -> bool) (name rel : bytes) (f : F) :
  create_target writable (mrun h) name = Ok (f, rel)
  <-> (exists m, open_target (mrun h) name = Ok (f, rel, m)) /\ writable f = true.
Proof.
  unfold create_target, open_target, lookup. destruct (length (mrun h) =? 0)%nat.
  - cbn [obind]. split; [discriminate|intros [(m & H) _]; discriminate H].
  - destruct (scan_tab _ name) as [[f' m]|]; cbn [obind fst snd].
    + destruct (writable f') eqn:W; split.
      * intros X. injection X as <- <-. split; [exists m; reflexivity|exact W].
      * intros [(m' & X) _]. injection X as <- <- _. reflexivity.
      * discriminate.
      * intros [(m' & X) W']. injection X as <- _ _. congruence.
    + split; [discriminate|intros [(m & H) _]; discriminate H].
Qed.
Print Assumptions C116_open_resolves.
Print Assumptions C116_create_agrees.

(* ---------- C117: mounting and unmounting ---------- *)
Theorem C117_mount_succeeds {F} (h : list (mop F)) (m : bytes) (f : F) :
  fst (Mount m f (mrun h)) = Ok tt <-> valid_point m /\ ~ in_use h m.
Proof.
  destruct (es_exists h) as (es & T & _ & _ & _ & U). rewrite valid_dec. unfold Mount.
  destruct (HasPrefix m [slash]); cbn [negb fst]; [|split; [discriminate|intros [[? _] _]; discriminate]].
  destruct (HasSuffix m [slash]); cbn [negb fst]; [|split; [discriminate|intros [[_ ?] _]; discriminate]].
  destruct (existsb _ (mrun h)) eqn:X; cbn [fst].
  - split; [discriminate|]. intros [_ N]. exfalso. apply N, U. apply existsb_exists in X as ([m' f'] & I & E). cbn [fst] in E.
    apply beq_iff in E. subst m'. rewrite T in I. apply in_map_iff in I as ((i & m' & f'') & E & I). cbn [snd] in E.
    injection E as -> ->. exists i, f'. exact I.
  - split; [|reflexivity]. intros _. split; [split; reflexivity|]. intros H. apply U in H as (i & f' & I).
    apply (in_map snd) in I. cbn [snd] in I. rewrite <- T in I.
    assert (existsb (fun t => beq (fst t) m) (mrun h) = true); [|congruence].
    apply existsb_exists. exists (m, f'). split; [exact I|apply beq_refl].
Qed.
Theorem C117_failed_mount_changes_nothing {F} (h : list (mop F)) (m : bytes) (f : F) :
  fst (Mount m f (mrun h)) <> Ok tt -> mrun (h ++ [MMount m f]) = mrun h.
Proof.
  intros H. rewrite mrun_snoc. cbn [mstep]. unfold Mount in *.
  destruct (negb (HasPrefix m [slash])); [reflexivity|]. destruct (negb (HasSuffix m [slash])); [reflexivity|].
  destruct (existsb _ (mrun h)); [reflexivity|]. contradiction.
Qed.
(* After an unmount everything is as if the mount point had never been used. *)
Theorem C117_umount_undoes {F} (h h' : list (mop F)) (m : bytes) :
  without m h h' -> mrun (h ++ [MUmount m]) = mrun h'.
Proof.
  intros W. rewrite mrun_snoc. cbn [mstep]. rewrite Umount_filter by apply mrun_nodup. apply mrun_without. exact W.
Qed.
(* io→mount without a left argument: the live mounts in the order of their mounting, each once. *)
Lemma mount_dict_spec {F} (str : F -> bytes) (t : mtab F) : forall d0, NoDup (fst d0 ++ map fst t) ->
  let d := fold_left (fun d t => (fst d ++ [fst t], fun k => if beq k (fst t) then Some (str (snd t)) else snd d k)) t d0 in
  fst d = fst d0 ++ map fst t
  /\ (forall k, snd d k = match find (fun e => beq k (fst e)) t with Some e => Some (str (snd e)) | None => snd d0 k end).
Proof.
  induction t as [|[m f] t IH]; intros d0 N; cbn [fold_left map fst snd find].
  - split; [rewrite app_nil_r; reflexivity|reflexivity].
  - cbn [map fst] in N. destruct (IH (fst d0 ++ [m], fun k => if beq k m then Some (str f) else snd d0 k)) as [A B].
    { cbn [fst]. rewrite <- app_assoc. exact N. }
    cbn [fst snd] in A, B. split; [rewrite A, <- app_assoc; reflexivity|].
    intros k. rewrite B. destruct (beq k m) eqn:E; [|reflexivity]. apply beq_iff in E. subst k.
    destruct (find (fun e => beq m (fst e)) t) as [[m' f']|] eqn:X; [|reflexivity]. exfalso.
    apply find_some in X as [I E]. cbn [fst] in E. apply beq_iff in E. subst m'.
    apply NoDup_remove_2 in N. apply N. apply in_app_iff. right. apply (in_map fst) in I. exact I.
Qed.
Theorem C117_mount_lists {F} (str : F -> bytes) (h : list (mop F)) :
  exists calls : list (nat * (bytes * F)),
    (forall i m f, In (i, (m, f)) calls <-> live h i m f)
    /\ StronglySorted lt (map fst calls)
    /\ fst (mount_dict str (mrun h)) = map (fun c => fst (snd c)) calls
    /\ NoDup (fst (mount_dict str (mrun h)))
    /\ (forall i m f, In (i, (m, f)) calls -> snd (mount_dict str (mrun h)) m = Some (str f))
    /\ (forall m, ~ in_use h m -> snd (mount_dict str (mrun h)) m = None).
Proof.
  destruct (es_exists h) as (es & T & L & S & N & U). exists es.
  assert (N' : NoDup (map fst (mrun h))) by apply mrun_nodup.
  destruct (mount_dict_spec str (mrun h) ([], fun _ => None)) as [A B]; [exact N'|].
  fold (mount_dict str (mrun h)) in A, B. cbn [fst app snd] in A, B.
  split; [exact L|]. split; [exact S|]. split; [rewrite A, T, map_map; reflexivity|]. split; [rewrite A; exact N'|]. split.
  - intros i m f I. rewrite B. apply (in_map snd) in I. rewrite <- T in I. cbn [snd] in I.
    destruct (find (fun e => beq m (fst e)) (mrun h)) as [[m' f']|] eqn:X.
    + apply find_some in X as [I' E]. cbn [fst] in E. apply beq_iff in E. subst m'. cbn [snd].
      assert (f = f'); [|congruence]. clear -N' I I'. induction (mrun h) as [|[m1 f1] t IH]; [destruct I|].
      cbn [map fst] in N'. apply NoDup_cons_iff in N' as [N1 N2]. destruct I as [I|I], I' as [I'|I'].
      * congruence.
      * injection I as -> ->. apply (in_map fst) in I'. contradiction.
      * injection I' as -> ->. apply (in_map fst) in I. contradiction.
      * exact (IH N2 I I').
    + exfalso. pose proof (find_none _ _ X (m, f) I) as Y. cbn [fst] in Y. rewrite beq_refl in Y. discriminate.
  - intros m H. rewrite B. destruct (find _ (mrun h)) as [[m' f']|] eqn:X; [|reflexivity]. exfalso.
    apply find_some in X as [I E]. cbn [fst] in E. apply beq_iff in E. subst m'. apply H, U. rewrite T in I.
    apply in_map_iff in I as ((i & m' & f'') & E & I). cbn [snd] in E. injection E as -> ->. exists i, f'. exact I.
Qed.
Print Assumptions C117_mount_succeeds.
Print Assumptions C117_umount_undoes.
Print Assumptions C117_mount_lists.

(* The three mounts of the package (register.go:58-60), then one that hides /v/ and is removed. *)
Definition exV : bytes := [47; 118; 47].     (* /v/ *)
Definition exE : bytes := [47; 101; 47].     (* /e/ *)
Definition exH : list (mop Z) := [MMount [47] 0; MMount exV 1; MMount exE 2; MMount [118] 8; MMount exV 9].
Example C116_example : open_target (mrun exH) (exV ++ [65]) = Ok (1, [65], exV)
  /\ open_target (mrun exH) [47; 118] = Ok (0, [118], [47])
  /\ open_target (mrun exH) [118] = Err
  /\ open_target (mrun (exH ++ [MUmount [47]; MMount [47] 0])) (exV ++ [65]) = Ok (0, [118; 47; 65], [47])
  /\ open_target (mrun (exH ++ [MUmount exV])) (exV ++ [65]) = Ok (0, [118; 47; 65], [47]).
Proof. vm_compute. repeat split. Qed.
Example C117_example : resolves exH (exV ++ [65]) 1 exV 1 /\ in_use exH exV /\ ~ in_use exH [118]
  /\ without exV exH [MMount [47] 0; MMount exE 2; MMount [118] 8].
Proof.
  split; [|split; [|split]].
  - destruct (proj1 (C116_open_resolves exH (exV ++ [65]) [65] exV 1) eq_refl) as (i & R & _).
    assert (i = 1%nat); [|subst i; exact R]. destruct R as ((E & _) & _). unfold event, exH in E.
    do 6 (destruct i as [|i]; [cbn in E; try reflexivity; discriminate E|]). destruct i; discriminate E.
  - destruct (in_dec (list_eq_dec Z.eq_dec) exV [exV]) as [_|N]; [|exfalso; apply N; left; reflexivity].
    split; [split; [exists [118; 47]|exists [47; 118]]; reflexivity|]. exists 1%nat, 1. split; [reflexivity|].
    intros j J E. unfold event, exH in E. do 6 (destruct j as [|j]; [cbn in E; discriminate E|]). destruct j; discriminate E.
  - intros ((( a & A) & _) & _). discriminate A.
  - unfold exH. apply without_keep; [discriminate|]. apply without_drop; [reflexivity|].
    apply without_keep; [discriminate|]. apply without_keep; [discriminate|]. apply without_drop; [reflexivity|]. constructor.
Qed.

(* ---------- C118: writing and reading back ---------- *)
Section Files.
  Context {V X : Type} (strFmt : option (bytes -> bytes)) (show : V -> bytes) (isVarname : bytes -> bool * bool)
    (ioVal ppVal : V) (extOpen : X -> bytes -> bytes -> outcome bytes) (extWritable : X -> bool)
    (varList envList : world V X -> bytes -> bytes -> outcome bytes).
  Notation Lookup := (Lookup ioVal ppVal).
  Notation WriteFile := (WriteFile isVarname ioVal ppVal extWritable).
  Notation Open := (Open strFmt show ioVal ppVal extOpen varList envList).

  (* What AssignEnv guarantees for the strings that are stored in variables. *)
  Definition stored_ok (w : world V X) : Prop :=
    frames w <> [] /\ forall f x s, In f (frames w) -> f x = Some (VStr s) ->
      isVarname x = (true, false) /\ hasArrow x = false /\ x <> nQuad /\ x <> nIO /\ x <> nPP.

  (* the name denotes the variable x *)
  Definition names_var (w : world V X) (name x : bytes) : Prop :=
    (exists m, open_target (tab w) name = Ok (VarFs, x, m)) /\ x <> [] /\ HasSuffix x [slash] = false.
  Definition names_env (w : world V X) (name x : bytes) : Prop :=
    (exists m, open_target (tab w) name = Ok (EnvFs, x, m)) /\ x <> [].

  Lemma create_of_open (wr : fsys X -> bool) (t : mtab (fsys X)) name f x m : open_target t name = Ok (f, x, m) ->
    create_target wr t name = if wr f then Ok (f, x) else Err.
  Proof.
    unfold create_target, open_target, lookup. destruct (length t =? 0)%nat; [discriminate|].
    destruct (scan_tab _ name) as [[f' m']|]; cbn [obind fst snd]; [|discriminate]. intros E. injection E as <- <- _. reflexivity.
  Qed.
  Lemma find_frame_in (e : list (bytes -> option (@vval V))) x v : find_frame e x = Some v -> exists f, In f e /\ f x = Some v.
  Proof.
    induction e as [|f e IH]; cbn [find_frame]; [discriminate|]. destruct (f x) as [v'|] eqn:E.
    - intros H. injection H as <-. exists f. split; [left; reflexivity|exact E].
    - intros H. destruct (IH H) as (g & I & G). exists g. split; [right; exact I|exact G].
  Qed.

  (* A variable can be written exactly if it holds a string (and is no package variable). *)
  Theorem C118_var_writable w name x chunks : stored_ok w -> names_var w name x ->
    ((exists w', WriteFile w name chunks = Ok w') <-> hasArrow x = false /\ exists s, Lookup w x = Some (VStr s)).
  Proof using V X isVarname ioVal ppVal extWritable.
    intros (NE & K) ((m & O) & Xe & Xs). unfold M_Mount.WriteFile.
    rewrite (create_of_open _ _ _ _ _ _ O). cbn [writable obind]. unfold var_write. rewrite Xs.
    destruct (hasArrow x) eqn:A; [cbn [obind]; split; [intros (w' & H); discriminate H|intros [H _]; discriminate H]|].
    destruct (Lookup w x) as [[s|v]|] eqn:L; cbn [obind].
    - split; [intros _; split; [reflexivity|exists s; reflexivity]|]. intros _.
      unfold M_Mount.Lookup in L. destruct (beq x nIO) eqn:B1; [discriminate L|]. destruct (beq x nPP) eqn:B2; [discriminate L|].
      rewrite A in L. apply find_frame_in in L as (f & I & Fx). destruct (K f x s I Fx) as (V1 & _ & Q & _).
      unfold AssignStr. rewrite V1, A, B1, B2, (proj2 (beq_false x nQuad) Q). cbn [negb].
      destruct (frames w) as [|g e]; [contradiction|]. destruct (beq x nAlpha && _); eexists; reflexivity.
    - split; [intros (w' & H); discriminate H|intros [_ (s & H)]; discriminate H].
    - split; [intros (w' & H); discriminate H|intros [_ (s & H)]; discriminate H].
  Qed.
  (* After a write the file has the bytes that were written, in any number of pieces; other
     variables, the environment and outer scopes are as before. *)
  Theorem C118_var_write_open_partial w w' name x chunks : stored_ok w -> names_var w name x -> x <> nAlpha -> strFmt = None ->
    WriteFile w name chunks = Ok w' ->
    Open w' name = Ok (concat chunks)
    /\ (forall y, y <> x -> Lookup w' y = Lookup w y)
    /\ tab w' = tab w /\ environ w' = environ w /\ tl (frames w') = tl (frames w) /\ stored_ok w'.
  Proof using V X strFmt show isVarname ioVal ppVal extOpen extWritable varList envList.
    intros (NE & K) N NA SF W. pose proof N as ((m & O) & Xe & Xs). unfold M_Mount.WriteFile in W.
    rewrite (create_of_open _ _ _ _ _ _ O) in W. cbn [writable obind] in W. unfold var_write in W. rewrite Xs in W.
    destruct (hasArrow x) eqn:A; [discriminate W|].
    destruct (Lookup w x) as [[s|v]|] eqn:L; cbn [obind] in W; [|discriminate W|discriminate W].
    unfold M_Mount.Lookup in L. destruct (beq x nIO) eqn:B1; [discriminate L|]. destruct (beq x nPP) eqn:B2; [discriminate L|].
    rewrite A in L. apply find_frame_in in L as (f & I & Fx). destruct (K f x s I Fx) as (V1 & _ & Q & Q2 & Q3).
    unfold AssignStr in W. rewrite V1, A, B1, B2, (proj2 (beq_false x nQuad) Q), (proj2 (beq_false x nAlpha) NA) in W. cbn [negb andb] in W.
    destruct (frames w) as [|g e] eqn:FW; [contradiction|]. injection W as <-.
    split; [|split; [|split; [reflexivity|split; [reflexivity|split; [reflexivity|]]]]].
    - unfold M_Mount.Open. cbn [with_frames tab]. rewrite O. cbn [obind]. unfold var_open.
      rewrite (proj2 (beq_false x []) Xe), Xs. cbn [orb]. unfold M_Mount.Lookup. rewrite B1, B2, A. cbn [with_frames frames find_frame].
      unfold set_frame at 1. rewrite beq_refl. cbn [vprint]. rewrite SF. reflexivity.
    - intros y D. unfold M_Mount.Lookup. destruct (beq y nIO); [reflexivity|]. destruct (beq y nPP); [reflexivity|].
      destruct (hasArrow y); [reflexivity|]. rewrite FW. cbn [with_frames frames find_frame]. unfold set_frame.
      rewrite (proj2 (beq_false y x) D). reflexivity.
    - split; [discriminate|]. intros h y s' J Hy. cbn [with_frames frames] in J. destruct J as [<-|J].
      + unfold set_frame in Hy. destruct (beq y x) eqn:E.
        * apply beq_iff in E. subst y. split; [exact V1|]. split; [exact A|]. split; [exact Q|split; assumption].
        * apply (K g y s'); [left; reflexivity|exact Hy].
      + apply (K h y s'); [right; exact J|exact Hy].
  Qed.
  (* Inside a function whose left argument is given and a string, writing to it is accepted and
     has no effect. *)
  Theorem C118_var_write_left_argument_refuted w name f e s chunks : stored_ok w -> frames w = f :: e ->
    f nAlpha = Some (VStr s) -> names_var w name nAlpha -> WriteFile w name chunks = Ok w.
  Proof using V X isVarname ioVal ppVal extWritable.
    intros (NE & K) FW Fa ((m & O) & Xe & Xs). unfold M_Mount.WriteFile.
    rewrite (create_of_open _ _ _ _ _ _ O). cbn [writable obind].
    destruct (K f nAlpha s) as (V1 & A & Q & _); [rewrite FW; left; reflexivity|exact Fa|].
    unfold var_write, M_Mount.Lookup. rewrite Xs, A, FW. change (beq nAlpha nIO) with false. change (beq nAlpha nPP) with false.
    cbv iota. cbn [find_frame]. rewrite Fa. cbn [obind]. unfold AssignStr. rewrite V1, A, FW.
    change (beq nAlpha nQuad) with false. change (beq nAlpha nIO) with false. change (beq nAlpha nPP) with false.
    cbn [negb]. cbv iota. rewrite beq_refl, Fa. reflexivity.
  Qed.
  (* A string is only ever stored under the name of a variable, and only that one changes. *)
  Theorem C118_assigned_names w name s w' : stored_ok w -> AssignStr isVarname w name s = Ok w' ->
    stored_ok w' /\ (forall y, y <> name -> Lookup w' y = Lookup w y) /\ tl (frames w') = tl (frames w)
    /\ tab w' = tab w /\ environ w' = environ w.
  Proof using V X isVarname ioVal ppVal.
    intros (NE & K) H. unfold AssignStr in H. destruct (isVarname name) as [ok isfunc] eqn:EV.
    destruct ok; [|discriminate H]. cbn [negb] in H. cbv iota in H. destruct (hasArrow name) eqn:A; [discriminate H|].
    destruct (beq name nQuad) eqn:B1; [injection H as <-; split; [split; assumption|repeat split; reflexivity]|].
    destruct (beq name nIO) eqn:B2; [discriminate H|]. destruct (beq name nPP) eqn:B3; [discriminate H|].
    destruct isfunc; [discriminate H|]. destruct (frames w) as [|f e] eqn:Ef; [discriminate H|].
    destruct (beq name nAlpha && match f nAlpha with Some _ => true | None => false end) eqn:B4.
    { injection H as <-. split; [split; [rewrite Ef; discriminate|rewrite Ef; exact K]|]. rewrite Ef. repeat split. }
    injection H as <-. apply beq_false in B1, B2, B3. unfold with_frames. split.
    - split; [discriminate|]. cbn [frames]. intros g x s0 [<-|I] G; [|apply (K g x s0); [right; exact I|exact G]].
      unfold set_frame in G. destruct (beq x name) eqn:Bx; [|apply (K f x s0); [left; reflexivity|exact G]].
      apply beq_iff in Bx. subst x. repeat split; assumption.
    - cbn [frames tab environ]. split; [|repeat split]. intros y Hy. unfold M_Mount.Lookup. cbn [pkgvar frames]. rewrite Ef. cbn [find_frame]. unfold set_frame.
      rewrite (proj2 (beq_false y name) Hy). reflexivity.
  Qed.
  (* The environment: any name that the os accepts. *)
  Theorem C118_env_write_open w name x chunks : names_env w name x ->
    ((exists w', WriteFile w name chunks = Ok w') <-> (~ In 61 x /\ ~ In 0 x /\ ~ In 0 (concat chunks)))
    /\ (forall w', WriteFile w name chunks = Ok w' ->
        Open w' name = Ok (concat chunks)
        /\ (forall y, y <> x -> environ w' y = environ w y)
        /\ tab w' = tab w /\ frames w' = frames w).
  Proof using V X strFmt show isVarname ioVal ppVal extOpen extWritable varList envList.
    intros ((m & O) & Xe). unfold M_Mount.WriteFile. rewrite (create_of_open _ _ _ _ _ _ O). cbn [writable obind].
    unfold setenv. rewrite (proj2 (beq_false x []) Xe). cbn [orb].
    assert (B : existsb (fun b => (b =? 61) || (b =? 0)) x = false <-> ~ In 61 x /\ ~ In 0 x).
    { rewrite <- Bool.not_true_iff_false, existsb_exists. split.
      - intros H. split; intros I; apply H; [exists 61|exists 0]; split; try exact I; reflexivity.
      - intros [A1 A2] (b & I & E). apply Bool.orb_true_iff in E as [E|E]; apply Z.eqb_eq in E; subst b; contradiction. }
    assert (D : existsb (fun b => b =? 0) (concat chunks) = false <-> ~ In 0 (concat chunks)).
    { rewrite <- Bool.not_true_iff_false, existsb_exists. split.
      - intros H I. apply H. exists 0. split; [exact I|reflexivity].
      - intros A1 (b & I & E). apply Z.eqb_eq in E; subst b; contradiction. }
    destruct (existsb (fun b => (b =? 61) || (b =? 0)) x) eqn:E1; [|destruct (existsb (fun b => b =? 0) (concat chunks)) eqn:E2]; cbn [orb].
    - split; [|intros w' H; discriminate H]. split; [intros (w' & H); discriminate H|]. intros (A1 & A2 & _).
      assert (true = false) by (apply B; split; assumption). discriminate.
    - split; [|intros w' H; discriminate H]. split; [intros (w' & H); discriminate H|]. intros (_ & _ & A3).
      assert (true = false) by (apply D; assumption). discriminate.
    - split.
      + split; [|intros _; eexists; reflexivity]. intros _. split; [apply B; reflexivity|]. split; [apply B; reflexivity|apply D; reflexivity].
      + intros w' H. injection H as <-. split; [|split; [|split; reflexivity]].
        * unfold M_Mount.Open. cbn [with_environ tab]. rewrite O. cbn [obind]. unfold env_open.
          rewrite (proj2 (beq_false x []) Xe). cbn [with_environ environ]. rewrite beq_refl. reflexivity.
        * intros y Ny. cbn [with_environ environ]. rewrite (proj2 (beq_false y x) Ny). reflexivity.
  Qed.

  (* ---------- C119: listing a directory ---------- *)
  (* The full name of an entry of the directory n *)
  Definition full (n : bytes) (d : bytes * bool) : bytes := n ++ fst d ++ (if snd d then [slash] else []).
  (* A name below an absolute root never leaves the file system: the path has no component "..",
     "." or "" (but it may leave the root of the mount, see C119_escape). *)
  Lemma clean_rooted l : forall acc, (forall c, In c acc -> c <> [] /\ c <> [46] /\ c <> [46; 46]) ->
    forall c, In c (fold_left (clean1 true) l acc) -> c <> [] /\ c <> [46] /\ c <> [46; 46].
  Proof using.
    induction l as [|d l IH]; intros acc H c; cbn [fold_left]; [apply H|]. apply IH. clear IH c l. unfold clean1.
    destruct (beq d [] || beq d [46]) eqn:B; [exact H|]. apply Bool.orb_false_iff in B. destruct B as [B1 B2].
    destruct (beq d [46; 46]) eqn:B3.
    - destruct acc as [|x acc]; [intros c []|]. rewrite (proj2 (beq_false x [46; 46])) by apply (H x (or_introl eq_refl)).
      intros c I. apply H. right. exact I.
    - intros c [<-|I]; [|apply H; exact I]. rewrite beq_false in B1, B2, B3. repeat split; assumption.
  Qed.
  Theorem C119_absolute root n : HasPrefix root [slash] = true ->
    fst (JoinPath root n) = true /\ forall c, In c (snd (JoinPath root n)) -> c <> [] /\ c <> [46] /\ c <> [46; 46].
  Proof using.
    intros H. assert (R : root <> []) by (intros ->; discriminate H). unfold JoinPath. rewrite (proj2 (beq_false root []) R).
    assert (HP : forall t, HasPrefix (root ++ t) [slash] = true) by (intros t; rewrite prefix_head by exact R; exact H).
    destruct (beq n []); unfold Clean; cbn [fst snd]; rewrite ?HP, ?H; (split; [reflexivity|]); intros c I; apply in_rev in I;
      eapply clean_rooted; try exact I; intros d [].
  Qed.
  Theorem C119_escape root cs c : HasPrefix root [slash] = true -> snd (Clean root) = cs ++ [c] ->
    JoinPath root [46; 46] = (true, cs).
  Proof using.
    intros H E. assert (R : root <> []) by (intros ->; discriminate H). unfold JoinPath. rewrite (proj2 (beq_false root []) R).
    change (beq [46; 46] []) with false. cbv iota. unfold Clean in *. cbv zeta in *. cbn [snd] in E. rewrite (prefix_head root) by exact R. rewrite H in *.
    rewrite comps_app, fold_left_app. change (comps [46; 46] []) with [[46; 46]].
    apply (f_equal (@rev bytes)) in E. rewrite rev_involutive, rev_app_distr in E. cbn [rev app] in E. rewrite E. cbn [fold_left].
    unfold clean1. change (beq [46; 46] [] || beq [46; 46] [46]) with false. change (beq [46; 46] [46; 46]) with true. cbv iota.
    rewrite (proj2 (beq_false c [46; 46])).
    - rewrite rev_involutive. reflexivity.
    - apply (clean_rooted (comps root []) [] (fun _ F => match F with end) c). exact (eq_ind_r (fun l : list bytes => In c l) (in_eq c (rev cs)) E).
  Qed.
  (* Opening a directory gives the full names of its entries, one on each line.  Each of these
     names, opened in turn, is that entry: the content of the file, or the list of the directory;
     unless something is mounted below. *)
  Theorem C119_listing w n rel root m l : open_target (tab w) n = Ok (OsFs root, rel, m) -> root <> [] -> directory_name rel ->
    osfs w (JoinPath root rel) = Some (OsDir l) -> Forall (fun d => entry_name (fst d)) l ->
    Open w n = Ok (Join (map (full n) l) [10])
    /\ forall d, In d l -> (forall m' f', In (m', f') (tab w) -> prefix m' (full n d) -> prefix m' n) ->
         (forall c, osfs w (child (JoinPath root rel) (fst d)) = Some (OsFile c) -> Open w (full n d) = Ok c)
         /\ (forall l', snd d = true -> osfs w (child (JoinPath root rel) (fst d)) = Some (OsDir l') ->
               Open w (full n d) = Ok (Join (map (full (full n d)) l') [10])).
  Proof using V X strFmt show ioVal ppVal extOpen varList envList.
    intros O R Dn OS FE. unfold M_Mount.Open. rewrite O. cbn [obind]. unfold os_open at 1. rewrite OS.
    assert (Nm : n = m ++ rel).
    { unfold open_target, lookup in O. destruct (length (tab w) =? 0)%nat; [discriminate O|].
      destruct (scan_tab _ n) as [[f' m']|] eqn:E; [|discriminate O]. cbn [obind fst snd] in O. injection O as -> <- ->.
      apply scan_tab_prefix in E as (r & ->). rewrite TrimPrefix_app. reflexivity. }
    split.
    - f_equal. f_equal. apply map_ext. intros d. unfold full. rewrite Nm, <- !app_assoc. reflexivity.
    - intros d I NS. rewrite Forall_forall in FE. specialize (FE d I).
      assert (O' : open_target (tab w) (full n d) = Ok (OsFs root, rel ++ fst d ++ (if snd d then [slash] else []), m)).
      { unfold open_target, lookup in *. destruct (length (tab w) =? 0)%nat; [discriminate O|].
        rewrite (scan_tab_ext (rev (tab w)) (full n d) n).
        - destruct (scan_tab _ n) as [[f' m']|]; [|discriminate O]. cbn [obind fst snd] in *. injection O as -> _ ->.
          unfold full. rewrite Nm, <- app_assoc, TrimPrefix_app. reflexivity.
        - intros m' f' J. split.
          + apply (NS m' f'). apply in_rev. exact J.
          + intros (r & E). exists (r ++ fst d ++ (if snd d then [slash] else [])). unfold full. rewrite E, <- app_assoc. reflexivity. }
      rewrite O'. cbn [obind]. unfold os_open.
      assert (P : JoinPath root (rel ++ fst d ++ (if snd d then [slash] else [])) = child (JoinPath root rel) (fst d)).
      { rewrite app_assoc, <- (JoinPath_entry root rel (fst d)) by assumption. destruct (snd d); [|rewrite app_nil_r; reflexivity].
        apply JoinPath_slash; [exact R|]. destruct FE as (FE & _). destruct rel; [exact FE|discriminate]. }
      rewrite P. split.
      + intros c H. rewrite H. reflexivity.
      + intros l' S H. rewrite H. f_equal. f_equal. apply map_ext. intros d'. unfold full. rewrite Nm, <- !app_assoc. reflexivity.
  Qed.
End Files.
Print Assumptions C118_var_write_open_partial.
Print Assumptions C118_env_write_open.
Print Assumptions C119_listing.

(* A world: the variables A (a string) and B (a number), PATH in the environment, and a directory
   /r/a with a file b and a directory c. *)
Definition exVarname (x : bytes) : bool * bool := if HasPrefix x nAlpha then (true, false) else
  match x with b :: _ => (true, negb ((65 <=? b) && (b <=? 90))) | [] => (false, false) end.
Definition exOs (p : path) : option osentry :=
  match p with
  | (true, [[114]]) => Some (OsDir [([97], true)])
  | (true, [[114]; [97]]) => Some (OsDir [([98], false); ([99], true)])
  | (true, [[114]; [97]; [98]]) => Some (OsFile [104; 105])
  | (true, [[114]; [97]; [99]]) => Some (OsDir [])
  | _ => None
  end.
Definition exW : world Z Z := mkWorld
  (mrun [MMount [47] (OsFs [47; 114]); MMount exV VarFs; MMount exE EnvFs])
  [fun x => if beq x [65] then Some (VStr [120]) else if beq x [66] then Some (VOther 5) else if beq x nAlpha then Some (VStr [97]) else None]
  (fun _ => None) (fun x => if beq x [80] then Some [47] else None) exOs.
Notation exOpen := (Open None (fun _ => [53]) 1 (-1) (fun _ _ _ => Err) (fun _ _ _ => Err) (fun _ _ _ => Err)).
Notation exWrite := (WriteFile exVarname 1 (-1) (fun _ => false)).
Lemma exW_ok : stored_ok exVarname exW.
Proof.
  split; [discriminate|]. intros f x s [<-|[]]. destruct (beq x [65]) eqn:E1.
  - apply beq_iff in E1. subst x. intros _. vm_compute. repeat split; discriminate.
  - destruct (beq x [66]); [discriminate|]. destruct (beq x nAlpha) eqn:E3; [|discriminate].
    apply beq_iff in E3. subst x. intros _. vm_compute. repeat split; discriminate.
Qed.
Example C118_example : stored_ok exVarname exW /\ names_var exW (exV ++ [65]) [65] /\ names_env exW (exE ++ [80]) [80]
  /\ names_var exW (exV ++ nAlpha) nAlpha
  /\ exOpen exW (exV ++ [65]) = Ok [120] /\ exOpen exW (exV ++ [66]) = Ok [53] /\ exOpen exW (exE ++ [80]) = Ok [47]
  /\ (let* w := exWrite exW (exV ++ [65]) [[49; 50]; []; [51]] in exOpen w (exV ++ [65])) = Ok [49; 50; 51]
  /\ exWrite exW (exV ++ [66]) [[49]] = Err /\ exWrite exW (exV ++ [67]) [[49]] = Err /\ exWrite exW [47; 97] [[49]] = Err
  /\ (let* w := exWrite exW (exV ++ nAlpha) [[49]] in exOpen w (exV ++ nAlpha)) = Ok [97]
  /\ (let* w := exWrite exW (exE ++ [81]) [[49]; [50]] in exOpen w (exE ++ [81])) = Ok [49; 50].
Proof.
  split; [exact exW_ok|]. split; [split; [exists exV; reflexivity|split; [discriminate|reflexivity]]|].
  split; [split; [exists exE; reflexivity|discriminate]|].
  split; [split; [exists exV; reflexivity|split; [discriminate|reflexivity]]|].
  vm_compute. repeat split.
Qed.
(* Without the slash at its end a directory is listed too, but with names of nothing; this is not
   the name of a directory in the sense of io/README.md. *)
Example C119_example : directory_name [97; 47] /\ open_target (tab exW) [47; 97; 47] = Ok (OsFs [47; 114], [97; 47], [47])
  /\ exOpen exW [47] = Ok [47; 97; 47]
  /\ exOpen exW [47; 97; 47] = Ok ([47; 97; 47; 98] ++ [10] ++ [47; 97; 47; 99; 47])
  /\ exOpen exW [47; 97; 47; 98] = Ok [104; 105] /\ exOpen exW [47; 97; 47; 99; 47] = Ok []
  /\ exOpen exW [47; 97] = Ok ([47; 97; 98] ++ [10] ++ [47; 97; 99; 47]) /\ exOpen exW [47; 97; 98] = Err.
Proof. split; [right; exists [97]; reflexivity|]. vm_compute. repeat split. Qed.

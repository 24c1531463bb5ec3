(* S_Mount.v -- vocabulary for histories of mounts. *)
From Verif Require Import Base M_Strings M_Mount.

Section Spec.
  Context {F : Type}.
  (* the i-th call of a history *)
  Definition event (h : list (mop F)) (i : nat) (o : mop F) : Prop := nth_error h i = Some o.
  (* a mount point starts and ends with a slash *)
  Definition valid_point (m : bytes) : Prop := (exists a, m = [slash] ++ a) /\ (exists b, m = b ++ [slash]).
  (* m was mounted and not unmounted since *)
  Definition in_use (h : list (mop F)) (m : bytes) : Prop :=
    valid_point m /\ exists i f, event h i (MMount m f) /\ forall j, (i < j)%nat -> ~ event h j (MUmount m).
  (* the i-th call mounted f under m, and this mount is still there *)
  Definition live (h : list (mop F)) (i : nat) (m : bytes) (f : F) : Prop :=
    event h i (MMount m f) /\ valid_point m /\ ~ in_use (firstn i h) m
    /\ forall j, (i < j)%nat -> ~ event h j (MUmount m).
  Definition prefix (p s : bytes) : Prop := exists r, s = p ++ r.
  (* the i-th call is the most recent of the live mounts that the name starts with *)
  Definition resolves (h : list (mop F)) (name : bytes) (i : nat) (m : bytes) (f : F) : Prop :=
    live h i m f /\ prefix m name
    /\ forall j m' f', live h j m' f' -> prefix m' name -> (j <= i)%nat.
  (* the mount point of a call *)
  Definition point_of (o : mop F) : bytes := match o with MMount m _ => m | MUmount m => m end.
  (* the second history is the first one without its calls for this mount point *)
  Inductive without (m : bytes) : list (mop F) -> list (mop F) -> Prop :=
  | without_nil : without m [] []
  | without_drop o h h' : point_of o = m -> without m h h' -> without m (o :: h) h'
  | without_keep o h h' : point_of o <> m -> without m h h' -> without m (o :: h) (o :: h').
End Spec.

(* ---------- directories of the operating system ---------- *)
(* a name of a directory entry, as the os reports it *)
Definition entry_name (d : bytes) : Prop := d <> [] /\ d <> [46] /\ d <> [46; 46] /\ ~ In slash d.
(* the entry d of the directory at the path p *)
Definition child (p : path) (d : bytes) : path := (fst p, snd p ++ [d]).
(* the name of a directory: the root of a file system, or it ends with a slash *)
Definition directory_name (n : bytes) : Prop := n = [] \/ exists a, n = a ++ [slash].

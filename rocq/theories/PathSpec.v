(** Vocabulary of the path properties (C55, C56, C92).  What a path denotes: resolve in InstallSpec. *)
From Verif Require Import Base SemverSpec InstallSpec.

Definition separator (c : Z) : Prop := c = 47 \/ c = 92.
(** io's paths may use either separator *)
Definition slashes (p : bytes) : bytes := map (fun c => if c =? 92 then 47 else c) p.
(** The location a path denotes for a process working in cwd *)
Definition location (cwd p : bytes) : list bytes := resolve cwd (slashes p).
(** A name of a directory entry *)
Definition name (x : bytes) : Prop := x <> [] /\ x <> bs "." /\ x <> bs ".." /\ ~ In 47 x /\ ~ In 92 x /\ ~ In 0 x.
(** The paths without anything superfluous: /n/.../n, ../../n/.../n, or a dot *)
Definition canonical (p : bytes) : Prop :=
  (exists names, Forall name names /\ p = 47 :: join 47 names) \/
  (exists k names, Forall name names /\ (0 < k + length names)%nat /\ p = join 47 (List.repeat (bs "..") k ++ names)) \/
  p = bs ".".
(** The non-empty pieces of a path *)
Definition pieces (p : bytes) : list bytes := filter (fun x => negb (same_name x [])) (parts (slashes p)).
Definition separators (p : bytes) : nat := length (filter (fun c => (c =? 47) || (c =? 92)) p).
(** What p denotes seen from a place *)
Definition seen_from (place : list bytes) (p : bytes) : list bytes :=
  match slashes p with 47 :: _ => walk [] (parts (slashes p)) | _ => walk place (parts (slashes p)) end.
Definition ends_in_separator (p : bytes) : Prop := exists q c, p = q ++ [c] /\ separator c.

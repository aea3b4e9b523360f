(** Model of version handling in cli/update.go:127-313, 378-402, 623-637, 673-771, 822-892.
    Go strings are lists of bytes; int is 64 bits. *)
From Verif Require Import Base Decimal SemverSpec.

(** strings.Index for one byte, as a cut: text before and after the first c *)
Fixpoint cut (c : Z) (s : bytes) : option (bytes * bytes) :=
  match s with
  | [] => None
  | x :: s => if x =? c then Some ([], s) else match cut c s with Some (a, b) => Some (x :: a, b) | None => None end
  end.
(** strings.Split with a one-byte separator *)
Fixpoint split_on (c : Z) (s : bytes) : list bytes :=
  match s with
  | [] => [[]]
  | x :: s => if x =? c then [] :: split_on c s
              else match split_on c s with f :: r => (x :: f) :: r | [] => [[x]] end
  end.
(** strings.TrimPrefix(v, "v") *)
Definition trim_v (s : bytes) : bytes := match s with c :: r => if c =? 118 then r else s | [] => s end.
Definition digit (c : Z) : bool := (48 <=? c) && (c <=? 57).
Fixpoint take (p : Z -> bool) (s : bytes) : bytes * bytes :=
  match s with [] => ([], []) | c :: r => if p c then let (a, b) := take p r in (c :: a, b) else ([], s) end.
(** fmt.Sscanf(s, "%d", &x): Go's fmt skips spaces (Unicode spaces in UTF-8 included) but not a newline, then reads an
    optional sign and digits; nothing is stored when there are no digits or the number is not an int *)
Fixpoint skip_space (s : bytes) : option bytes :=
  match s with
  | [] => Some []
  | c :: r =>
      if c =? 10 then None
      else if ((9 <=? c) && (c <=? 13)) || (c =? 32) then skip_space r
      else match r with
           | d :: r2 =>
               if (c =? 194) && ((d =? 133) || (d =? 160)) then skip_space r2
               else match r2 with
                    | e :: r3 =>
                        if ((c =? 225) && (d =? 154) && (e =? 128)) ||
                           ((c =? 226) && (d =? 128) && (((128 <=? e) && (e <=? 138)) || (e =? 168) || (e =? 169) || (e =? 175))) ||
                           ((c =? 226) && (d =? 129) && (e =? 159)) || ((c =? 227) && (d =? 128) && (e =? 128))
                        then skip_space r3 else Some s
                    | [] => Some s
                    end
           | [] => Some s
           end
  end.
Definition scan_int (s : bytes) : option Z :=
  match skip_space s with
  | None => None
  | Some s =>
      let '(neg, s) := match s with c :: r => if c =? 45 then (true, r) else if c =? 43 then (false, r) else (false, s) | [] => (false, s) end in
      let (ds, _) := take digit s in
      match ds with
      | [] => None
      | _ => let v := if neg then - dec_val ds else dec_val ds in
             if (INT64_MIN <=? v) && (v <=? INT64_MAX) then Some v else None
      end
  end.
Definition scan_or_0 (s : bytes) : Z := match scan_int s with Some n => n | None => 0 end.

(** -\d+-g[0-9a-f]+(-dirty)?$ at the start of s (update.go:141, 146): count, hash, dirty *)
Definition hex (c : Z) : bool := digit c || ((97 <=? c) && (c <=? 102)).
Fixpoint beq (a b : bytes) : bool :=
  match a, b with [], [] => true | x :: a, y :: b => (x =? y) && beq a b | _, _ => false end.
Definition trailer (s : bytes) : option (bytes * bytes * bool) :=
  match s with
  | c :: s =>
      if c =? 45 then
        let (ds, s) := take digit s in
        match ds, s with
        | _ :: _, c1 :: c2 :: s =>
            if (c1 =? 45) && (c2 =? 103) then
              let (hs, s) := take hex s in
              match hs with
              | [] => None
              | _ => if beq s [] then Some (ds, hs, false) else if beq s (bs "-dirty") then Some (ds, hs, true) else None
              end
            else None
        | _, _ => None
        end
      else None
  | [] => None
  end.
(** the leftmost match: text before it, and the groups *)
Fixpoint find_trailer (s : bytes) : option (bytes * (bytes * bytes * bool)) :=
  match trailer s with
  | Some g => Some ([], g)
  | None => match s with [] => None | c :: r => match find_trailer r with Some (p, g) => Some (c :: p, g) | None => None end end
  end.
(** gitDescribeRE.ReplaceAllString(s, "") *)
Definition strip_trailer (s : bytes) : bytes := match find_trailer s with Some (p, _) => p | None => s end.

(** update.go:186-209 parseSemver *)
Definition parse_semver (v : bytes) : Z * Z * Z * bytes :=
  let v := trim_v v in
  let v := match cut 43 v with Some (a, _) => a | None => v end in
  let '(base, pre) := match cut 45 v with Some (a, b) => (a, strip_trailer b) | None => (v, []) end in
  let parts := split_on 46 base in
  let nth i := match nth_error parts i with Some p => scan_or_0 p | None => 0 end in
  (nth 0%nat, nth 1%nat, nth 2%nat, pre).

(** as[i] < bs[i] on Go strings *)
Fixpoint str_lt (a b : bytes) : bool :=
  match a, b with
  | _, [] => false
  | [], _ => true
  | x :: a, y :: b => if x =? y then str_lt a b else x <? y
  end.
(** update.go:222-225: the value, and whether the identifier counts as a number *)
Definition numeric (s : bytes) : option Z :=
  match scan_int s with Some n => if beq (dec_signed n) s then Some n else None | None => None end.
(** update.go:221-250, one round; None: continue *)
Definition compare_one (a b : bytes) : option Z :=
  match numeric a, numeric b with
  | Some x, Some y => if x =? y then None else if x <? y then Some (-1) else Some 1
  | Some _, None => Some (-1)
  | None, Some _ => Some 1
  | None, None => if beq a b then None else if str_lt a b then Some (-1) else Some 1
  end.
(** update.go:215-257 comparePreIdentifiers *)
Fixpoint compare_pre (a b : list bytes) : Z :=
  match a, b with
  | [], [] => 0
  | [], _ => -1
  | _, [] => 1
  | x :: a, y :: b => match compare_one x y with Some r => r | None => compare_pre a b end
  end.
(** update.go:263-295 compareSemver *)
Definition compare_semver (a b : bytes) : Z :=
  let '(aM, an, ap, apre) := parse_semver a in
  let '(bM, bn, bp, bpre) := parse_semver b in
  if negb (aM =? bM) then (if aM <? bM then -1 else 1)
  else if negb (an =? bn) then (if an <? bn then -1 else 1)
  else if negb (ap =? bp) then (if ap <? bp then -1 else 1)
  else if beq apre [] && beq bpre [] then 0
  else if beq apre [] then 1
  else if beq bpre [] then -1
  else compare_pre (split_on 46 apre) (split_on 46 bpre).
(** update.go:299-313 *)
Definition is_newer (local remote : bytes) : bool := 0 <? compare_semver remote local.
Definition in_range (v from to : bytes) : bool := if is_newer from v then negb (is_newer to v) else false.
(** update.go:378-390, 623-635: the loops of pickLatestPrerelease and pickLatestStable *)
Fixpoint pick (want : bool) (best : option release) (rs : list release) : option release :=
  match rs with
  | [] => best
  | r :: rs =>
      if Bool.eqb (prerelease r) want then
        match best with
        | None => pick want (Some r) rs
        | Some b => if 0 <? compare_semver (tag r) (tag b) then pick want (Some r) rs else pick want best rs
        end
      else pick want best rs
  end.
Definition pick_latest_stable (rs : list release) : option release := pick false None rs.
Definition pick_latest_prerelease (rs : list release) : option release := pick true None rs.
(** update.go:393-402 *)
Definition releases_in_range (rs : list release) (cur latest : bytes) : list release :=
  filter (fun r => in_range (tag r) cur latest) rs.

(** update.go:159-181 GetVersionInfo *)
Inductive channel := Stable | PreRelease | Dev.
Record info := Info { display : bytes; chan : channel; commit : bytes; ahead : Z; dirty : bool }.
Definition version_info (v : bytes) : info :=
  match find_trailer v with
  | Some (p, (n, h, d)) => Info p Dev h (scan_or_0 n) d
  | None => let '(_, _, _, pre) := parse_semver v in
            Info v (if beq v (bs "dev") then Dev else if beq pre [] then Stable else PreRelease) [] 0 false
  end.
(** update.go:691-758 runUpdate, from the release list to the question: what is offered *)
Inductive decision := OnPrerelease | NoneOfChannel | UpToDate | AlreadyNewer | Offer (r : release).
Definition run_update (rs : list release) (v : bytes) (pre : bool) : decision :=
  match chan (version_info v), pre with
  | PreRelease, false => OnPrerelease
  | _, _ =>
      match (if pre then pick_latest_prerelease rs else pick_latest_stable rs) with
      | None => NoneOfChannel
      | Some t => let cmp := compare_semver (tag t) v in
                  if cmp =? 0 then UpToDate else if cmp <? 0 then AlreadyNewer else Offer t
      end
  end.
(** update.go:571-614 CheckForUpdateAsync: the cached version (None when there is none or the network answers), the latest fetched *)
Definition notify (v latest : bytes) : bool := is_newer v latest.

(** update.go:134-135 exactSemverRE.  Greedy matching is deterministic here: no class contains the character that may follow it *)
Definition alnum (c : Z) : bool := digit c || ((65 <=? c) && (c <=? 90)) || ((97 <=? c) && (c <=? 122)).
Definition suffix (c : Z) : bool := alnum c || (c =? 46) || (c =? 45).
Definition opt_part (mark : Z) (s : bytes) : option bytes :=
  match s with
  | c :: r => if c =? mark then match r with d :: r => if alnum d then Some (snd (take suffix r)) else None | [] => None end else Some s
  | [] => Some []
  end.
Definition number_dot (s : bytes) : option bytes :=
  let (d, r) := take digit s in
  match d, r with _ :: _, c :: r => if c =? 46 then Some r else None | _, _ => None end.
Definition exact_semver (s : bytes) : bool :=
  match number_dot (trim_v s) with
  | None => false
  | Some s =>
      match number_dot s with
      | None => false
      | Some s =>
          let (d, s) := take digit s in
          match d with
          | [] => false
          | _ => match opt_part 45 s with
                 | None => false
                 | Some s => match opt_part 43 s with Some s => beq s [] | None => false end
                 end
          end
      end
  end.
(** update.go:848-857 *)
Fixpoint find_release (wanted : bytes) (rs : list release) : option release :=
  match rs with
  | [] => None
  | r :: rs => if beq (trim_v (tag r)) wanted then Some r else find_release wanted rs
  end.
(** update.go:873-879: exchange sort, newest first; carry: all[i] *)
Fixpoint pass (carry : release) (rest : list release) : release * list release :=
  match rest with
  | [] => (carry, [])
  | r :: rest => if 0 <? compare_semver (tag r) (tag carry)
                 then let (c, l) := pass r rest in (c, carry :: l)
                 else let (c, l) := pass carry rest in (c, r :: l)
  end.
Fixpoint exchange_sort (n : nat) (l : list release) : list release :=
  match n, l with
  | S n, r :: l => let (c, l) := pass r l in c :: exchange_sort n l
  | _, l => l
  end.
(** update.go:831-905 runInstall up to the download: what happens with a requested version *)
Inductive install := BadVersion | NotFound (suggest : list bytes) | Already (r : release) | NoAsset (r : release) | Download (r : release) (url : bytes) (downgrade : bool).
Fixpoint asset_url (name : bytes) (l : list (bytes * bytes)) : bytes :=
  match l with [] => [] | (n, u) :: l => if beq n name then u else asset_url name l end.
Definition run_install (rs : list release) (current version asset : bytes) : install :=
  if negb (exact_semver version) then BadVersion
  else match find_release (trim_v version) rs with
       | None => NotFound (map tag (firstn 5 (exchange_sort (length rs) rs)))
       | Some t =>
           if compare_semver (tag t) current =? 0 then Already t
           else let u := asset_url asset (assets t) in
                if beq u [] then NoAsset t else Download t u (compare_semver (tag t) current <? 0)
       end.

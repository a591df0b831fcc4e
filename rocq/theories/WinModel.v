(** Model of the path functions of fs/file_path.go on Windows, and of the functions of package path/filepath of Go 1.8
    that they call there. Strings are lists of bytes: 47 is the slash, 92 the backslash, 46 the full stop, 58 the colon. *)
From Coq Require Import ZArith List Bool Arith.
From Verif Require Import GoBase GoStrings PathModel.
Import ListNotations.
Open Scope Z_scope.

(** isSlash, os.IsPathSeparator (standard library, no /repo lines). *)
Definition is_sep (c : Z) : bool := (c =? 47) || (c =? 92).
(** filepath.ToSlash (called at fs/file_path.go:82). *)
Definition to_slash (s : list Z) : list Z := map (fun c => if c =? 92 then 47 else c) s.
(** filepath.FromSlash (called at fs/file_path.go:97). *)
Definition from_slash (s : list Z) : list Z := map (fun c => if c =? 47 then 92 else c) s.

(** A letter (helper of volumeNameLen; no /repo lines). *)
Definition is_letter (c : Z) : bool := ((97 <=? c) && (c <=? 122)) || ((65 <=? c) && (c <=? 90)).
(** The innermost loop of volumeNameLen: the bytes before the next separator (standard library, no /repo lines). *)
Fixpoint until_sep (s : list Z) : nat :=
  match s with
  | c :: t => if is_sep c then 0%nat else S (until_sep t)
  | [] => 0%nat
  end.
(** The loop of volumeNameLen over the name of the server; [p] is path[n:] (standard library, no /repo lines). *)
Fixpoint unc_loop (p : list Z) (n : nat) : nat :=
  match p with
  | c :: t =>
      match t with
      | d :: _ =>
          if is_sep c then
            if is_sep d then 0%nat else if d =? 46 then 0%nat else (S n + until_sep t)%nat
          else unc_loop t (S n)
      | [] => 0%nat
      end
  | [] => 0%nat
  end.
(** volumeNameLen of path/filepath (used by the functions called at fs/file_path.go:82, 110, 167, 172, 195, 213). *)
Definition vol_len (p : list Z) : nat :=
  match p with
  | c :: d :: r =>
      if (d =? 58) && is_letter c then 2%nat
      else match r with
           | e :: rest =>
               if (5 <=? length p)%nat && is_sep c && is_sep d && negb (is_sep e) && negb (e =? 46)
               then unc_loop rest 3 else 0%nat
           | [] => 0%nat
           end
  | _ => 0%nat
  end.
(** The volume and the rest of a path (helpers; no /repo lines). *)
Definition vol (p : list Z) : list Z := firstn (vol_len p) p.
Definition rest (p : list Z) : list Z := skipn (vol_len p) p.
(** filepath.VolumeName (called at fs/file_path.go:172). *)
Definition volume_name (p : list Z) : list Z := from_slash (vol p).

(** filepath.Clean on Windows (called at fs/file_path.go:82). Simplified: the separators are made equal before instead of
    behind the loop of [clean]. *)
Definition win_clean (p : list Z) : list Z :=
  match rest p with
  | [] => if (1 <? vol_len p)%nat && negb (nth 1 p 0 =? 58) then from_slash p else p ++ [46]
  | r => from_slash (vol p ++ clean (to_slash r))
  end.
(** fs/file_path.go:74-83 FilePath and Set. *)
Definition win_path (p : list Z) : list Z := to_slash (win_clean p).
(** fs/file_path.go:96-98 StringSys. *)
Definition string_sys (me : list Z) : list Z := from_slash me.

(** The text up to the last separator, and behind it (helper; no /repo lines). *)
Fixpoint split_sep (s : list Z) : list Z * list Z :=
  match s with
  | [] => ([], [])
  | c :: t =>
      let '(d, f) := split_sep t in
      match d with
      | [] => if is_sep c then ([c], f) else ([], c :: f)
      | _ => (c :: d, f)
      end
  end.
(** filepath.Split (called at fs/file_path.go:110, 195): not into the volume. *)
Definition win_split (p : list Z) : list Z * list Z :=
  let '(d, f) := split_sep (rest p) in (vol p ++ d, f).
(** The loop of fs/file_path.go:194-208; [n] is i + 1 and [acc] is b[i+1:]; b[-1:] panics. *)
Fixpoint win_split_loop (n : nat) (s : list Z) (acc : list (list Z)) : outcome (list (list Z)) :=
  match n with
  | O => Panic
  | S n =>
      let '(p, f) := win_split s in
      match f with
      | _ :: _ => win_split_loop n (trim_slash p) (f :: acc)
      | [] => match p with
              | _ :: _ => Ok (p :: acc)
              | [] => Ok acc
              end
      end
  end.
(** fs/file_path.go:189-209 SplitAll. *)
Definition win_split_all (s : list Z) : outcome (list (list Z)) := win_split_loop (count_slash s + 1) s [].

(** strings.Join with the backslash (standard library, no /repo lines). *)
Fixpoint join_back (l : list (list Z)) : list Z :=
  match l with
  | [] => []
  | [x] => x
  | x :: r => x ++ 92 :: join_back r
  end.
(** isUNC of path/filepath (used by filepath.Join, called at fs/file_path.go:213). *)
Definition is_unc (p : list Z) : bool := (2 <? vol_len p)%nat.
(** joinNonEmpty of path/filepath (used by filepath.Join, called at fs/file_path.go:213). *)
Definition join_non_empty (h : list Z) (t : list (list Z)) : list Z :=
  if (length h =? 2)%nat && (nth 1 h 0 =? 58) then win_clean (h ++ join_back t)
  else
    let p := win_clean (join_back (h :: t)) in
    if negb (is_unc p) then p
    else
      let head := win_clean h in
      if is_unc head then p
      else
        let tail := win_clean (join_back t) in
        if last head 0 =? 92 then head ++ tail else head ++ 92 :: tail.
(** filepath.Join (called at fs/file_path.go:213). *)
Fixpoint win_join (l : list (list Z)) : list Z :=
  match l with
  | [] => []
  | [] :: r => win_join r
  | h :: t => join_non_empty h t
  end.
(** fs/file_path.go:212-215 Joins. *)
Definition win_joins (l : list (list Z)) : list Z := win_path (win_join l).

(** filepath.Dir (called at fs/file_path.go:167). *)
Definition win_dir (p : list Z) : list Z :=
  let v := volume_name p in
  let d := win_clean (fst (split_sep (rest p))) in
  if str_eqb d [46] && (2 <? length v)%nat then v else v ++ d.
(** The loop of filepath.Base that takes off separators at the end (called at fs/file_path.go:162). *)
Fixpoint strip_seps (s : list Z) : list Z :=
  match s with
  | [] => []
  | c :: t => match strip_seps t with
              | [] => if is_sep c then [] else [c]
              | u => c :: u
              end
  end.
(** filepath.Base (called at fs/file_path.go:162). *)
Definition win_base (p : list Z) : list Z :=
  match p with
  | [] => [46]
  | _ => match snd (split_sep (rest (strip_seps p))) with
         | [] => [92]
         | f => f
         end
  end.
(** fs/file_path.go:340-346 relateThisPath. *)
Definition win_relate_this (me dest : list Z) : list Z :=
  let n := win_path dest in
  match volume_name n with
  | [] => win_path (win_joins [win_dir me; n])
  | _ => n
  end.
(** fs/file_path.go:289-292 Rename: the name that os.Rename gets. *)
Definition win_rename (me newname : list Z) : list Z := win_relate_this me newname.
(** fs/file_path.go:493-499 Move: the name that os.Rename gets, [None] if it is not called; then the result is "", nil. *)
Definition win_move (me dest : list Z) : option (list Z) :=
  let n := win_relate_this me dest in
  if str_eqb (volume_name me) (volume_name n) then Some (win_rename me n) else None.

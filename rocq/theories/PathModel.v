(** Model of the path functions of fs/file_path.go and fs/fs.go, and of the
    functions of package path/filepath that they call, on a Unix system: the
    separator is the slash and there are no volume names. Strings are lists of
    bytes; 47 is the slash and 46 the full stop. *)
From Coq Require Import ZArith List Bool.
From Verif Require Import GoBase GoStrings.
Import ListNotations.
Open Scope Z_scope.

(** The texts between the slashes (standard library, no /repo lines). *)
Fixpoint segments (s : list Z) : list (list Z) :=
  match s with
  | [] => [[]]
  | c :: t =>
      if c =? 47 then [] :: segments t
      else match segments t with
           | h :: r => (c :: h) :: r
           | [] => [[c]]
           end
  end.
(** strings.Join(l, "/") (standard library, no /repo lines). *)
Fixpoint join_slash (l : list (list Z)) : list Z :=
  match l with
  | [] => []
  | [x] => x
  | x :: r => x ++ 47 :: join_slash r
  end.
(** Whether a path starts at the root (standard library, no /repo lines). *)
Definition is_rooted (s : list Z) : bool :=
  match s with c :: _ => c =? 47 | [] => false end.
(** One element of filepath.Clean (called at fs/file_path.go:82); [st] holds the
    elements written so far, the last one first. Simplified: the library works on
    a byte buffer, with the same result. *)
Definition clean_step (rooted : bool) (st : list (list Z)) (seg : list Z) : list (list Z) :=
  if str_eqb seg [] || str_eqb seg [46] then st
  else if str_eqb seg [46; 46] then
    match st with
    | top :: rest => if str_eqb top [46; 46] then seg :: st else rest
    | [] => if rooted then [] else [seg]
    end
  else seg :: st.
(** filepath.Clean (called at fs/file_path.go:82). *)
Definition clean (s : list Z) : list Z :=
  let rooted := is_rooted s in
  let body := join_slash (rev (fold_left (clean_step rooted) (segments s) [])) in
  if rooted then 47 :: body
  else match body with [] => [46] | _ => body end.

(** fs/file_path.go:74-83 FilePath and Set: filepath.ToSlash changes nothing. *)
Definition file_path (s : list Z) : list Z := clean s.

(** filepath.Split (called at fs/file_path.go:110, 195) and path.Split (called at
    fs/fs.go:112): up to the last slash, and after it. *)
Fixpoint split_path (s : list Z) : list Z * list Z :=
  match s with
  | [] => ([], [])
  | c :: t =>
      let '(d, f) := split_path t in
      match d with
      | [] => if c =? 47 then ([c], f) else ([], c :: f)
      | _ => (c :: d, f)
      end
  end.
(** strings.Count(s, "/") (called at fs/file_path.go:191). *)
Definition count_slash (s : list Z) : nat := length (filter (fun c => c =? 47) s).
(** strings.TrimSuffix(p, "/") (called at fs/file_path.go:196). *)
Definition trim_slash (p : list Z) : list Z :=
  match rev p with
  | c :: r => if c =? 47 then rev r else p
  | [] => p
  end.
(** The loop of fs/file_path.go:194-208; [n] is i + 1 and [acc] is b[i+1:]. When
    the loop ends with i = -1 the slice expression b[i:] panics. *)
Fixpoint split_all_loop (n : nat) (s : list Z) (acc : list (list Z)) : outcome (list (list Z)) :=
  match n with
  | O => Panic
  | S n =>
      let '(p, f) := split_path s in
      match f with
      | _ :: _ => split_all_loop n (trim_slash p) (f :: acc)
      | [] => match p with
              | _ :: _ => Ok (p :: acc)
              | [] => Ok acc
              end
      end
  end.
(** fs/file_path.go:189-209 SplitAll. *)
Definition split_all (s : list Z) : outcome (list (list Z)) :=
  split_all_loop (count_slash s + 1) s [].

(** filepath.Join (called at fs/file_path.go:213): leading empty elements are
    dropped. *)
Fixpoint fp_join (l : list (list Z)) : list Z :=
  match l with
  | [] => []
  | [] :: r => fp_join r
  | _ => clean (join_slash l)
  end.
(** fs/file_path.go:212-215 Joins. *)
Definition joins (l : list (list Z)) : list Z := file_path (fp_join l).
(** fs/file_path.go:218-221, 224-226 the methods Joins and Join. *)
Definition path_joins (me : list Z) (l : list (list Z)) : list Z := joins (me :: l).

(** filepath.Dir (called at fs/file_path.go:167). *)
Definition dir_of (s : list Z) : list Z := clean (fst (split_path s)).
(** fs/fs.go:120-123 FileName. *)
Definition file_name (s : list Z) : list Z := snd (split_path s).

(** fs/file_path.go:340-346 relateThisPath: the volume name of a Unix path is
    always empty. *)
Definition relate_this (me dest : list Z) : list Z :=
  let n := file_path dest in
  file_path (joins [dir_of me; n]).

(** The elements of a cleaned path: none for "/" and "." (helper of the model of
    filepath.Rel; no /repo lines). *)
Definition elements (s : list Z) : list (list Z) :=
  filter (fun x => negb (str_eqb x [] || str_eqb x [46])) (segments s).
(** Removal of the common leading elements (helper of the model of filepath.Rel;
    no /repo lines). *)
Fixpoint drop_common (b t : list (list Z)) : list (list Z) * list (list Z) :=
  match b, t with
  | x :: b', y :: t' => if str_eqb x y then drop_common b' t' else (b, t)
  | _, _ => (b, t)
  end.
(** filepath.Rel (called at fs/file_path.go:130): [None] is an error. Simplified:
    works on elements. *)
Definition fp_rel (base targ : list Z) : option (list Z) :=
  let base := clean base in
  let targ := clean targ in
  if str_eqb targ base then Some [46]
  else if xorb (is_rooted base) (is_rooted targ) then None
  else
    let '(b, t) := drop_common (elements base) (elements targ) in
    match b with
    | x :: _ => if str_eqb x [46; 46] then None
                else Some (join_slash (map (fun _ => [46; 46]) b ++ t))
    | [] => Some (join_slash t)
    end.
(** fs/file_path.go:129-132 Relate: the error is dropped, and the empty path it
    comes with is cleaned. *)
Definition relate (me root : list Z) : list Z :=
  match fp_rel (file_path root) me with
  | Some s => file_path s
  | None => file_path []
  end.
(** filepath.HasPrefix (called at fs/file_path.go:182): of the strings. *)
Definition has_prefix (me prefix : list Z) : bool :=
  match strip_prefix (file_path prefix) me with Some _ => true | None => false end.
(** fs/file_path.go:493-499 Move: the name that os.Rename gets; the volume names
    are equal, so Move calls Rename, which relates the new name once more. *)
Definition move_dest (me dest : list Z) : list Z :=
  let n := relate_this me dest in
  relate_this me n.

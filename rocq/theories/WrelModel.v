(** Model of Relate of fs/file_path.go on Windows, and of filepath.Rel of Go 1.8 there. *)
From Coq Require Import ZArith List Bool Arith.
From Verif Require Import GoBase GoStrings PathModel WinModel WorkModel.
Import ListNotations.
Open Scope Z_scope.

(** Removal of the common leading elements; [same] is sameWord of path/filepath, which is strings.EqualFold on Windows (helper of
    the model of filepath.Rel; no /repo lines). *)
Fixpoint wdrop (same : list Z -> list Z -> bool) (b t : list (list Z)) : list (list Z) * list (list Z) :=
  match b, t with
  | x :: b', y :: t' => if same y x then wdrop same b' t' else (b, t)
  | _, _ => (b, t)
  end.
(** filepath.Rel on Windows (called at fs/file_path.go:130): [None] is an error. Simplified: works on elements. *)
Definition win_rel (same : list Z -> list Z -> bool) (base targ : list Z) : option (list Z) :=
  let bv := volume_name base in
  let tv := volume_name targ in
  let bc := win_clean base in
  let tc := win_clean targ in
  if same tc bc then Some [46]
  else
    let b := to_slash (skipn (length bv) bc) in
    let t := to_slash (skipn (length tv) tc) in
    if xorb (is_rooted b) (is_rooted t) || negb (same bv tv) then None
    else
      let '(b, t) := wdrop same (elements b) (elements t) in
      match b with
      | x :: _ => if str_eqb x [46; 46] then None
                  else Some (from_slash (join_slash (map (fun _ => [46; 46]) b ++ t)))
      | [] => Some (from_slash (join_slash t))
      end.
(** fs/file_path.go:129-132 Relate: the error is dropped, and the empty path it comes with is cleaned. *)
Definition win_relate (same : list Z -> list Z -> bool) (me root : list Z) : list Z :=
  match win_rel same (win_path root) me with
  | Some s => win_path s
  | None => win_path []
  end.

(** fs/file_line.go:45-52 goPath on Windows; [env] is the value of GOPATH. *)
Definition win_go_path (env : list Z) : list Z := win_path (first_entry env ++ [47; 115; 114; 99; 47]).
(** fs/file_line.go:74-76 and fs/file_path.go:135-138 RelateGoPath on Windows. *)
Definition win_relate_go (same : list Z -> list Z -> bool) (env p : list Z) : list Z :=
  match win_rel same (win_go_path env) (win_path p) with
  | Some s => win_path s
  | None => win_path []
  end.

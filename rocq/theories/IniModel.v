(** Model of encoding/ini/ini.go. *)
From Coq Require Import ZArith List Bool Permutation.
From Verif Require Import GoBase GoMap GoStrings.
Import ListNotations.
Open Scope Z_scope.

(** encoding/ini/ini.go:30 section. *)
Definition section := list (list Z * list Z).
(** encoding/ini/ini.go:32-34 IniFile. *)
Definition inifile := list (list Z * section).

(** encoding/ini/ini.go:55: ReadString('\n') of a buffered reader (standard
    library) over the text that is left: the line, the rest, and whether an error
    (end of text, or of what the source delivered) came with it. *)
Definition read_line (text : list Z) : list Z * list Z * bool :=
  match cut 10 text with
  | (a, Some rest) => (a ++ [10], rest, false)
  | (a, None) => (a, [], true)
  end.

(** strings.SplitN(line, "=", 2) (standard library, called at
    encoding/ini/ini.go:71). *)
Definition split2 (line : list Z) : list (list Z) :=
  match cut 61 line with (a, None) => [a] | (a, Some b) => [a; b] end.

(** encoding/ini/ini.go:56-84: one turn of the loop of Load after the read, with
    the current section's name and the table. *)
Definition load_line (sec : list Z) (m : inifile) (line : list Z) : outcome (list Z * inifile) :=
  let line := trim_space line in
  match line with
  | [] => Ok (sec, m)
  | c :: _ =>
      if c =? 59 then Ok (sec, m) else
      e <- zget line (zlen line - 1) ;;
      if (c =? 91) && (e =? 93) then
        s <- zslice line 1 (zlen line - 1) ;;
        Ok (s, match mfind str_eqb s m with Some _ => m | None => mset str_eqb s [] m end)
      else
        match sec with
        | [] => Ok (sec, m)
        | _ =>
            let pair := split2 line in
            if (zlen pair <? 1) || (2 <? zlen pair) then Ok (sec, m) else
            p0 <- zget pair 0 ;;
            v <- (if zlen pair =? 2 then zget pair 1 else Ok []) ;;
            let key := trim_space p0 in
            let val := trim_space v in
            match key with
            | [] => Ok (sec, m)
            | _ =>
                match mfind str_eqb sec m with
                | None => Panic
                | Some s => Ok (sec, mset str_eqb sec (mset str_eqb key val s) m)
                end
            end
        end
  end.

(** encoding/ini/ini.go:54-85: the loop of Load, with at most [fuel] reads. *)
Fixpoint load_loop (fuel : nat) (sec : list Z) (m : inifile) (text : list Z) : outcome inifile :=
  match fuel with
  | O => Diverge
  | S f =>
      let '(line, rest, err) := read_line text in
      ' (sec, m) <- load_line sec m line ;;
      if err then Ok m else load_loop f sec m rest
  end.
(** encoding/ini/ini.go:48-87 Load; [text] is what the reader delivers before its
    first error. Every turn but the last consumes a byte. *)
Definition load (text : list Z) : outcome inifile := load_loop (length text + 1) [] [] text.

(** encoding/ini/ini.go:89-97 Sections; a map is visited in any order. *)
Definition sections (p : inifile) (result : list (list Z)) : Prop := Permutation result (map fst p).
(** encoding/ini/ini.go:99-111 Keys; [None] is a nil result. *)
Definition keys (p : inifile) (sec : list Z) (result : option (list (list Z))) : Prop :=
  match mfind str_eqb sec p, result with
  | None, None => True
  | Some m, Some r => Permutation r (map fst m)
  | _, _ => False
  end.
(** encoding/ini/ini.go:113-123 GetString. *)
Definition get_string (p : inifile) (sec key def : list Z) : list Z :=
  match mfind str_eqb sec p with
  | None => def
  | Some m => match mfind str_eqb key m with None => def | Some v => v end
  end.

(** Model of FilePathObject.Match (fs/file_path.go:176-178) on Windows, that is of filepath.Match of the standard library of Go 1.8
    there: nothing is escaped, and the separator is the backslash. *)
From Coq Require Import ZArith List Bool Arith.
From Verif Require Import GoBase MatchModel.
Import ListNotations.
Open Scope Z_scope.

(** getEsc of filepath.Match (fs/file_path.go:177): a character of a class and the rest; [None] is ErrBadPattern. *)
Definition wget_esc (chunk : list Z) : option (Z * list Z) :=
  match chunk with
  | [] => None
  | c :: t =>
      if (c =? 45) || (c =? 93) then None
      else
        let '(r, n) := decode_rune chunk in
        if (r =? 65533) && Nat.eqb n 1 then None
        else match skipn n chunk with
             | [] => None
             | nchunk => Some (r, nchunk)
             end
  end.

(** The loop over the ranges of a class in filepath.Match (fs/file_path.go:177); [seen] is nrange > 0. *)
Fixpoint wclass_loop (fuel : nat) (r : Z) (chunk : list Z) (m seen : bool) : class_res :=
  match fuel with
  | O => CDiverge
  | S f =>
      let go :=
        match wget_esc chunk with
        | None => CBad
        | Some (lo, chunk) =>
            match chunk with
            | 45 :: t =>
                match wget_esc t with
                | None => CBad
                | Some (hi, chunk) => wclass_loop f r chunk (m || ((lo <=? r) && (r <=? hi))) true
                end
            | _ => wclass_loop f r chunk (m || ((lo <=? r) && (r <=? lo))) true
            end
        end in
      match chunk with
      | c :: t => if (c =? 93) && seen then CDone m t else go
      | [] => go
      end
  end.

(** matchChunk of filepath.Match (fs/file_path.go:177): 91 is the opening bracket, 94 the caret, 63 the question mark,
    92 the separator. *)
Fixpoint wmatch_chunk (fuel : nat) (chunk s : list Z) : chunk_res :=
  match chunk with
  | [] => MOk s
  | c :: ct =>
      match s with
      | [] => MNo
      | s0 :: st =>
          match fuel with
          | O => MDiverge
          | S f =>
              if c =? 91 then
                let '(r, n) := decode_rune s in
                let s := skipn n s in
                match ct with
                | [] => MBad
                | c1 :: ct1 =>
                    let negated := c1 =? 94 in
                    match wclass_loop f r (if negated then ct1 else ct) false false with
                    | CBad => MBad
                    | CDiverge => MDiverge
                    | CDone m rest => if Bool.eqb m negated then MNo else wmatch_chunk f rest s
                    end
                end
              else if c =? 63 then
                if s0 =? 92 then MNo else wmatch_chunk f ct (skipn (snd (decode_rune s)) s)
              else if c =? s0 then wmatch_chunk f ct st else MNo
          end
      end
  end.

(** The second loop of scanChunk: the text up to the next star outside of a class, and the rest. *)
Fixpoint wscan (p : list Z) (inrange : bool) : list Z * list Z :=
  match p with
  | [] => ([], [])
  | c :: t =>
      if c =? 91 then let '(a, b) := wscan t true in (c :: a, b)
      else if c =? 93 then let '(a, b) := wscan t false in (c :: a, b)
      else if (c =? 42) && negb inrange then ([], p)
      else let '(a, b) := wscan t inrange in (c :: a, b)
  end.
(** scanChunk (filepath.Match, called at fs/file_path.go:177). *)
Definition wscan_chunk (p : list Z) : bool * list Z * list Z :=
  let '(star, p) := strip_stars p false in
  let '(chunk, rest) := wscan p false in
  (star, chunk, rest).

(** The inner loop of filepath.Match (fs/file_path.go:177): a star skips bytes of the name; [cont] goes on behind the
    chunk, [last] is len(pattern) == 0. *)
Fixpoint wskip_loop (mc : list Z -> chunk_res) (cont : list Z -> outcome (option bool)) (last : bool) (name : list Z)
  : outcome (option bool) :=
  match name with
  | [] => Ok (Some false)
  | c :: name =>
      if c =? 92 then Ok (Some false)
      else match mc name with
           | MDiverge => Diverge
           | MBad => Ok None
           | MNo => wskip_loop mc cont last name
           | MOk t => if last && negb (is_empty t) then wskip_loop mc cont last name else cont t
           end
  end.
(** filepath.Match (called at fs/file_path.go:177): [None] is ErrBadPattern. *)
Fixpoint wmatch_loop (fuel : nat) (pattern name : list Z) : outcome (option bool) :=
  match pattern with
  | [] => Ok (Some (is_empty name))
  | _ =>
      match fuel with
      | O => Diverge
      | S f =>
          let '(star, chunk, rest) := wscan_chunk pattern in
          if star && is_empty chunk then Ok (Some (negb (existsb (fun c => c =? 92) name)))
          else
            let mc := wmatch_chunk (length chunk) chunk in
            let no := if star then wskip_loop mc (wmatch_loop f rest) (is_empty rest) name else Ok (Some false) in
            match mc name with
            | MDiverge => Diverge
            | MBad => Ok None
            | MNo => no
            | MOk t => if is_empty t || negb (is_empty rest) then wmatch_loop f rest t else no
            end
      end
  end.
(** fs/file_path.go:176-178 Match: the path [me] and the pattern. *)
Definition wfs_match (me pattern : list Z) : outcome (option bool) := wmatch_loop (length pattern) pattern me.

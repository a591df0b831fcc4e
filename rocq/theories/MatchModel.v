(** Model of FilePathObject.Match (fs/file_path.go:176-178), that is of filepath.Match of the standard library of Go 1.8
    (the version of the time of /repo) on a Unix system, which it passes its arguments to. Strings are lists of bytes. *)
From Coq Require Import ZArith List Bool Arith.
From Verif Require Import GoBase.
Import ListNotations.
Open Scope Z_scope.

(** Whether a byte is in a range (standard library, no /repo lines). *)
Definition in_range (lo hi b : Z) : bool := (lo <=? b) && (b <=? hi).
(** utf8.DecodeRuneInString, called by filepath.Match (fs/file_path.go:177): the character at the beginning of [s] and
    its number of bytes; (U+FFFD, 1) if it is badly encoded, (U+FFFD, 0) for the empty text. *)
Definition decode_rune (s : list Z) : Z * nat :=
  match s with
  | [] => (65533, 0%nat)
  | a :: t =>
      if a <? 128 then (a, 1%nat)
      else if a <? 194 then (65533, 1%nat)
      else if a <? 224 then
        match t with
        | b :: _ => if in_range 128 191 b then ((a mod 32) * 64 + b mod 64, 2%nat) else (65533, 1%nat)
        | _ => (65533, 1%nat)
        end
      else if a <? 240 then
        match t with
        | b :: c :: _ =>
            if in_range (if a =? 224 then 160 else 128) (if a =? 237 then 159 else 191) b && in_range 128 191 c
            then ((a mod 16) * 4096 + (b mod 64) * 64 + c mod 64, 3%nat) else (65533, 1%nat)
        | _ => (65533, 1%nat)
        end
      else if a <? 245 then
        match t with
        | b :: c :: d :: _ =>
            if in_range (if a =? 240 then 144 else 128) (if a =? 244 then 143 else 191) b && in_range 128 191 c
               && in_range 128 191 d
            then ((a mod 8) * 262144 + (b mod 64) * 4096 + (c mod 64) * 64 + d mod 64, 4%nat) else (65533, 1%nat)
        | _ => (65533, 1%nat)
        end
      else (65533, 1%nat)
  end.

(** getEsc of filepath.Match (fs/file_path.go:177): a character of a class and the rest; [None] is ErrBadPattern. *)
Definition get_esc (chunk : list Z) : option (Z * list Z) :=
  match chunk with
  | [] => None
  | c :: t =>
      if (c =? 45) || (c =? 93) then None
      else
        let chunk := if c =? 92 then t else chunk in
        match chunk with
        | [] => None
        | _ =>
            let '(r, n) := decode_rune chunk in
            if (r =? 65533) && Nat.eqb n 1 then None
            else match skipn n chunk with
                 | [] => None
                 | nchunk => Some (r, nchunk)
                 end
        end
  end.

(** What the loop over the ranges of a class gives: ErrBadPattern, or whether the character is in one and what follows
    the class (filepath.Match, called at fs/file_path.go:177). *)
Inductive class_res := CBad | CDone (m : bool) (rest : list Z) | CDiverge.
(** The loop over the ranges of a class in filepath.Match (fs/file_path.go:177); [seen] is nrange > 0. *)
Fixpoint class_loop (fuel : nat) (r : Z) (chunk : list Z) (m seen : bool) : class_res :=
  match fuel with
  | O => CDiverge
  | S f =>
      let go :=
        match get_esc chunk with
        | None => CBad
        | Some (lo, chunk) =>
            match chunk with
            | 45 :: t =>
                match get_esc t with
                | None => CBad
                | Some (hi, chunk) => class_loop f r chunk (m || ((lo <=? r) && (r <=? hi))) true
                end
            | _ => class_loop f r chunk (m || ((lo <=? r) && (r <=? lo))) true
            end
        end in
      match chunk with
      | c :: t => if (c =? 93) && seen then CDone m t else go
      | [] => go
      end
  end.

(** What matchChunk gives: the rest of the text, no match, or ErrBadPattern (filepath.Match, called at
    fs/file_path.go:177). *)
Inductive chunk_res := MOk (rest : list Z) | MNo | MBad | MDiverge.
(** matchChunk of filepath.Match (fs/file_path.go:177): 91 is the opening bracket, 94 the caret, 63 the question mark,
    92 the backslash, 47 the separator. *)
Fixpoint match_chunk (fuel : nat) (chunk s : list Z) : chunk_res :=
  match chunk with
  | [] => MOk s
  | c :: ct =>
      match s with
      | [] => MNo
      | s0 :: st =>
          match fuel with
          | O => MDiverge
          | S f =>
              if c =? 91 then
                let '(r, n) := decode_rune s in
                let s := skipn n s in
                match ct with
                | [] => MBad
                | c1 :: ct1 =>
                    let negated := c1 =? 94 in
                    match class_loop f r (if negated then ct1 else ct) false false with
                    | CBad => MBad
                    | CDiverge => MDiverge
                    | CDone m rest => if Bool.eqb m negated then MNo else match_chunk f rest s
                    end
                end
              else if c =? 63 then
                if s0 =? 47 then MNo else match_chunk f ct (skipn (snd (decode_rune s)) s)
              else if c =? 92 then
                match ct with
                | [] => MBad
                | c1 :: ct1 => if c1 =? s0 then match_chunk f ct1 st else MNo
                end
              else if c =? s0 then match_chunk f ct st else MNo
          end
      end
  end.

(** The first loop of scanChunk (filepath.Match, called at fs/file_path.go:177): whether there are stars, and the rest. *)
Fixpoint strip_stars (p : list Z) (star : bool) : bool * list Z :=
  match p with
  | c :: t => if c =? 42 then strip_stars t true else (star, p)
  | [] => (star, p)
  end.
(** The second loop of scanChunk: the text up to the next star outside of a class, and the rest. *)
Fixpoint scan (p : list Z) (inrange : bool) : list Z * list Z :=
  match p with
  | [] => ([], [])
  | c :: t =>
      if c =? 92 then
        match t with
        | d :: t' => let '(a, b) := scan t' inrange in (c :: d :: a, b)
        | [] => ([c], [])
        end
      else if c =? 91 then let '(a, b) := scan t true in (c :: a, b)
      else if c =? 93 then let '(a, b) := scan t false in (c :: a, b)
      else if (c =? 42) && negb inrange then ([], p)
      else let '(a, b) := scan t inrange in (c :: a, b)
  end.
(** scanChunk (filepath.Match, called at fs/file_path.go:177). *)
Definition scan_chunk (p : list Z) : bool * list Z * list Z :=
  let '(star, p) := strip_stars p false in
  let '(chunk, rest) := scan p false in
  (star, chunk, rest).

(** Comparison with the empty string (Go language; no /repo lines). *)
Definition is_empty (s : list Z) : bool := match s with [] => true | _ => false end.
(** The inner loop of filepath.Match (fs/file_path.go:177): a star skips bytes of the name; [cont] goes on behind the
    chunk, [last] is len(pattern) == 0. *)
Fixpoint skip_loop (mc : list Z -> chunk_res) (cont : list Z -> outcome (option bool)) (last : bool) (name : list Z)
  : outcome (option bool) :=
  match name with
  | [] => Ok (Some false)
  | c :: name =>
      if c =? 47 then Ok (Some false)
      else match mc name with
           | MDiverge => Diverge
           | MBad => Ok None
           | MNo => skip_loop mc cont last name
           | MOk t => if last && negb (is_empty t) then skip_loop mc cont last name else cont t
           end
  end.
(** filepath.Match (called at fs/file_path.go:177): [None] is ErrBadPattern. *)
Fixpoint match_loop (fuel : nat) (pattern name : list Z) : outcome (option bool) :=
  match pattern with
  | [] => Ok (Some (is_empty name))
  | _ =>
      match fuel with
      | O => Diverge
      | S f =>
          let '(star, chunk, rest) := scan_chunk pattern in
          if star && is_empty chunk then Ok (Some (negb (existsb (fun c => c =? 47) name)))
          else
            let mc := match_chunk (length chunk) chunk in
            let no := if star then skip_loop mc (match_loop f rest) (is_empty rest) name else Ok (Some false) in
            match mc name with
            | MDiverge => Diverge
            | MBad => Ok None
            | MNo => no
            | MOk t => if is_empty t || negb (is_empty rest) then match_loop f rest t else no
            end
      end
  end.
(** fs/file_path.go:176-178 Match: the path [me] and the pattern. *)
Definition fs_match (me pattern : list Z) : outcome (option bool) := match_loop (length pattern) pattern me.

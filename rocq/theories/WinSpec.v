(** What paths mean on Windows. *)
From Coq Require Import ZArith List Bool.
From Verif Require Import PathSpec.
Import ListNotations.
Open Scope Z_scope.

(** Separators; a path written with slashes only. *)
Definition sep (c : Z) : Prop := c = 47 \/ c = 92.
Definition slashed (s : list Z) : list Z := map (fun c => if Z.eq_dec c 92 then 47 else c) s.

(** Volumes: a drive (a letter and a colon), or a share (two separators, the name of a server, a separator, the name of the
    share). *)
Definition drive (v : list Z) : Prop := exists c, (97 <= c <= 122 \/ 65 <= c <= 90) /\ v = [c; 58].
Definition word (w : list Z) : Prop := w <> [] /\ Forall (fun c => ~ sep c) w /\ hd 0 w <> 46.
Definition share (v : list Z) : Prop := exists a b h d w, sep a /\ sep b /\ word h /\ sep d /\ word w /\ v = a :: b :: h ++ d :: w.
(** A path [s] that begins with the volume [v], followed by [r]. *)
Definition volumed (s v r : list Z) : Prop :=
  s = v ++ r /\ (drive v \/ share v /\ match r with [] => True | c :: _ => sep c end).
Definition no_volume (s : list Z) : Prop := forall v r, ~ volumed s v r.

(** The place a path stands for: a volume and the names up to its root. The system has a current volume, and each drive has
    a current directory. *)
Inductive stands (cur : list Z) (cwd : list Z -> list (list Z)) : list Z -> list Z -> list (list Z) -> Prop :=
| st_drive s v r : volumed s v r -> drive v -> stands cur cwd s v (leads (cwd v) (slashed r))
| st_share s v r : volumed s v r -> share v -> stands cur cwd s (slashed v) (leads [] (slashed r))
| st_none s : no_volume s -> stands cur cwd s cur (leads (cwd cur) (slashed s)).

(** A name without backslash. *)
Definition wname (x : list Z) : Prop := name x /\ ~ In 92 x.
(** A volume written with slashes. *)
Definition plain_volume (v : list Z) : Prop := drive v \/ share v /\ ~ In 92 v.
(** A path that begins with a separator. *)
Definition rooted (s : list Z) : Prop := exists c t, s = c :: t /\ sep c.
(** A relative path without volume that leads below a name beginning like a drive, such as [./c:/x]. *)
Definition hides_drive (s : list Z) : Prop :=
  no_volume s /\ exists c t cs, drive [c; 58] /\ forall p, leads p (slashed s) = rev ((c :: 58 :: t) :: cs) ++ p.
(** A path that has no volume and is no such path. *)
Definition unhidden (s : list Z) : Prop := ~ hides_drive s.
(** A path that does not begin with a share. *)
Definition not_share (s : list Z) : Prop := forall v r, volumed s v r -> drive v.

(** Examples of paths. "c:\a\..\b", "c:/b", "./c:/x", "c:/x", "./c:", "\\h\s\x\..", "//h/s/", "//h/s". *)
Definition w_drive : list Z := [99; 58; 92; 97; 92; 46; 46; 92; 98].
Definition w_drive_clean : list Z := [99; 58; 47; 98].
Definition w_hidden : list Z := [46; 47; 99; 58; 47; 120].
Definition w_hidden2 : list Z := [46; 47; 99; 58].
Definition w_share : list Z := [92; 92; 104; 92; 115; 92; 120; 92; 46; 46].
Definition w_share_root : list Z := [47; 47; 104; 47; 115; 47].
Definition w_share_bare : list Z := [47; 47; 104; 47; 115].
(** "c:/a/f", "d:/g", "C:/g", "/tmp/g". *)
Definition w_me : list Z := [99; 58; 47; 97; 47; 102].
Definition w_other : list Z := [100; 58; 47; 103].
Definition w_upper : list Z := [67; 58; 47; 103].
Definition w_rooted : list Z := [47; 116; 109; 112; 47; 103].
(** Going from a place along some paths in turn, each taken from the place reached. *)
Definition onwards (t : list (list Z)) (d : list (list Z)) : list (list Z) := fold_left (fun q b => follow q [] (slashed b)) t d.
(** Elements that Join can put behind one another: behind a drive alone the next one must not be empty nor begin with a
    separator; if there is no volume, there must be no colon. *)
Definition joinable (h : list Z) (t : list (list Z)) : Prop :=
  h <> [] /\ (drive h -> t = [] \/ exists x t', t = x :: t' /\ x <> [] /\ ~ rooted x) /\ (no_volume h -> Forall (fun x => ~ In 58 x) (h :: t)).
(** A path written with backslashes only. *)
Definition backslashed (s : list Z) : list Z := map (fun c => if Z.eq_dec c 47 then 92 else c) s.
(** A text cut behind its last separator. *)
Definition cut_behind (s d f : list Z) : Prop :=
  d ++ f = s /\ Forall (fun c => ~ sep c) f /\ (d = [] \/ exists d' c, d = d' ++ [c] /\ sep c).
(** A path without colon but that of its drive. *)
Definition one_colon (s : list Z) : Prop := (forall v r, volumed s v r -> ~ In 58 r) /\ (no_volume s -> ~ In 58 s).

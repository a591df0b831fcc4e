From Coq Require Import String ZArith List Bool Lia ZifyBool.
From Verif Require Import GoBase GoStrings MathModel MathSpec MathProofs DurModel.
Import ListNotations.
Open Scope Z_scope.

(** ** The fraction *)
Lemma fmt_frac_spec : forall prec pr acc v, 0 <= v -> exists F, fmt_frac prec pr acc v = (F, v / 10 ^ Z.of_nat prec) /\
  if pr then exists ds, F = 46 :: ds ++ acc /\ Forall is_digit ds /\ length ds = prec /\ digits_value ds = v mod 10 ^ Z.of_nat prec
  else (v mod 10 ^ Z.of_nat prec = 0 /\ F = acc) \/
       exists ds, F = 46 :: ds ++ acc /\ Forall is_digit ds /\ ds <> [] /\ (length ds <= prec)%nat /\
         digits_value ds * 10 ^ (Z.of_nat prec - zlen ds) = v mod 10 ^ Z.of_nat prec.
Proof.
  induction prec as [|p IH]; intros pr acc v Hv; cbn [fmt_frac].
  - rewrite Z.pow_0_r, Z.div_1_r, Z.mod_1_r. destruct pr.
    + exists (46 :: acc). split; auto. exists []. auto.
    + exists acc. auto.
  - assert (P : 0 < 10 ^ Z.of_nat p) by (apply Z.pow_pos_nonneg; lia).
    assert (E10 : 10 ^ Z.of_nat (S p) = 10 * 10 ^ Z.of_nat p) by (rewrite Nat2Z.inj_succ, Z.pow_succ_r by lia; reflexivity).
    assert (Ed : v / 10 / 10 ^ Z.of_nat p = v / 10 ^ Z.of_nat (S p)) by (rewrite E10, Z.div_div by lia; reflexivity).
    assert (Em : v mod 10 ^ Z.of_nat (S p) = v mod 10 + 10 * ((v / 10) mod 10 ^ Z.of_nat p)) by (rewrite E10; apply Z.rem_mul_r; lia).
    pose proof (Z.mod_pos_bound v 10 ltac:(lia)) as Hm. assert (Hq : 0 <= v / 10) by (apply Z.div_pos; lia).
    assert (Hd : is_digit (48 + v mod 10)) by (unfold is_digit; lia).
    destruct (pr || negb (v mod 10 =? 0)) eqn:Epr.
    + destruct (IH true ((48 + v mod 10) :: acc) (v / 10) Hq) as (F & E & ds & -> & Dd & Ld & Vd). rewrite Ed in E.
      assert (X : exists ds', 46 :: ds ++ (48 + v mod 10) :: acc = 46 :: ds' ++ acc /\ Forall is_digit ds' /\ length ds' = S p /\
                  digits_value ds' = v mod 10 ^ Z.of_nat (S p)).
      { exists (ds ++ [48 + v mod 10]). split; [rewrite <- app_assoc; reflexivity|]. split; [apply Forall_app; auto|].
        split; [rewrite app_length; cbn; lia|]. rewrite digits_value_app, Vd. lia. }
      eexists. split; [exact E|]. destruct X as (ds' & E' & D' & L' & V'). destruct pr.
      * exists ds'. auto.
      * right. exists ds'. split; [auto|]. split; [auto|]. split; [destruct ds'; [discriminate|congruence]|]. split; [lia|].
        unfold zlen. rewrite L', Z.sub_diag, Z.pow_0_r, Z.mul_1_r. auto.
    + apply orb_false_iff in Epr as [-> E0]. apply negb_false_iff, Z.eqb_eq in E0.
      destruct (IH false acc (v / 10) Hq) as (F & E & Hc). rewrite Ed in E. exists F. split; [exact E|].
      rewrite Em, E0. destruct Hc as [[Z0 ->]|(ds & -> & Dd & Nd & Ld & Vd)].
      * left. split; [rewrite Z0; reflexivity|reflexivity].
      * right. exists ds. split; [auto|]. split; [auto|]. split; [auto|]. split; [lia|]. rewrite <- Vd.
        unfold zlen in *. replace (Z.of_nat (S p) - Z.of_nat (length ds)) with (1 + (Z.of_nat p - Z.of_nat (length ds))) by lia.
        rewrite Z.pow_add_r by lia. change (10 ^ 1) with 10. ring.
Qed.

(** ** Parsing one segment *)
Lemma is_digb_ok c : is_digit c -> is_digb c = true.
Proof. unfold is_digit, is_digb. lia. Qed.
Lemma lead_digits_app ds r : Forall is_digit ds -> (match r with [] => True | c :: _ => is_digb c = false end) ->
  lead_digits (ds ++ r) = (ds, r).
Proof.
  intros H Hr. induction H as [|c ds Hc _ IH]; cbn [app lead_digits].
  - destruct r as [|c r]; cbn [lead_digits]; [reflexivity|]. now rewrite Hr.
  - rewrite (is_digb_ok c Hc), IH. reflexivity.
Qed.
Definition unitch (c : Z) : Prop := is_digb c || (c =? 46) = false.
Lemma lead_unit_app us r : Forall unitch us -> (match r with [] => True | c :: _ => is_digb c = true end) ->
  lead_unit (us ++ r) = (us, r).
Proof.
  intros H Hr. induction H as [|c us Hc _ IH]; cbn [app lead_unit].
  - destruct r as [|c r]; cbn [lead_unit]; [reflexivity|]. now rewrite Hr.
  - unfold unitch in Hc. rewrite Hc, IH. reflexivity.
Qed.
Lemma parse_seg fuel d W ds (pt : bool) U unit rest :
  W <> [] -> Forall is_digit W -> Forall is_digit ds -> (pt = false -> ds = []) ->
  U <> [] -> Forall unitch U -> unit_find U unit_map = Some unit ->
  (match rest with [] => True | c :: _ => is_digb c = true end) ->
  parse_loop (S fuel) d (W ++ (if pt then 46 :: ds else []) ++ U ++ rest) =
  let v := digits_value W * unit + digits_value ds * unit / 10 ^ zlen ds in
  if (max_int64 <? digits_value W * unit) || (max_int64 <? v) || (max_int64 <? d + v) then None
  else parse_loop fuel (d + v) rest.
Proof.
  intros NW DW Dd Hpt NU DU Hu Hr. cbn [parse_loop].
  destruct U as [|u0 U']; [congruence|]. pose proof DU as DU0. apply Forall_cons_iff in DU0 as [Hu0 _]. unfold unitch in Hu0.
  assert (E1 : lead_digits (W ++ (if pt then 46 :: ds else []) ++ (u0 :: U') ++ rest) = (W, (if pt then 46 :: ds else []) ++ (u0 :: U') ++ rest)).
  { apply lead_digits_app; auto. destruct pt; cbn; [reflexivity|]. now apply orb_false_iff in Hu0. }
  rewrite E1. destruct W as [|w0 W']; [congruence|]. cbn [app].
  assert (E2 : match (if pt then 46 :: ds else []) ++ (u0 :: U') ++ rest with 46 :: t => lead_digits t | _ => ([], (if pt then 46 :: ds else []) ++ (u0 :: U') ++ rest) end
     = (ds, (u0 :: U') ++ rest)).
  { destruct pt; cbn [app].
    - apply (lead_digits_app ds ((u0 :: U') ++ rest)); auto. cbn. now apply orb_false_iff in Hu0.
    - rewrite (Hpt eq_refl). apply orb_false_iff in Hu0 as [_ Hu0]. apply Z.eqb_neq in Hu0.
      destruct u0 as [|p|p]; try reflexivity. do 6 (destruct p as [p|p|]; try reflexivity). congruence. }
  cbn [app] in E2. rewrite E2. cbn [length Nat.eqb andb].
  assert (E3 : lead_unit ((u0 :: U') ++ rest) = (u0 :: U', rest)) by (apply lead_unit_app; auto).
  cbn [app] in E3. rewrite E3, Hu. reflexivity.
Qed.

(** The same, for a number with a fraction made by [fmt_frac]. *)
Lemma parse_frac fuel d x prec U u s v rest : 0 <= x -> 0 <= u ->
  fmt_frac prec false U u = (s, v) ->
  U <> [] -> Forall unitch U -> unit_find U unit_map = Some (10 ^ Z.of_nat prec) ->
  (match rest with [] => True | c :: _ => is_digb c = true end) ->
  0 <= d -> 
  parse_loop (S fuel) d (fmt_d x ++ s ++ rest) =
  if max_int64 <? d + (x * 10 ^ Z.of_nat prec + u mod 10 ^ Z.of_nat prec) then None
  else parse_loop fuel (d + (x * 10 ^ Z.of_nat prec + u mod 10 ^ Z.of_nat prec)) rest.
Proof.
  intros Hx Hu E NU DU Hf Hr Hd. destruct (fmt_d_spec x Hx) as (NW & DW & VW & _).
  assert (P : 0 < 10 ^ Z.of_nat prec) by (apply Z.pow_pos_nonneg; lia).
  pose proof (Z.mod_pos_bound u (10 ^ Z.of_nat prec) P) as Hm.
  assert (K : forall (a b c : Z), 0 <= b -> 0 <= c -> (max_int64 <? a) || (max_int64 <? a + b) || (max_int64 <? c + (a + b)) = (max_int64 <? c + (a + b))) by (intros; lia).
  destruct (fmt_frac_spec prec false U u Hu) as (F & E' & Hc). rewrite E in E'. injection E' as -> ->.
  destruct Hc as [[Z0 ->]|(ds & -> & Dd & Nd & Ld & Vd)].
  - pose proof (parse_seg fuel d (fmt_d x) [] false U _ rest NW DW (Forall_nil _) ltac:(auto) NU DU Hf Hr) as Q.
    cbn [app] in Q. rewrite Q. cbv zeta. rewrite VW, Z0. change (digits_value []) with 0. rewrite Z.mul_0_l, Z.div_0_l by (apply Z.pow_nonzero; unfold zlen; cbn; lia).
    rewrite K by lia. reflexivity.
  - pose proof (parse_seg fuel d (fmt_d x) ds true U _ rest NW DW Dd ltac:(discriminate) NU DU Hf Hr) as Q.
    cbv iota in Q. replace ((46 :: ds ++ U) ++ rest) with ((46 :: ds) ++ U ++ rest) by (cbn; now rewrite <- app_assoc).
    rewrite Q. cbv zeta. rewrite VW.
    assert (X : digits_value ds * 10 ^ Z.of_nat prec / 10 ^ zlen ds = u mod 10 ^ Z.of_nat prec).
    { rewrite <- Vd. unfold zlen in *. replace (Z.of_nat prec) with ((Z.of_nat prec - Z.of_nat (length ds)) + Z.of_nat (length ds)) at 1 by lia.
      rewrite Z.pow_add_r, Z.mul_assoc by lia. apply Z.div_mul. apply Z.pow_nonzero; lia. }
    rewrite X. rewrite K by lia. reflexivity.
Qed.
Lemma parse_plain fuel d x U unit rest : 0 <= x ->
  U <> [] -> Forall unitch U -> unit_find U unit_map = Some unit -> 0 <= unit ->
  (match rest with [] => True | c :: _ => is_digb c = true end) -> 0 <= d ->
  parse_loop (S fuel) d (fmt_d x ++ U ++ rest) = if max_int64 <? d + x * unit then None else parse_loop fuel (d + x * unit) rest.
Proof.
  intros Hx NU DU Hf H0 Hr Hd. destruct (fmt_d_spec x Hx) as (NW & DW & VW & _).
  pose proof (parse_seg fuel d (fmt_d x) [] false U _ rest NW DW (Forall_nil _) ltac:(auto) NU DU Hf Hr) as Q.
  cbn [app] in Q. rewrite Q. cbv zeta. rewrite VW. change (digits_value []) with 0.
  rewrite Z.mul_0_l, Z.div_0_l, Z.add_0_r by (apply Z.pow_nonzero; unfold zlen; cbn; lia).
  replace ((max_int64 <? x * unit) || (max_int64 <? x * unit) || (max_int64 <? d + x * unit)) with (max_int64 <? d + x * unit) by nia.
  reflexivity.
Qed.
Lemma fmt_d_head x : 0 <= x -> match fmt_d x with [] => False | c :: _ => is_digit c end.
Proof.
  intros H. destruct (fmt_d_spec x H) as (N & D & _). destruct (fmt_d x); [congruence|]. now apply Forall_cons_iff in D as [D _].
Qed.
Lemma fmt_d_head_app x r : 0 <= x -> match fmt_d x ++ r with [] => True | c :: _ => is_digb c = true end.
Proof. intros H. pose proof (fmt_d_head x H). destruct (fmt_d x); [tauto|]. cbn. now apply is_digb_ok. Qed.

(** Parsing gives the number back, unless it is out of range. *)
Lemma parse_unsigned u : 0 <= u -> forall fuel, (3 <= fuel)%nat ->
  parse_loop fuel 0 (std_unsigned u) = if max_int64 <? u then None else Some u.
Proof.
  intros Hu [|[|[|fuel]]] Hf; try lia. unfold std_unsigned.
  assert (UC : forall s, forallb (fun c => negb (is_digb c || (c =? 46))) s = true -> Forall unitch s).
  { intros s H. apply Forall_forall. intros c Hc. rewrite forallb_forall in H. specialize (H c Hc). unfold unitch. now apply negb_true_iff. }
  unfold second, microsecond, millisecond.
  destruct (Z.ltb_spec u 1000000000) as [L|L].
  - replace (max_int64 <? u) with false by (unfold max_int64; lia).
    destruct (Z.eqb_spec u 0) as [->|N]; [reflexivity|].
    destruct (Z.ltb_spec u 1000) as [L1|L1].
    { rewrite <- (app_nil_r (bytes_of "ns")). rewrite (parse_plain _ 0 u _ 1 []); auto; try lia; try discriminate; try reflexivity.
      - replace (max_int64 <? 0 + u * 1) with false by (unfold max_int64; lia). cbn [parse_loop]. f_equal. lia.
    }
    destruct (Z.ltb_spec u 1000000) as [L2|L2].
    + destruct (fmt_frac 3 false (194 :: 181 :: bytes_of "s") u) as [s v] eqn:E.
      destruct (fmt_frac_spec 3 false (194 :: 181 :: bytes_of "s") u Hu) as (F & E' & _).
      assert (v = u / 10 ^ Z.of_nat 3) by congruence. subst v.
      rewrite <- (app_nil_r s).
      rewrite (parse_frac _ 0 (u / 10 ^ Z.of_nat 3) 3 _ u s _ [] ltac:(apply Z.div_pos; [lia|reflexivity]) Hu E); auto; try lia; try discriminate; try reflexivity.
      * change (10 ^ Z.of_nat 3) with 1000. pose proof (Z.div_mod u 1000 ltac:(lia)) as Q.
        replace (0 + (u / 1000 * 1000 + u mod 1000)) with u by lia.
        replace (max_int64 <? u) with false by (unfold max_int64; lia). reflexivity.
    + destruct (fmt_frac 6 false (bytes_of "ms") u) as [s v] eqn:E.
      destruct (fmt_frac_spec 6 false (bytes_of "ms") u Hu) as (F & E' & _).
      assert (v = u / 10 ^ Z.of_nat 6) by congruence. subst v.
      rewrite <- (app_nil_r s).
      rewrite (parse_frac _ 0 (u / 10 ^ Z.of_nat 6) 6 _ u s _ [] ltac:(apply Z.div_pos; [lia|reflexivity]) Hu E); auto; try lia; try discriminate; try reflexivity.
      * change (10 ^ Z.of_nat 6) with 1000000. pose proof (Z.div_mod u 1000000 ltac:(lia)) as Q.
        replace (0 + (u / 1000000 * 1000000 + u mod 1000000)) with u by lia.
        replace (max_int64 <? u) with false by (unfold max_int64; lia). reflexivity.
  - destruct (fmt_frac 9 false (bytes_of "s") u) as [s v] eqn:E.
    destruct (fmt_frac_spec 9 false (bytes_of "s") u Hu) as (F & E' & _).
    assert (v = u / 10 ^ Z.of_nat 9) by congruence. subst v. clear E'.
    set (T := u / 10 ^ Z.of_nat 9) in *. pose proof (Z.div_mod u (10 ^ Z.of_nat 9) ltac:(discriminate)) as Q. fold T in Q.
    set (fr := u mod 10 ^ Z.of_nat 9) in *. assert (Hfr : 0 <= fr < 10 ^ Z.of_nat 9) by (apply Z.mod_pos_bound; reflexivity).
    change (10 ^ Z.of_nat 9) with 1000000000 in *.
    assert (HT : 0 <= T) by lia.
    assert (Sec : forall f d r, 0 <= d -> 0 <= r -> parse_loop (S f) d (fmt_d r ++ s) =
              if max_int64 <? d + (r * 1000000000 + fr) then None else Some (d + (r * 1000000000 + fr))).
    { intros f d r Hd Hr. rewrite <- (app_nil_r s).
      rewrite (parse_frac f d r 9 (bytes_of "s") u s T [] Hr Hu E); auto; try discriminate; try reflexivity.
      - fold fr. change (10 ^ Z.of_nat 9) with 1000000000. fold fr. destruct (_ <? _); [reflexivity|]. destruct f; reflexivity.
    }
    pose proof (Z.mod_pos_bound T 60 ltac:(lia)) as M1. pose proof (Z.div_mod T 60 ltac:(lia)) as D1.
    destruct (Z.ltb_spec 0 (T / 60)) as [P1|P1].
    + pose proof (Z.mod_pos_bound (T / 60) 60 ltac:(lia)) as M2. pose proof (Z.div_mod (T / 60) 60 ltac:(lia)) as D2.
      assert (Min : forall f d r, 0 <= d -> 0 <= r -> parse_loop (S (S f)) d (fmt_d r ++ bytes_of "m" ++ fmt_d (T mod 60) ++ s) =
              if max_int64 <? d + (r * 60000000000 + (T mod 60 * 1000000000 + fr)) then None else Some (d + (r * 60000000000 + (T mod 60 * 1000000000 + fr)))).
      { intros f d r Hd Hr.
        rewrite (parse_plain (S f) d r (bytes_of "m") 60000000000); auto; try lia; try discriminate; try reflexivity.
        - rewrite Sec by lia. destruct (Z.ltb_spec max_int64 (d + r * 60000000000)).
          + destruct (Z.ltb_spec max_int64 (d + (r * 60000000000 + (T mod 60 * 1000000000 + fr)))); [reflexivity|lia].
          + rewrite <- !Z.add_assoc. reflexivity.
        - apply fmt_d_head_app. lia. }
      destruct (Z.ltb_spec 0 (T / 60 / 60)) as [P2|P2].
      * rewrite (parse_plain (S (S fuel)) 0 (T / 60 / 60) (bytes_of "h") 3600000000000); auto; try lia; try discriminate; try reflexivity.
        -- rewrite Min by lia. destruct (Z.ltb_spec max_int64 (0 + T / 60 / 60 * 3600000000000)).
           ++ destruct (Z.ltb_spec max_int64 u); [reflexivity|lia].
           ++ replace (0 + T / 60 / 60 * 3600000000000 + ((T / 60) mod 60 * 60000000000 + (T mod 60 * 1000000000 + fr))) with u by lia. reflexivity.
        -- apply fmt_d_head_app. lia.
      * rewrite Min by lia. assert (T / 60 / 60 = 0) by (pose proof (Z.div_pos (T / 60) 60); lia).
        replace (0 + ((T / 60) mod 60 * 60000000000 + (T mod 60 * 1000000000 + fr))) with u by lia. reflexivity.
    + rewrite Sec by lia. assert (T / 60 = 0) by (pose proof (Z.div_pos T 60); lia).
      replace (0 + (T mod 60 * 1000000000 + fr)) with u by lia. reflexivity.
Qed.

(** ** Characters *)
Definition plain (s : list Z) : Prop := ~ In 100 s.
Lemma digits_plain ds : Forall is_digit ds -> plain ds.
Proof. intros H I. rewrite Forall_forall in H. specialize (H 100 I). unfold is_digit in H. lia. Qed.
Lemma plain_app a b : plain a -> plain b -> plain (a ++ b).
Proof. unfold plain. intros Ha Hb I. apply in_app_or in I. tauto. Qed.
Lemma fmt_d_plain x : 0 <= x -> plain (fmt_d x).
Proof. intros H. apply digits_plain. apply fmt_d_spec; auto. Qed.
Lemma fmt_frac_plain prec acc v s w : 0 <= v -> plain acc -> fmt_frac prec false acc v = (s, w) -> plain s /\ w = v / 10 ^ Z.of_nat prec.
Proof.
  intros Hv Ha E. destruct (fmt_frac_spec prec false acc v Hv) as (F & E' & Hc). rewrite E in E'. injection E' as -> ->. split; auto.
  destruct Hc as [[_ ->]|(ds & -> & Dd & _)]; auto. apply (plain_app [46]); [unfold plain; cbn; lia|]. apply plain_app; auto using digits_plain.
Qed.
Lemma std_unsigned_plain u : 0 <= u -> plain (std_unsigned u).
Proof.
  intros Hu. unfold std_unsigned.
  assert (B : forall s, existsb (Z.eqb 100) s = false -> plain s).
  { intros s H I. assert (X : existsb (Z.eqb 100) s = true) by (apply existsb_exists; exists 100; auto). congruence. }
  unfold second, microsecond, millisecond.
  destruct (Z.ltb_spec u 1000000000).
  - destruct (u =? 0); [apply B; reflexivity|]. destruct (Z.ltb_spec u 1000); [apply plain_app; auto using fmt_d_plain|].
    destruct (Z.ltb_spec u 1000000).
    + destruct (fmt_frac 3 _ _ _) as [s v] eqn:E. apply fmt_frac_plain in E as [P ->]; auto.
      apply plain_app; auto. apply fmt_d_plain. apply Z.div_pos; [lia|reflexivity].
    + destruct (fmt_frac 6 _ _ _) as [s v] eqn:E. apply fmt_frac_plain in E as [P ->]; auto.
      apply plain_app; auto. apply fmt_d_plain. apply Z.div_pos; [lia|reflexivity].
  - destruct (fmt_frac 9 _ _ _) as [s v] eqn:E. apply fmt_frac_plain in E as [P ->]; auto.
    assert (0 <= u / 10 ^ Z.of_nat 9) by (apply Z.div_pos; [lia|reflexivity]). set (T := u / 10 ^ Z.of_nat 9) in *.
    pose proof (Z.mod_pos_bound T 60 ltac:(lia)). assert (0 <= T / 60) by (apply Z.div_pos; lia).
    pose proof (Z.mod_pos_bound (T / 60) 60 ltac:(lia)). assert (0 <= T / 60 / 60) by (apply Z.div_pos; lia).
    destruct (_ <? _); [destruct (_ <? _)|]; repeat apply plain_app; auto using fmt_d_plain; try (apply fmt_d_plain; lia).
Qed.
Lemma std_unsigned_head u : 0 <= u -> exists c r, std_unsigned u = c :: r /\ is_digit c /\ r <> [].
Proof.
  intros Hu. unfold std_unsigned.
  assert (G : forall x s, 0 <= x -> s <> [] -> exists c r, fmt_d x ++ s = c :: r /\ is_digit c /\ r <> []).
  { intros x s Hx Hs. pose proof (fmt_d_head x Hx) as H. destruct (fmt_d x) as [|c r]; [tauto|]. exists c, (r ++ s).
    split; [reflexivity|]. split; auto. intros E. apply app_eq_nil in E. tauto. }
  assert (NF : forall prec acc s w, acc <> [] -> fmt_frac prec false acc u = (s, w) -> s <> [] /\ 0 <= w).
  { intros prec acc s w Na E. destruct (fmt_frac_spec prec false acc u Hu) as (F & E' & Hc). rewrite E in E'. injection E' as -> ->.
    split; [destruct Hc as [[_ ->]|(ds & -> & _)]; [auto|discriminate]|]. apply Z.div_pos; auto. apply Z.pow_pos_nonneg; lia. }
  destruct (u <? second).
  - destruct (u =? 0); [exists 48, [115]; split; [reflexivity|split; [unfold is_digit; lia|discriminate]]|].
    destruct (u <? microsecond); [apply G; auto; discriminate|]. destruct (u <? millisecond).
    + destruct (fmt_frac 3 _ _ _) as [s v] eqn:E. apply NF in E as [Ns Hv]; [|discriminate]. apply G; auto.
    + destruct (fmt_frac 6 _ _ _) as [s v] eqn:E. apply NF in E as [Ns Hv]; [|discriminate]. apply G; auto.
  - destruct (fmt_frac 9 _ _ _) as [s v] eqn:E. apply NF in E as [Ns Hv]; [|discriminate].
    pose proof (Z.mod_pos_bound v 60 ltac:(lia)). assert (0 <= v / 60) by (apply Z.div_pos; lia).
    pose proof (Z.mod_pos_bound (v / 60) 60 ltac:(lia)). assert (0 <= v / 60 / 60) by (apply Z.div_pos; lia).
    destruct (_ <? _); [destruct (_ <? _)|]; apply G; auto; try lia; discriminate.
Qed.

(** ** Reading back *)
Lemma skip_sign c r neg : is_digit c ->
  match c :: r with 45 :: t => (true, t) | 43 :: t => (false, t) | _ => (neg, c :: r) end = (neg, c :: r).
Proof. unfold is_digit. intros H. destruct c as [|p|p]; try lia. do 6 (destruct p as [p|p|]; try reflexivity; try lia). Qed.
Lemma lead_digits_len s a b : lead_digits s = (a, b) -> (length b <= length s)%nat.
Proof.
  revert a b. induction s as [|c s IH]; intros a b; cbn [lead_digits]; [intros [= <- <-]; auto|].
  destruct (is_digb c); [|intros [= <- <-]; auto]. destruct (lead_digits s) as [x y]. intros [= <- <-]. specialize (IH x y eq_refl). cbn [length]. lia.
Qed.
Lemma lead_unit_len s a b : lead_unit s = (a, b) -> (length a + length b <= length s)%nat.
Proof.
  revert a b. induction s as [|c s IH]; intros a b; cbn [lead_unit]; [intros [= <- <-]; auto|].
  destruct (_ || _); [intros [= <- <-]; auto|]. destruct (lead_unit s) as [x y]. intros [= <- <-]. specialize (IH x y eq_refl). cbn [length]. lia.
Qed.
Lemma parse_fuel : forall f g d s, (length s <= f)%nat -> (length s <= g)%nat -> parse_loop f d s = parse_loop g d s.
Proof.
  induction f as [|f IH]; intros g d s Hf Hg.
  - destruct s; [destruct g; reflexivity|cbn in Hf; lia].
  - destruct s as [|c s]; [destruct g; reflexivity|]. destruct g as [|g]; [cbn in Hg; lia|].
    set (s0 := c :: s) in *.
    assert (U : forall k, parse_loop (S k) d s0 =
      let '(iv, s1) := lead_digits s0 in
      let '(fv, s2) := match s1 with 46 :: t => lead_digits t | _ => ([], s1) end in
      if (length iv =? 0)%nat && (length fv =? 0)%nat then None
      else let '(u, s3) := lead_unit s2 in
        match u, unit_find u unit_map with
        | [], _ => None
        | _, None => None
        | _, Some unit =>
            let v := dig_value iv * unit in
            let v := v + dig_value fv * unit / 10 ^ zlen fv in
            let d := d + v in
            if (max_int64 <? dig_value iv * unit) || (max_int64 <? v) || (max_int64 <? d) then None
            else parse_loop k d s3
        end) by reflexivity.
    rewrite !U. clear U.
    destruct (lead_digits s0) as [iv s1] eqn:E1.
    destruct (match s1 with 46 :: t => lead_digits t | _ => ([], s1) end) as [fv s2] eqn:E2.
    destruct (_ && _); [reflexivity|]. destruct (lead_unit s2) as [u s3] eqn:E3.
    destruct u as [|u0 u]; [reflexivity|]. destruct (unit_find _ _) as [unit|]; [|reflexivity]. cbv zeta.
    destruct (max_int64 <? dig_value iv * unit); [reflexivity|]. cbn [orb].
    destruct (max_int64 <? dig_value iv * unit + dig_value fv * unit / 10 ^ zlen fv); [reflexivity|]. cbn [orb].
    destruct (max_int64 <? d + (dig_value iv * unit + dig_value fv * unit / 10 ^ zlen fv)); [reflexivity|].
    apply lead_digits_len in E1. apply lead_unit_len in E3. cbn [length] in E3.
    assert (L2 : (length s2 <= length s1)%nat).
    { destruct s1 as [|x s1]; [injection E2 as <- <-; auto|]. destruct (Z.eq_dec x 46) as [->|N].
      - apply lead_digits_len in E2. cbn [length]. lia.
      - assert (Q : ([], x :: s1) = (fv, s2)).
        { rewrite <- E2. clear - N. destruct x as [|p|p]; try reflexivity. do 6 (destruct p as [p|p|]; try reflexivity). congruence. }
        injection Q as <- <-. auto. }
    apply IH; lia.
Qed.
Lemma parse_loop_len u : 0 <= u -> parse_loop (length (std_unsigned u)) 0 (std_unsigned u) = if max_int64 <? u then None else Some u.
Proof.
  intros Hu. rewrite <- (parse_unsigned u Hu (3 + length (std_unsigned u))) by lia. apply parse_fuel; lia.
Qed.
Lemma parse_std d : - 2 ^ 63 < d < 2 ^ 63 -> parse_duration (std_string d) = Some d.
Proof.
  intros Hd. unfold std_string, parse_duration.
  assert (G : forall u, 0 <= u <= max_int64 -> exists c r, std_unsigned u = c :: r /\ is_digit c /\ str_eqb (c :: r) [48] = false /\ parse_loop (length (c :: r)) 0 (c :: r) = Some u).
  { intros u Hu. destruct (std_unsigned_head u) as (c & r & E & Hc & Nr); [lia|]. exists c, r. split; auto. split; auto. split.
    - destruct (str_eqb (c :: r) [48]) eqn:Es; auto. apply str_eqb_eq in Es. congruence.
    - rewrite <- E, parse_loop_len by lia. replace (max_int64 <? u) with false by lia. reflexivity. }
  destruct (Z.ltb_spec d 0).
  - destruct (G (- d)) as (c & r & E & Hc & Es & Ep); [unfold max_int64; lia|]. rewrite E, Es, Ep. cbn [option_map]. f_equal. lia.
  - destruct (G d) as (c & r & E & Hc & Es & Ep); [unfold max_int64; lia|]. rewrite E, skip_sign, Es, Ep by auto. reflexivity.
Qed.
Lemma parse_days d : day <= d -> parse_duration (dur_string d) = None.
Proof.
  intros Hd. unfold dur_string. assert (Pd : 0 < day) by reflexivity. replace (d <? day) with false by lia.
  assert (Hq : 0 <= Z.quot d day) by (apply Z.quot_pos; lia).
  assert (Hr : 0 <= Z.rem d day) by (apply Z.rem_nonneg; lia).
  destruct (fmt_d_spec _ Hq) as (NW & DW & VW & _). pose proof (fmt_d_head _ Hq) as Hh.
  unfold std_string. replace (Z.rem d day <? 0) with false by lia.
  destruct (std_unsigned_head _ Hr) as (c & r & E & Hc & _). rewrite E. set (W := fmt_d (Z.quot d day)) in *. clearbody W.
  destruct W as [|w W]; [tauto|]. cbn [app]. unfold parse_duration. rewrite skip_sign by auto.
  destruct (str_eqb _ _) eqn:Es.
  { apply str_eqb_eq in Es. destruct W; discriminate. }
  cbn [length]. set (n := length _). clearbody n.
  assert (L1 : lead_digits ((w :: W) ++ bytes_of "d" ++ c :: r) = (w :: W, bytes_of "d" ++ c :: r)) by (apply lead_digits_app; [exact DW|reflexivity]).
  cbn [parse_loop]. change (w :: W ++ bytes_of "d" ++ c :: r) with ((w :: W) ++ bytes_of "d" ++ c :: r). rewrite L1.
  cbn [bytes_of app]. change (bytes_of "d") with [100]. cbn [app length Nat.eqb andb lead_unit].
  change (is_digb 100 || (100 =? 46)) with false. cbv iota. cbn [lead_unit]. rewrite (is_digb_ok c Hc). cbn [orb]. reflexivity.
Qed.

(** ** Distinct durations have distinct texts *)
Lemma std_unsigned_inj u v : 0 <= u <= 2 ^ 63 -> 0 <= v <= 2 ^ 63 -> std_unsigned u = std_unsigned v -> u = v.
Proof.
  intros Hu Hv E. pose proof (parse_unsigned u ltac:(lia) 3 (Nat.le_refl 3)) as A. pose proof (parse_unsigned v ltac:(lia) 3 (Nat.le_refl 3)) as B.
  rewrite E in A. rewrite A in B.
  destruct (Z.ltb_spec max_int64 u); destruct (Z.ltb_spec max_int64 v); try discriminate; [unfold max_int64 in *; lia|congruence].
Qed.
Lemma std_string_inj d e : - 2 ^ 63 <= d < 2 ^ 63 -> - 2 ^ 63 <= e < 2 ^ 63 -> std_string d = std_string e -> d = e.
Proof.
  intros Hd He. unfold std_string.
  destruct (Z.ltb_spec d 0); destruct (Z.ltb_spec e 0); intros E.
  - injection E as E. apply std_unsigned_inj in E; lia.
  - destruct (std_unsigned_head e) as (c & r & Ee & Hc & _); [lia|]. rewrite Ee in E. injection E as <- _. unfold is_digit in Hc. lia.
  - destruct (std_unsigned_head d) as (c & r & Ee & Hc & _); [lia|]. rewrite Ee in E. injection E as -> _. unfold is_digit in Hc. lia.
  - apply std_unsigned_inj in E; lia.
Qed.
Lemma std_string_plain d : plain (std_string d).
Proof.
  unfold std_string. destruct (Z.ltb_spec d 0); [|apply std_unsigned_plain; auto].
  apply (plain_app [45]); [unfold plain; cbn; lia|apply std_unsigned_plain; lia].
Qed.
Lemma first_split (a b c d : list Z) x : ~ In x a -> ~ In x c -> a ++ x :: b = c ++ x :: d -> a = c /\ b = d.
Proof.
  revert c. induction a as [|y a IH]; intros [|z c] Ha Hc E; cbn in *.
  - injection E as ->. auto.
  - injection E as -> _. tauto.
  - injection E as -> _. tauto.
  - injection E as -> E. destruct (IH c) as [-> ->]; tauto.
Qed.
Lemma dur_days d : day <= d -> exists n rest text, 1 <= n /\ 0 <= rest < day /\ d = n * day + rest /\
  is_decimal n text /\ dur_string d = text ++ 100 :: std_string rest.
Proof.
  intros Hd. unfold dur_string. assert (Pd : 0 < day) by reflexivity. replace (d <? day) with false by lia.
  exists (Z.quot d day), (Z.rem d day), (fmt_d (Z.quot d day)).
  pose proof (Z.rem_bound_pos d day ltac:(lia) Pd). pose proof (Z.quot_rem' d day).
  assert (1 <= Z.quot d day) by (apply Z.quot_le_lower_bound; lia).
  split; [auto|]. split; [auto|]. split; [lia|]. split; [|reflexivity]. apply fmt_d_spec. lia.
Qed.
Lemma dur_inj d e : - 2 ^ 63 <= d < 2 ^ 63 -> - 2 ^ 63 <= e < 2 ^ 63 -> dur_string d = dur_string e -> d = e.
Proof.
  intros Hd He E. destruct (Z.ltb_spec d day) as [Ld|Ld]; destruct (Z.ltb_spec e day) as [Le|Le].
  - unfold dur_string in E. replace (d <? day) with true in E by lia. replace (e <? day) with true in E by lia. apply std_string_inj in E; auto.
  - destruct (dur_days e Le) as (n & r & t & _ & _ & _ & _ & Ee). rewrite Ee in E. unfold dur_string in E. replace (d <? day) with true in E by lia.
    pose proof (std_string_plain d) as P. rewrite E in P. exfalso. apply P. apply in_or_app. right. now left.
  - destruct (dur_days d Ld) as (n & r & t & _ & _ & _ & _ & Ee). rewrite Ee in E. unfold dur_string in E. replace (e <? day) with true in E by lia.
    pose proof (std_string_plain e) as P. rewrite <- E in P. exfalso. apply P. apply in_or_app. right. now left.
  - assert (Dy : day < 2 ^ 63) by reflexivity.
    destruct (dur_days d Ld) as (n & r & t & Hn & Hr & -> & (Nt & Dt & Vt & _) & Ed).
    destruct (dur_days e Le) as (m & q & u & Hm & Hq & -> & (Nu & Du & Vu & _) & Ee).
    rewrite Ed, Ee in E. apply first_split in E as [-> E]; try (now apply digits_plain).
    assert (n = m) by congruence. subst m. apply std_string_inj in E; lia.
Qed.
Lemma dur_short d : - 2 ^ 63 < d < day -> dur_string d = std_string d /\ parse_duration (dur_string d) = Some d.
Proof.
  intros H. assert (Dy : day < 2 ^ 63) by reflexivity.
  assert (E : dur_string d = std_string d) by (unfold dur_string; replace (d <? day) with true by lia; reflexivity).
  split; [exact E|]. rewrite E. apply parse_std. lia.
Qed.
Lemma round_trip_false : exists d, - 2 ^ 63 <= d < 2 ^ 63 /\ parse_duration (dur_string d) <> Some d.
Proof.
  exists day. split; [split; [discriminate|reflexivity]|]. rewrite parse_days by (apply Z.le_refl). discriminate.
Qed.

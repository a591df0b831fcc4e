(** Lemmas about sequences, primes and square roots. *)
From Coq Require Import ZArith Znumtheory List Bool Lia ZifyBool ZifyNat Sorted.
From Verif Require Import GoBase GoLists MathModel MathSpec MathProofs PrimeData NumModel NumSpec.
Import ListNotations.
Open Scope Z_scope.

(** ** Sequence generator *)
Definition seq_start (min opt : Z) : Z :=
  if (opt / 256) mod 16 =? 1 then (min + 1) mod 2 ^ 64 else min.

Lemma usage_option opt : 0 <= opt ->
  (Z.land opt get_usage_option =? NOUSE_FST) = ((opt / 256) mod 16 =? 1).
Proof.
  intros H. unfold get_usage_option, NOUSE_FST.
  pose proof (land_shifted_ones opt 8 4 H ltac:(lia) ltac:(lia)) as E.
  change (Z.shiftl (Z.ones 4) 8) with 3840 in E. unfold bit_field in E.
  change (2 ^ 8) with 256 in E. change (2 ^ 4) with 16 in E. rewrite <- E.
  rewrite Z.shiftr_div_pow2 by lia. change (2 ^ 8) with 256.
  assert (Hm : (Z.land opt 3840) mod 256 = 0).
  { change 256 with (2 ^ 8). rewrite <- Z.land_ones by lia. rewrite <- Z.land_assoc.
    change (Z.land 3840 (Z.ones 8)) with 0. apply Z.land_0_r. }
  pose proof (Z.div_mod (Z.land opt 3840) 256 ltac:(lia)) as D.
  destruct (Z.eqb_spec (Z.land opt 3840) 256), (Z.eqb_spec (Z.land opt 3840 / 256) 1); lia.
Qed.

Lemma new_seq_ok min max opt : 0 <= opt ->
  new_seq64 min max opt = Some (Seq64 (Range (seq_start min opt) min max) opt).
Proof.
  intros H. unfold new_seq64, range_init, verify_range, range_reset, seq_start.
  rewrite usage_option by auto. cbn [rmin rmax].
  destruct ((opt / 256) mod 16 =? 1); [|reflexivity].
  unfold range_inc, range_set. rewrite range_verify_true. reflexivity.
Qed.

Lemma seq_refines min max opt ops : forall c,
  run_ops seq_step (Seq64 (Range c min max) opt) ops
  = Ok (Seq64 (Range (fst (spec_ops (counter_step min max) c ops)) min max) opt,
        snd (spec_ops (counter_step min max) c ops)).
Proof.
  induction ops as [|op ops IH]; intros c; [reflexivity|]. cbn [run_ops spec_ops].
  assert (E : seq_step (Seq64 (Range c min max) opt) op
    = Ok (Seq64 (Range (fst (counter_step min max c op)) min max) opt, snd (counter_step min max c op))).
  { destruct op; cbn [seq_step counter_step].
    - unfold seq_next, pop_recycle. cbn [sopt sid].
      assert (P : forall b : bool, (if b then (0, true) else (0, true)) = (0, true)) by now intros [].
      rewrite P. cbn [negb]. unfold range_inc, range_set. rewrite range_verify_true. cbn. reflexivity.
    - unfold seq_recycle, push_recycle, in_current_range. cbn.
      destruct ((min <=? r) && (r <=? c)); reflexivity.
    - reflexivity. }
  rewrite E. cbn [bind fst snd]. destruct (counter_step min max c op) as [c1 o]. cbn [fst snd] in *.
  rewrite IH. cbn [bind]. destruct (spec_ops (counter_step min max) c1 ops). reflexivity.
Qed.

Lemma counter_values mn mx ops : forall c, 0 <= c < 2 ^ 64 ->
  next_values (snd (spec_ops (counter_step mn mx) c ops))
  = map (fun i => (c + Z.of_nat i) mod 2 ^ 64)
        (seq 0 (length (filter (fun op => match op with SNext => true | _ => false end) ops))).
Proof.
  induction ops as [|op ops IH]; intros c Hc; [reflexivity|]. cbn [spec_ops].
  destruct op; cbn [counter_step].
  - assert (H : 0 <= (c + 1) mod 2 ^ 64 < 2 ^ 64) by (apply Z.mod_pos_bound; lia).
    specialize (IH _ H). destruct (spec_ops (counter_step mn mx) ((c + 1) mod 2 ^ 64) ops) as [c' os].
    cbn [snd next_values filter length seq map] in *. rewrite Z.add_0_r, Z.mod_small by lia.
    f_equal. rewrite IH. rewrite <- seq_shift, map_map. apply map_ext. intros i.
    rewrite Zplus_mod_idemp_l. f_equal. lia.
  - specialize (IH c Hc). destruct (spec_ops (counter_step mn mx) c ops). exact IH.
  - specialize (IH c Hc). destruct (spec_ops (counter_step mn mx) c ops). exact IH.
Qed.

Lemma seq_start_bound min opt : 0 <= min < 2 ^ 64 -> 0 <= seq_start min opt < 2 ^ 64.
Proof.
  intros H. unfold seq_start. destruct (_ =? 1); auto. apply Z.mod_pos_bound. lia.
Qed.

Definition count_next (ops : list sqop) : nat :=
  length (filter (fun op => match op with SNext => true | _ => false end) ops).

Lemma NoDup_map_inj_on {A B} (f : A -> B) l : NoDup l ->
  (forall x y, In x l -> In y l -> f x = f y -> x = y) -> NoDup (map f l).
Proof.
  induction 1 as [|x l Hx Hl IH]; intros Hf; cbn; constructor.
  - intros Hin. apply in_map_iff in Hin as (y & E & Hy). apply Hx.
    rewrite (Hf x y); auto; cbn; auto.
  - apply IH. intros; apply Hf; cbn; auto.
Qed.

Lemma seq_exact min max opt ops : 0 <= min < 2 ^ 64 -> 0 <= opt ->
  let start := if (opt / 256) mod 16 =? 1 then (min + 1) mod 2 ^ 64 else min in
  exists s s' os, new_seq64 min max opt = Some s /\ run_ops seq_step s ops = Ok (s', os) /\
    os = snd (spec_ops (counter_step min max) start ops) /\
    next_values os = map (fun i => (start + Z.of_nat i) mod 2 ^ 64) (seq 0 (count_next ops)).
Proof.
  intros Hm Ho. cbv zeta. fold (seq_start min opt).
  do 3 eexists. split; [now apply new_seq_ok|]. split; [apply seq_refines|].
  split; [reflexivity|]. apply counter_values. now apply seq_start_bound.
Qed.

Lemma seq_partial min max opt ops : 0 <= min -> max < 2 ^ 64 -> 0 <= opt ->
  let start := if (opt / 256) mod 16 =? 1 then min + 1 else min in
  start + Z.of_nat (count_next ops) <= max + 1 ->
  exists s s' os, new_seq64 min max opt = Some s /\ run_ops seq_step s ops = Ok (s', os) /\
    next_values os = map (fun i => start + Z.of_nat i) (seq 0 (count_next ops)) /\
    NoDup (next_values os) /\ Forall (fun r => min <= r <= max) (next_values os) /\
    Forall (fun o => match o with SVal _ ok => ok = true | _ => True end) os.
Proof.
  intros Hm HM Ho start Hr.
  destruct (Nat.eq_dec (count_next ops) 0) as [E0|E0].
  - do 3 eexists. split; [now apply new_seq_ok|]. split; [apply seq_refines|].
    unfold count_next in *. rewrite E0. cbn [seq map].
    assert (G : forall c, next_values (snd (spec_ops (counter_step min max) c ops)) = [] /\
      Forall (fun o => match o with SVal _ ok => ok = true | _ => True end)
        (snd (spec_ops (counter_step min max) c ops))).
    { clear Hr. induction ops as [|op ops IH]; intros c; [split; constructor|]. cbn [spec_ops].
      destruct op; [discriminate E0| |]; cbn [counter_step];
      specialize (IH E0 c); destruct (spec_ops (counter_step min max) c ops);
      cbn [snd next_values] in *; destruct IH; split; auto. }
    destruct (G (seq_start min opt)) as [G1 G2]. rewrite G1. repeat split; auto; constructor.
  - assert (Hs : seq_start min opt = start).
    { unfold seq_start, start. destruct (_ =? 1) eqn:E; auto. apply Z.mod_small.
      subst start. try rewrite E in Hr. cbv iota in Hr. lia. }
    assert (Hb : 0 <= start < 2 ^ 64).
    { split; [subst start; destruct (_ =? 1); lia|lia]. }
    assert (Hmin : min <= start) by (subst start; destruct (_ =? 1); lia).
    destruct (seq_exact min max opt ops) as (s & s' & os & E1 & E2 & E3 & E4); [lia|auto|].
    fold (seq_start min opt) in *. rewrite Hs in *.
    exists s, s', os. split; auto. split; auto.
    assert (E5 : next_values os = map (fun i => start + Z.of_nat i) (seq 0 (count_next ops))).
    { rewrite E4. apply map_ext_in. intros i Hi. apply in_seq in Hi. apply Z.mod_small. lia. }
    split; auto. rewrite E5. split; [|split].
    + apply NoDup_map_inj_on; [apply seq_NoDup|]. intros; lia.
    + apply Forall_forall. intros r Hin. apply in_map_iff in Hin as (i & <- & Hi). apply in_seq in Hi. lia.
    + rewrite E3. clear. generalize start. induction ops as [|op ops IH]; intros c; [constructor|].
      cbn [spec_ops]. destruct op; cbn [counter_step].
      * specialize (IH ((c + 1) mod 2 ^ 64)).
        destruct (spec_ops (counter_step min max) ((c + 1) mod 2 ^ 64) ops). constructor; auto.
      * specialize (IH c). destruct (spec_ops (counter_step min max) c ops). constructor; auto.
      * specialize (IH c). destruct (spec_ops (counter_step min max) c ops). constructor; auto.
Qed.

(** ** Primes *)
Lemma prime_loop_first t max num : (forall p, hd_error t = Some p -> max < p) -> prime_loop t max num = true.
Proof.
  destruct t as [|p t]; intros H; auto. cbn [prime_loop].
  destruct (Z.ltb_spec max p) as [|Hc]; auto. specialize (H p eq_refl). lia.
Qed.

Lemma is_prime_exact n : 0 <= n ->
  is_prime n = true <-> n = 2 \/ n = 3 \/ (5 <= n /\ (n mod 6 = 1 \/ n mod 6 = 5)).
Proof.
  intros H. unfold is_prime. destruct (Z.ltb_spec n 2); [split; [discriminate|lia]|].
  destruct (Z.eqb_spec n 2); [cbn; tauto|]. destruct (Z.eqb_spec n 3); [cbn; tauto|]. cbn [orb].
  rewrite prime_loop_first.
  2:{ intros p E. assert (hd_error (skipn 2 g_primes) = Some 5) by reflexivity.
      assert (Some p = Some 5) by congruence. injection H2 as ->. lia. }
  pose proof (Z.mod_pos_bound n 6 ltac:(lia)). pose proof (Z.div_mod n 6 ltac:(lia)).
  destruct (Z.eqb_spec (n mod 6) 1), (Z.eqb_spec (n mod 6) 5); cbn; split; intros; try lia; discriminate.
Qed.

Lemma prime_not_div p d : prime p -> 1 < d < p -> p mod d <> 0.
Proof.
  intros Hp Hd E. apply prime_divisors with (a := d) in Hp.
  - lia.
  - apply Z.mod_divide; lia.
Qed.

Lemma prime_is_prime n : prime n -> is_prime n = true.
Proof.
  intros Hp. assert (2 <= n) by (destruct Hp; lia). apply is_prime_exact; [lia|].
  destruct (Z.eq_dec n 2); auto. destruct (Z.eq_dec n 3); auto. right; right.
  assert (n <> 4) by (intros ->; apply (prime_not_div 4 2 Hp); [lia|reflexivity]).
  split; [lia|]. pose proof (prime_not_div n 2 Hp ltac:(lia)). pose proof (prime_not_div n 3 Hp ltac:(lia)).
  Z.div_mod_to_equations. lia.
Qed.

(** *** The table *)
(* The numbers from 5 on that are divisible neither by 2 nor by 3 are 5, 7, 11,
   13, ...: steps of 2 and 4 in turn.  Every such number up to 65537 is either a
   table entry or a product p*k of two such numbers with p <= 255, never both;
   this is checked by walking over them once. *)
Definition limit : Z := 65537.
Definition unit6 (n : Z) : Prop := n mod 6 = 1 \/ n mod 6 = 5.
(* [d] is the distance from [c] to the next such number *)
Definition wheel (c d : Z) : Prop := (c mod 6 = 1 /\ d = 4) \/ (c mod 6 = 5 /\ d = 2).

Fixpoint mults (fuel : nat) (p k d : Z) : list Z :=
  match fuel with
  | O => []
  | S f => if limit <? p * k then [] else p * k :: mults f p (k + d) (6 - d)
  end.
Fixpoint merge (l1 : list Z) : list Z -> list Z :=
  match l1 with
  | [] => fun l2 => l2
  | x :: l1' => fix aux (l2 : list Z) : list Z :=
      match l2 with
      | [] => l1
      | y :: l2' => match x ?= y with
                    | Lt => x :: merge l1' l2
                    | Gt => y :: aux l2'
                    | Eq => x :: merge l1' l2'
                    end
      end
  end.
Fixpoint merge_pairs (ls : list (list Z)) : list (list Z) :=
  match ls with
  | x :: y :: r => merge x y :: merge_pairs r
  | _ => ls
  end.
Fixpoint factors (n : nat) (p d : Z) : list (list Z) :=
  match n with
  | O => []
  | S n => mults (Z.to_nat (limit / (2 * p) + 2)) p p d :: factors n (p + d) (6 - d)
  end.
Definition products : list Z :=
  fold_right merge [] (Nat.iter 7 merge_pairs (factors 84 5 2)).

Fixpoint walk (fuel : list Z) (c d : Z) (table prods : list Z) : bool :=
  match fuel with
  | [] => match table, prods with [], [] => limit <? c | _, _ => false end
  | _ :: f =>
      match prods with
      | x :: ps => if x =? c then walk f (c + d) (6 - d) table ps
                   else match table with
                        | t :: ts => if t =? c then walk f (c + d) (6 - d) ts prods else false
                        | [] => false
                        end
      | [] => match table with
              | t :: ts => if t =? c then walk f (c + d) (6 - d) ts [] else false
              | [] => limit <? c
              end
      end
  end.

Lemma wheel_next c d : wheel c d -> wheel (c + d) (6 - d) /\ 0 < d.
Proof. unfold wheel. intros [[H ->]|[H ->]]; (split; [|lia]); [right|left]; (split; [|lia]); Z.div_mod_to_equations; lia. Qed.

Lemma wheel_skip c d n : wheel c d -> unit6 n -> c < n -> c + d <= n.
Proof. unfold wheel, unit6. intros [[H ->]|[H ->]] Hn Hlt; Z.div_mod_to_equations; lia. Qed.

Lemma wheel_unit c d : wheel c d -> unit6 c.
Proof. unfold wheel, unit6. tauto. Qed.

Lemma in_merge x : forall l1 l2, In x (merge l1 l2) <-> In x l1 \/ In x l2.
Proof.
  induction l1 as [|a l1 IH1]; intros l2; [cbn; tauto|].
  induction l2 as [|b l2 IH2]; [cbn; tauto|].
  change (merge (a :: l1) (b :: l2)) with
    (match a ?= b with Lt => a :: merge l1 (b :: l2) | Gt => b :: merge (a :: l1) l2 | Eq => a :: merge l1 l2 end).
  destruct (Z.compare_spec a b) as [->|H|H].
  - cbn [In]. rewrite IH1. cbn. tauto.
  - cbn [In]. rewrite IH1. cbn. tauto.
  - cbn [In]. rewrite IH2. cbn. tauto.
Qed.

Lemma in_merge_pairs x : forall n ls, (length ls <= n)%nat ->
  (exists l, In l (merge_pairs ls) /\ In x l) <-> (exists l, In l ls /\ In x l).
Proof.
  induction n as [|n IH]; intros ls Hn.
  - destruct ls; [reflexivity|cbn in Hn; lia].
  - destruct ls as [|a [|b r]]; [reflexivity|reflexivity|]. cbn [merge_pairs].
    specialize (IH r ltac:(cbn in Hn; lia)). split.
    + intros (l & [<-|Hl] & Hx).
      * apply in_merge in Hx as [Hx|Hx]; [exists a|exists b]; cbn; auto.
      * destruct (proj1 IH) as (l' & ? & ?); [eauto|]. exists l'. cbn; auto.
    + intros (l & [->|[->|Hl]] & Hx).
      * exists (merge l b). split; [cbn; auto|]. apply in_merge; auto.
      * exists (merge a l). split; [cbn; auto|]. apply in_merge; auto.
      * destruct (proj2 IH) as (l' & ? & ?); [eauto|]. exists l'. cbn; auto.
Qed.

Lemma in_merge_all x ls : In x (fold_right merge [] ls) <-> exists l, In l ls /\ In x l.
Proof.
  induction ls as [|a ls IH]; cbn [fold_right].
  - split; [intros []|intros (l & [] & _)].
  - rewrite in_merge, IH. split.
    + intros [H|(l & H1 & H2)]; [exists a|exists l]; cbn; auto.
    + intros (l & [->|H1] & H2); eauto.
Qed.

Lemma in_iter_pairs x n ls :
  (exists l, In l (Nat.iter n merge_pairs ls) /\ In x l) <-> (exists l, In l ls /\ In x l).
Proof.
  induction n as [|n IH]; [reflexivity|]. change (Nat.iter (S n) merge_pairs ls) with (merge_pairs (Nat.iter n merge_pairs ls)).
  rewrite (in_merge_pairs x (length (Nat.iter n merge_pairs ls))) by auto. exact IH.
Qed.

Lemma in_mults_sound fuel p : forall k d x, 5 <= k -> wheel k d -> In x (mults fuel p k d) ->
  exists j, 5 <= j /\ x = p * j.
Proof.
  induction fuel as [|f IH]; intros k d x Hk Hw Hin; [destruct Hin|]. cbn [mults] in Hin.
  destruct (limit <? p * k); [destruct Hin|]. destruct (wheel_next k d Hw) as [Hw' Hd].
  destruct Hin as [<-|Hin]; [eauto|]. apply (IH (k + d) (6 - d)); auto. lia.
Qed.

Lemma in_mults_complete fuel p : forall k d j, 0 < p -> wheel k d -> unit6 j -> k <= j -> p * j <= limit ->
  j - k < 2 * Z.of_nat fuel -> In (p * j) (mults fuel p k d).
Proof.
  induction fuel as [|f IH]; intros k d j Hp Hw Hj Hkj Hle Hf; [lia|]. cbn [mults].
  destruct (Z.ltb_spec limit (p * k)); [nia|].
  destruct (Z.eq_dec k j) as [->|Hne]; [cbn; auto|]. right.
  destruct (wheel_next k d Hw) as [Hw' Hd]. pose proof (wheel_skip k d j Hw Hj ltac:(lia)).
  apply IH; auto. unfold wheel in Hw. lia.
Qed.

Lemma in_factors_sound n : forall p d x, 5 <= p -> wheel p d ->
  (exists l, In l (factors n p d) /\ In x l) -> exists i j, 5 <= i /\ 5 <= j /\ x = i * j.
Proof.
  induction n as [|n IH]; intros p d x Hp Hw (l & Hl & Hx); [destruct Hl|]. cbn [factors] in Hl.
  destruct (wheel_next p d Hw) as [Hw' Hd]. destruct Hl as [<-|Hl].
  - apply in_mults_sound in Hx as (j & Hj & ->); auto. eauto.
  - apply (IH (p + d) (6 - d)); eauto. lia.
Qed.

Lemma wheel_idx c d : wheel c d -> (c + d) / 3 = c / 3 + 1.
Proof. unfold wheel. intros [[H ->]|[H ->]]; Z.div_mod_to_equations; lia. Qed.

Lemma in_factors_complete n : forall p d i j, 5 <= p -> wheel p d -> unit6 i -> unit6 j -> p <= i <= j ->
  i * j <= limit -> i / 3 - p / 3 < Z.of_nat n -> exists l, In l (factors n p d) /\ In (i * j) l.
Proof.
  induction n as [|n IH]; intros p d i j Hp Hw Hi Hj Hij Hle Hn.
  { pose proof (Z.div_le_mono p i 3). lia. }
  cbn [factors].
  destruct (Z.eq_dec p i) as [->|Hne].
  - eexists. split; [left; reflexivity|]. apply in_mults_complete; auto; try lia.
    assert (Hj2 : j <= limit / i) by (apply Z.div_le_lower_bound; lia).
    assert (limit / i / 2 = limit / (2 * i)) by (rewrite Z.div_div by lia; f_equal; lia).
    pose proof (Z.div_mod (limit / i) 2 ltac:(lia)). pose proof (Z.mod_pos_bound (limit / i) 2 ltac:(lia)).
    assert (0 <= limit / (2 * i)) by (apply Z.div_pos; unfold limit; lia). lia.
  - destruct (wheel_next p d Hw) as [Hw' Hd]. pose proof (wheel_skip p d i Hw Hi ltac:(lia)).
    pose proof (wheel_idx p d Hw).
    destruct (IH (p + d) (6 - d) i j) as (l & Hl & Hx); auto; try lia.
    exists l. cbn; auto.
Qed.

Lemma products_sound x : In x products -> exists i j, 5 <= i /\ 5 <= j /\ x = i * j.
Proof.
  unfold products. rewrite in_merge_all, in_iter_pairs.
  apply in_factors_sound; [lia|]. right. split; reflexivity.
Qed.

Lemma products_complete i j : unit6 i -> unit6 j -> 5 <= i <= j -> i * j <= limit -> In (i * j) products.
Proof.
  intros Hi Hj Hij Hle. unfold products. rewrite in_merge_all, in_iter_pairs.
  apply in_factors_complete; auto; try lia.
  - right. split; reflexivity.
  - assert (i < 257) by (unfold limit in Hle; nia). change (5 / 3) with 1.
    unfold unit6 in Hi. Z.div_mod_to_equations. lia.
Qed.

Lemma walk_sound fuel : forall c d table prods, wheel c d -> walk fuel c d table prods = true ->
  StronglySorted Z.lt table /\ (forall x, In x table -> c <= x /\ unit6 x) /\
  (forall x, In x prods -> c <= x) /\
  (forall n, unit6 n -> c <= n <= limit ->
     (In n table /\ ~ In n prods) \/ (In n prods /\ ~ In n table)).
Proof.
  assert (base : forall c, (limit <? c) = true ->
    StronglySorted Z.lt [] /\ (forall x, In x [] -> c <= x /\ unit6 x) /\
    (forall x, In x [] -> c <= x) /\
    (forall n, unit6 n -> c <= n <= limit -> (In n [] /\ ~ In n []) \/ (In n [] /\ ~ In n []))).
  { intros c H. split; [constructor|]. split; [intros x []|]. split; [intros x []|]. intros n _ Hn. lia. }
  induction fuel as [|u f IH]; intros c d table prods Hw H; cbn [walk] in H.
  - destruct table; [|discriminate]. destruct prods; [|discriminate]. now apply base.
  - destruct (wheel_next c d Hw) as [Hw' Hd].
    assert (fromT : forall ts, walk f (c + d) (6 - d) ts prods = true -> table = c :: ts ->
      StronglySorted Z.lt table /\ (forall x, In x table -> c <= x /\ unit6 x) /\
      (forall x, In x prods -> c <= x) /\
      (forall n, unit6 n -> c <= n <= limit -> (In n table /\ ~ In n prods) \/ (In n prods /\ ~ In n table))).
    { intros ts Hts ->. destruct (IH (c + d) (6 - d) ts prods Hw' Hts) as (S1 & S2 & S3 & S4).
      split; [|split; [|split]].
      - constructor; auto. apply Forall_forall. intros x Hx. apply S2 in Hx. lia.
      - intros x [<-|Hx]; [split; [lia|eapply wheel_unit; eauto]|]. apply S2 in Hx. split; [lia|tauto].
      - intros x Hx. apply S3 in Hx. lia.
      - intros n Hn Hr. destruct (Z.eq_dec n c) as [->|Hne].
        + left. split; [cbn; auto|]. intros Hin. apply S3 in Hin. lia.
        + pose proof (wheel_skip c d n Hw Hn ltac:(lia)).
          destruct (S4 n Hn ltac:(lia)) as [[H1 H2]|[H1 H2]]; [left|right]; cbn; split; auto.
          intros [<-|]; [congruence|auto]. }
    assert (noP : forall x ps, prods = x :: ps -> walk f (c + d) (6 - d) table ps = true -> x = c ->
      StronglySorted Z.lt table /\ (forall x, In x table -> c <= x /\ unit6 x) /\
      (forall x, In x prods -> c <= x) /\
      (forall n, unit6 n -> c <= n <= limit -> (In n table /\ ~ In n prods) \/ (In n prods /\ ~ In n table))).
    { intros x ps -> Hps ->. destruct (IH (c + d) (6 - d) table ps Hw' Hps) as (S1 & S2 & S3 & S4).
      split; [auto|split; [|split]].
      - intros x Hx. apply S2 in Hx. split; [lia|tauto].
      - intros x [<-|Hx]; [lia|]. apply S3 in Hx. lia.
      - intros n Hn Hr. destruct (Z.eq_dec n c) as [->|Hne].
        + right. split; [cbn; auto|]. intros Hin. apply S2 in Hin. lia.
        + pose proof (wheel_skip c d n Hw Hn ltac:(lia)).
          destruct (S4 n Hn ltac:(lia)) as [[H1 H2]|[H1 H2]]; [left|right]; cbn; split; auto.
          intros [<-|]; [congruence|auto]. }
    destruct prods as [|x ps].
    + destruct table as [|t ts]; [now apply base|]. destruct (Z.eqb_spec t c); [|discriminate]. subst.
      now apply (fromT ts).
    + destruct (Z.eqb_spec x c); [now apply (noP x ps)|].
      destruct table as [|t ts]; [discriminate|]. destruct (Z.eqb_spec t c); [|discriminate]. subst.
      now apply (fromT ts).
Qed.

Lemma table_walk : (let ps := products in walk (g_primes ++ ps) 5 2 (skipn 2 g_primes) ps) = true.
Proof. vm_cast_no_check (eq_refl true). Qed.

Lemma unit6_of_divisor i j : unit6 (i * j) -> unit6 i.
Proof.
  unfold unit6. intros H. rewrite Zmult_mod in H.
  pose proof (Z.mod_pos_bound i 6 ltac:(lia)). pose proof (Z.mod_pos_bound j 6 ltac:(lia)).
  assert (i mod 6 = 0 \/ i mod 6 = 1 \/ i mod 6 = 2 \/ i mod 6 = 3 \/ i mod 6 = 4 \/ i mod 6 = 5) as Ei by lia.
  assert (j mod 6 = 0 \/ j mod 6 = 1 \/ j mod 6 = 2 \/ j mod 6 = 3 \/ j mod 6 = 4 \/ j mod 6 = 5) as Ej by lia.
  destruct Ei as [E|[E|[E|[E|[E|E]]]]]; rewrite E in *; auto;
  destruct Ej as [F|[F|[F|[F|[F|F]]]]]; rewrite F in H; cbn in H; lia.
Qed.

Lemma unit6_prime_or_product n : unit6 n -> 5 <= n <= limit -> prime n \/ In n products.
Proof.
  intros Hu Hn. destruct (prime_dec n) as [Hp|Hp]; auto. right.
  assert (Hc : exists i, 1 < i < n /\ (i | n)).
  { destruct (not_prime_divide n ltac:(lia) Hp) as (i & ? & ?). eauto. }
  destruct Hc as (i & Hi & [j Hj]).
  assert (Hj1 : 1 < j) by nia.
  assert (Hui : unit6 i) by (apply (unit6_of_divisor i j); now rewrite Z.mul_comm, <- Hj).
  assert (Huj : unit6 j) by (apply (unit6_of_divisor j i); now rewrite <- Hj).
  assert (G5 : forall z, 1 < z -> unit6 z -> 5 <= z) by (unfold unit6; intros; Z.div_mod_to_equations; lia).
  pose proof (G5 i ltac:(lia) Hui). pose proof (G5 j ltac:(lia) Huj).
  destruct (Z_le_gt_dec i j).
  - replace n with (i * j) by lia. apply products_complete; auto; lia.
  - rewrite Hj. apply products_complete; auto; lia.
Qed.

Lemma product_not_prime n : In n products -> ~ prime n.
Proof.
  intros Hin Hp. apply products_sound in Hin as (i & j & Hi & Hj & ->).
  apply (prime_not_div (i * j) i Hp); [nia|]. rewrite Z.mul_comm. apply Z.mod_mul. lia.
Qed.

Lemma table_complete_gen (t ps : list Z) :
  StronglySorted Z.lt t -> (forall x, In x t -> 5 <= x /\ unit6 x) ->
  (forall n, unit6 n -> 5 <= n <= limit -> (In n t /\ ~ In n ps) \/ (In n ps /\ ~ In n t)) ->
  (forall x, In x t -> x <= limit) ->
  (forall n, unit6 n -> 5 <= n <= limit -> prime n \/ In n ps) ->
  (forall n, In n ps -> ~ prime n) ->
  StronglySorted Z.lt (2 :: 3 :: t) /\ (forall n, In n (2 :: 3 :: t) <-> prime n /\ n <= limit).
Proof.
  intros S1 S2 S4 Hmax Hor Hnp. split.
  - constructor; [constructor; auto|]; repeat constructor; apply Forall_forall; intros x Hx; apply S2 in Hx; lia.
  - intros n. cbn [In]. split.
    + intros [<-|[<-|Hin]]; [split; [apply prime_2|unfold limit; lia]|split; [apply prime_3|unfold limit; lia]|].
      destruct (S2 n Hin) as [H5 Hu]. specialize (Hmax n Hin). split; [|exact Hmax].
      destruct (Hor n Hu ltac:(lia)); auto. exfalso.
      destruct (S4 n Hu ltac:(lia)) as [[_ H1]|[_ H1]]; auto.
    + intros [Hp Hle]. pose proof (prime_ge_2 n Hp).
      destruct (Z.eq_dec n 2); auto. destruct (Z.eq_dec n 3); auto. right; right.
      assert (Hu : unit6 n /\ 5 <= n).
      { pose proof (proj1 (is_prime_exact n ltac:(lia)) (prime_is_prime n Hp)). unfold unit6. lia. }
      destruct (S4 n (proj1 Hu) ltac:(lia)) as [[H1 _]|[H1 _]]; auto.
      exfalso. now apply (Hnp n).
Qed.

Lemma table_head : g_primes = 2 :: 3 :: skipn 2 g_primes.
Proof. reflexivity. Qed.

Lemma table_max : forallb (fun q => q <=? limit) (skipn 2 g_primes) = true.
Proof. vm_cast_no_check (eq_refl true). Qed.

Lemma table_complete :
  StronglySorted Z.lt g_primes /\ (forall n, In n g_primes <-> prime n /\ n <= 65537).
Proof.
  assert (Hw : wheel 5 2) by (right; split; reflexivity).
  destruct (walk_sound _ 5 2 _ _ Hw table_walk) as (S1 & S2 & S3 & S4).
  rewrite table_head. exact (table_complete_gen _ _ S1 S2 S4
    (fun x Hx => proj1 (Z.leb_le x limit) (proj1 (forallb_forall _ _) table_max x Hx))
    unit6_prime_or_product product_not_prime).
Qed.

(** ** Square root *)
(** before the round with magic = 4^k: [r] is the part of the root found so far *)
Definition sqrt_inv (v : Z) (k : Z) (st : Z * Z) : Prop :=
  exists r q, r = q * 2 ^ (k + 1) /\ 0 <= q /\ snd st = r * 2 ^ (k + 1) /\
    fst st = v - r ^ 2 /\ r ^ 2 <= v < (r + 2 ^ (k + 1)) ^ 2.

Lemma lor_disjoint q m : 0 <= q -> 0 <= m -> Z.lor (q * 2 ^ (m + 1)) (2 ^ m) = q * 2 ^ (m + 1) + 2 ^ m.
Proof.
  intros Hq Hm.
  assert (E : Z.land (q * 2 ^ (m + 1)) (2 ^ m) = 0).
  { apply Z.bits_inj'; intros n Hn. rewrite Z.land_spec, Z.bits_0, Z.pow2_bits_eqb by lia.
    destruct (Z.eqb_spec m n) as [<-|]; [|apply andb_false_r].
    rewrite Z.mul_pow2_bits_low by lia. reflexivity. }
  rewrite (Z.add_nocarry_lxor (q * 2 ^ (m + 1)) (2 ^ m) E). symmetry. now apply Z.lxor_lor.
Qed.

Lemma sqrt_step_inv v k st : 0 <= v < 2 ^ 32 -> 0 <= k <= 15 -> sqrt_inv v k st ->
  sqrt_inv v (k - 1) (sqrt_step (30 - 2 * k) st) /\
  Z.shiftr (2 ^ 30) (30 - 2 * k) + snd st < 2 ^ 32.
Proof.
  intros Hv Hk (r & q & Er & Hq & Es & Ev & Hr). destruct st as [val sq]. cbn [fst snd] in *.
  assert (Em : Z.shiftr (2 ^ 30) (30 - 2 * k) = 2 ^ (2 * k)).
  { rewrite Z.shiftr_div_pow2 by lia. rewrite <- Z.pow_sub_r by lia. f_equal. lia. }
  unfold sqrt_step. rewrite Em. replace (k - 1 + 1) with k by lia.
  assert (P : 0 < 2 ^ k) by (apply Z.pow_pos_nonneg; lia).
  assert (P1 : 2 ^ (k + 1) = 2 * 2 ^ k) by (rewrite Z.pow_add_r by lia; lia).
  assert (P2 : 2 ^ (2 * k) = 2 ^ k * 2 ^ k).
  { replace (2 * k) with (k + k) by lia. apply Z.pow_add_r; lia. }
  assert (P3 : 2 ^ k <= 2 ^ 15) by (apply Z.pow_le_mono_r; lia).
  assert (Hr0 : 0 <= r) by (rewrite Er; apply Z.mul_nonneg_nonneg; lia).
  assert (Hrmax : r < 2 ^ 16).
  { destruct (Z_lt_ge_dec r (2 ^ 16)); auto. assert ((2 ^ 16) ^ 2 <= r ^ 2) by (apply Z.pow_le_mono_l; lia).
    change ((2 ^ 16) ^ 2) with (2 ^ 32) in *. lia. }
  assert (Hr2 : r + 2 ^ (k + 1) <= 2 ^ 16).
  { replace (2 ^ 16) with (2 ^ (15 - k) * 2 ^ (k + 1)).
    2:{ rewrite <- Z.pow_add_r by lia. f_equal. lia. }
    assert (q < 2 ^ (15 - k)).
    { rewrite Er in Hrmax. replace (2 ^ 16) with (2 ^ (15 - k) * 2 ^ (k + 1)) in Hrmax.
      2:{ rewrite <- Z.pow_add_r by lia. f_equal. lia. }
      apply Z.mul_lt_mono_pos_r in Hrmax; lia. }
    rewrite Er. replace (q * 2 ^ (k + 1) + 2 ^ (k + 1)) with ((q + 1) * 2 ^ (k + 1)) by ring.
    apply Z.mul_le_mono_pos_r; lia. }
  assert (Hsum : 2 ^ (2 * k) + sq < 2 ^ 32).
  { rewrite Es, P2, P1. rewrite P1 in Hr2. change (2 ^ 32) with (2 ^ 16 * 2 ^ 16).
    change (2 ^ 16) with 65536 in *. change (2 ^ 15) with 32768 in *. nia. }
  split; [|exact Hsum].
  assert (Hsum0 : 0 <= 2 ^ (2 * k) + sq) by (rewrite Es, P2, P1; nia).
  assert (Ew : wrap 32 (2 ^ (2 * k) + sq) = 2 ^ (2 * k) + sq) by (unfold wrap; apply Z.mod_small; lia).
  rewrite Ew.
  assert (Esh : Z.shiftr sq 1 = r * 2 ^ k).
  { rewrite Z.shiftr_div_pow2 by lia. change (2 ^ 1) with 2. rewrite Es, P1.
    replace (r * (2 * 2 ^ k)) with (r * 2 ^ k * 2) by ring. apply Z.div_mul. lia. }
  rewrite Esh. unfold sqrt_inv. replace (k - 1 + 1) with k by lia.
  destruct (Z.leb_spec (2 ^ (2 * k) + sq) val) as [Hle|Hgt].
  - exists (r + 2 ^ k), (2 * q + 1). cbn [fst snd].
    assert (Ew2 : wrap 32 (val - (2 ^ (2 * k) + sq)) = val - (2 ^ (2 * k) + sq)).
    { unfold wrap. apply Z.mod_small. rewrite Ev. nia. }
    rewrite Ew2.
    assert (El : Z.lor (r * 2 ^ k) (2 ^ (2 * k)) = r * 2 ^ k + 2 ^ (2 * k)).
    { replace (r * 2 ^ k) with (q * 2 ^ (2 * k + 1)).
      - apply lor_disjoint; lia.
      - rewrite Er, Z.pow_add_r, P2, P1 by lia. change (2 ^ 1) with 2. ring. }
    rewrite El, P2.
    split; [rewrite Er, P1; ring|]. split; [lia|]. split; [ring|].
    rewrite P2 in *. rewrite Es, P1 in *. split; [rewrite Ev; ring|]. rewrite Ev in Hle. nia.
  - exists r, (2 * q). cbn [fst snd]. rewrite P2 in *. rewrite Es, P1 in *.
    split; [rewrite Er; ring|]. split; [lia|]. split; [ring|]. split; [exact Ev|].
    rewrite Ev in Hgt. nia.
Qed.

Lemma sqrt_loop_inv v n : forall k st, 0 <= v < 2 ^ 32 -> -1 <= k <= 15 -> Z.of_nat n = k + 2 ->
  sqrt_inv v k st -> sqrt_inv v (-1) (sqrt_loop n (30 - 2 * k) st).
Proof.
  induction n as [|n IH]; intros k st Hv Hk Hn Hi; [lia|]. cbn [sqrt_loop].
  destruct (Z.leb_spec (30 - 2 * k) 30) as [Hle|Hgt].
  - destruct (sqrt_step_inv v k st Hv ltac:(lia) Hi) as [Hs _].
    replace (30 - 2 * k + 2) with (30 - 2 * (k - 1)) by lia. apply IH; auto; lia.
  - assert (k = -1) by lia. subst. exact Hi.
Qed.

Lemma sqrt_init_inv v : 0 <= v < 2 ^ 32 -> sqrt_inv v 15 (v, 0).
Proof. intros H. exists 0, 0. cbn [fst snd]. split; [reflexivity|]. repeat split; try lia.
Qed.

Lemma sqrt_spec v : 0 <= v < 2 ^ 32 -> nearest_root v (sqrt_uint32 v) /\
  sqrt_uint32 v = (let s := Z.sqrt v in if s <? v - s * s then s + 1 else s).
Proof.
  intros Hv. unfold sqrt_uint32.
  pose proof (sqrt_loop_inv v 17 15 (v, 0) Hv ltac:(lia) ltac:(lia) (sqrt_init_inv v Hv)) as Hi.
  change (30 - 2 * 15) with 0 in Hi.
  destruct (sqrt_loop 17 0 (v, 0)) as [val sq]. destruct Hi as (r & q & Er & Hq & Es & Ev & Hr).
  change (2 ^ (-1 + 1)) with 1 in *. cbn [fst snd] in *. rewrite Z.mul_1_r in *. subst q sq.
  assert (Hroot : Z.sqrt v = r) by (apply Z.sqrt_unique; nia).
  assert (Hrb : r < 2 ^ 16) by (change (2 ^ 32) with 4294967296 in Hv; change (2 ^ 16) with 65536; nia).
  change (2 ^ 16) with 65536 in Hrb.
  cbv zeta. rewrite Hroot. replace (v - r * r) with val by (rewrite Ev; ring).
  destruct (Z.ltb_spec r val).
  - assert (Ew : wrap 32 (r + 1) = r + 1) by (unfold wrap; apply Z.mod_small; lia).
    rewrite Ew. split; auto. unfold nearest_root. split; [lia|]. split; [nia|right; nia].
  - split; auto. unfold nearest_root. split; [lia|]. split; [nia|].
    destruct (Z.eq_dec r 0); auto. right. nia.
Qed.

(** no round overflows *)
Lemma sqrt_states v n : forall k st, 0 <= v < 2 ^ 32 -> -1 <= k <= 15 ->
  sqrt_inv v k st -> (Z.of_nat n <= k + 1) ->
  sqrt_inv v (k - Z.of_nat n) (sqrt_loop n (30 - 2 * k) st).
Proof.
  induction n as [|n IH]; intros k st Hv Hk Hi Hn; cbn [sqrt_loop].
  - replace (k - Z.of_nat 0) with k by lia. exact Hi.
  - destruct (Z.leb_spec (30 - 2 * k) 30) as [Hle|Hgt]; [|lia].
    destruct (sqrt_step_inv v k st Hv ltac:(lia) Hi) as [Hs _].
    replace (30 - 2 * k + 2) with (30 - 2 * (k - 1)) by lia.
    replace (k - Z.of_nat (S n)) with (k - 1 - Z.of_nat n) by lia. apply IH; auto; lia.
Qed.

Lemma sqrt_no_overflow v n : 0 <= v < 2 ^ 32 -> (n < 16)%nat ->
  let st := sqrt_loop n 0 (v, 0) in
  0 <= fst st < 2 ^ 32 /\ 0 <= snd st /\ Z.shiftr (2 ^ 30) (2 * Z.of_nat n) + snd st < 2 ^ 32.
Proof.
  intros Hv Hn st.
  pose proof (sqrt_states v n 15 (v, 0) Hv ltac:(lia) (sqrt_init_inv v Hv) ltac:(lia)) as Hi.
  change (30 - 2 * 15) with 0 in Hi. fold st in Hi.
  destruct (sqrt_step_inv v (15 - Z.of_nat n) st Hv ltac:(lia) Hi) as [_ Ho].
  replace (30 - 2 * (15 - Z.of_nat n)) with (2 * Z.of_nat n) in Ho by lia.
  destruct Hi as (r & q & Er & Hq & Es & Ev & Hr).
  assert (0 < 2 ^ (15 - Z.of_nat n + 1)) by (apply Z.pow_pos_nonneg; lia).
  assert (0 <= r) by (rewrite Er; apply Z.mul_nonneg_nonneg; lia).
  split; [rewrite Ev; nia|]. split; [rewrite Es; apply Z.mul_nonneg_nonneg; lia|]. exact Ho.
Qed.

(** insertUnique, the rotations, and all calls against the list of entries. *)
From Coq Require Import ZArith List Bool Lia ZifyBool Sorting.Sorted Permutation.
From Verif Require Import GoBase GoLists CmpModel RbModel RbSpec RbProofs.
Import ListNotations.
Open Scope Z_scope.

(** A new node in place of what is right of [p]. *)
Lemma graft h z p : forall t par, rep h par t -> NoDup (nodes t) -> ~ In z (nodes t) -> In p (nodes t) ->
  exists pre lost rest, nodes t = pre ++ p :: lost ++ rest /\
    (aged t -> (forall x, In x lost -> (p < x)%nat) /\ forall q, hd_error rest = Some q -> (q < p)%nat) /\
    forall h', hung h h' t p z false -> exists t', t' <> Lf /\ top t' = top t /\ rep h' par t' /\ nodes t' = pre ++ p :: z :: rest /\
      (aged t -> (forall x, In x (nodes t) -> (x < z)%nat) -> aged t').
Proof.
  induction t as [|l IHl a r IHr]; intros par R N Z I; [destruct I|].
  cbn [rep nodes] in *. destruct R as (P & L & Q & Rl & Rr). pose proof (nodup_mid _ _ _ N) as (Nl & Nr & Cl & Cr & D).
  assert (Zl : ~ In z (nodes l)) by (intros J; apply Z, in_or_app; auto). assert (Zr : ~ In z (nodes r)) by (intros J; apply Z, in_or_app; right; now right).
  apply in_app_or in I as [I|[->|I]].
  - destruct (IHl a Rl Nl Zl I) as (pre & lost & rest & E & A & H). exists pre, lost, (rest ++ a :: nodes r). split; [|split].
    + rewrite E, <- !app_assoc. cbn [app]. now rewrite <- app_assoc.
    + intros (A1 & A2 & A3). destruct (A A2) as [B1 B2]. split; auto. intros q. rewrite hd_error_app. destruct (hd_error rest); auto.
      intros X. injection X as <-. apply A1. now left.
    + intros h' (H1 & H2 & H3 & H4). assert (Nab : a <> p) by (intros ->; contradiction).
      destruct (H1 a ltac:(apply in_or_app; right; now left) Nab) as (E1 & E2 & E3).
      destruct (H h') as (t' & T0 & T1 & T2 & T3 & T4).
      { repeat split; auto; try tauto. all: apply H1; auto; apply in_or_app; auto. }
      exists (Nd t' a r). cbn [top nodes rep]. split; [discriminate|]. split; [reflexivity|].
      split; [split; [congruence|]; split; [congruence|]; split; [congruence|]; split|].
      * exact T2.
      * eapply rep_ext; [|exact Rr]. intros x Ix. apply H1; [apply in_or_app; right; now right|]. intros ->. exact (D p I Ix).
      * split; [rewrite T3, <- app_assoc; reflexivity|]. intros (A1 & A2 & A3) Y. cbn [aged]. split; [|split; auto; apply T4; auto; intros x Ix; apply Y, in_or_app; auto].
        rewrite T3. intros x [Ix|Ix]; [|apply A1; auto]. rewrite in_app_iff in Ix. cbn [In] in Ix. destruct Ix as [Ix|[<-|[<-|Ix]]].
        -- apply A1. left. rewrite E. apply in_or_app. auto.
        -- apply A1. now left.
        -- apply Y, in_or_app. right. now left.
        -- apply A1. left. rewrite E. apply in_or_app. right. right. apply in_or_app. now right.
  - exists (nodes l), (nodes r), []. split; [now rewrite app_nil_r|split].
    + intros (A1 & A2 & A3). split; [|discriminate]. intros x Ix. apply A1. now right.
    + intros h' (H1 & H2 & (H3 & H4) & H5 & H6 & H7). exists (Nd l p (Nd Lf z Lf)). split; [discriminate|]. cbn [top nodes app rep].
      split; [reflexivity|]. split; [repeat split; auto; try congruence|split; [reflexivity|]].
      * eapply rep_ext; [|exact Rl]. intros b Hb. apply H1; [apply in_or_app; auto|]. intros ->. contradiction.
      * intros (A1 & A2 & A3) Y. cbn [aged nodes app In]. split; [|repeat split; auto; intros x [[]|[]]].
        intros x [Ix|[<-|[]]]; [apply A1; now left|apply Y, in_or_app; right; now left].
  - destruct (IHr a Rr Nr Zr I) as (pre & lost & rest & E & A & H). exists (nodes l ++ a :: pre), lost, rest. split; [|split].
    + rewrite E, <- !app_assoc. reflexivity.
    + intros (A1 & A2 & A3). auto.
    + intros h' (H1 & H2 & H3 & H4). assert (Nab : a <> p) by (intros ->; contradiction).
      destruct (H1 a ltac:(apply in_or_app; right; now left) Nab) as (E1 & E2 & E3).
      destruct (H h') as (t' & T0 & T1 & T2 & T3 & T4).
      { repeat split; auto; try tauto. all: apply H1; auto; apply in_or_app; right; now right. }
      exists (Nd l a t'). cbn [top nodes rep]. split; [discriminate|]. split; [reflexivity|].
      split; [split; [congruence|]; split; [congruence|]; split; [congruence|]; split|].
      * eapply rep_ext; [|exact Rl]. intros x Ix. apply H1; [apply in_or_app; auto|]. intros ->. exact (D p Ix I).
      * exact T2.
      * split; [rewrite T3, <- app_assoc; reflexivity|]. intros (A1 & A2 & A3) Y. cbn [aged]. split; [|split; auto; apply T4; auto; intros x Ix; apply Y, in_or_app; right; now right].
        rewrite T3. intros x [Ix|Ix]; [apply A1; auto|]. rewrite in_app_iff in Ix. cbn [In] in Ix. destruct Ix as [Ix|[<-|[<-|Ix]]].
        -- apply A1. right. rewrite E. apply in_or_app. auto.
        -- apply A1. now right.
        -- apply Y, in_or_app. right. now left.
        -- apply A1. right. rewrite E. apply in_or_app. right. right. apply in_or_app. now right.
Qed.

Lemma filter_all {A} (f : A -> bool) l : (forall x, In x l -> f x = true) -> filter f l = l.
Proof. induction l as [|x l IH]; intros H; cbn; auto. rewrite H by now left. f_equal. apply IH. intros; apply H; now right. Qed.
Lemma filter_none {A} (f : A -> bool) l : (forall x, In x l -> f x = false) -> filter f l = [].
Proof. induction l as [|x l IH]; intros H; cbn; auto. rewrite H by now left. apply IH. intros; apply H; now right. Qed.
Lemma split_uniq {A} (l l' r r' : list A) p : NoDup (l ++ p :: r) -> l ++ p :: r = l' ++ p :: r' -> l = l' /\ r = r'.
Proof.
  revert l'. induction l as [|x l IH]; intros [|x' l'] N E; cbn in E.
  - injection E as ->. auto.
  - injection E as -> E. cbn in N. rewrite E in N. inversion N as [|? ? N1 _]; subst. exfalso. apply N1, in_or_app. right. now left.
  - injection E as -> E. cbn in N. inversion N as [|? ? N1 _]; subst. exfalso. apply N1, in_or_app. right. now left.
  - injection E as -> E. cbn in N. inversion N; subst. destruct (IH l'); auto. subst. auto.
Qed.
Lemma drop_younger_at (c : nat -> nat * Z * Z) p lost rest : (forall x, fst (fst (c x)) = x) -> (forall x, In x lost -> (p < x)%nat) ->
  (forall q, hd_error rest = Some q -> (q < p)%nat) -> drop_younger p (map c (lost ++ rest)) = map c rest.
Proof.
  intros Hc Hl Hr. induction lost as [|x lost IH]; cbn [app map].
  - destruct rest as [|q rest]; cbn [map drop_younger]; auto. rewrite Hc. destruct (Nat.ltb_spec p q); auto. specialize (Hr q eq_refl). lia.
  - cbn [drop_younger]. rewrite Hc. destruct (Nat.ltb_spec p x) as [_|B]; [|specialize (Hl x (or_introl eq_refl)); lia]. apply IH. intros; apply Hl; now right.
Qed.

Lemma insert_unique_ok s n sz l k v : rb_rel s (W n sz l) ->
  sim_out rb_rel (rb_step s (BInsertUnique k v)) (map_step (W n sz l) (BInsertUnique k v)).
Proof.
  intros (t & G & Ag). cbn [rb_step map_step]. unfold insert_unique.
  pose proof (nodes_len _ _ _ G) as Len. pose proof G as G0. destruct G as [Gn Gp Gc Gs Gt Gr Gd Gg Gl Ge Go].
  cbn [w_next w_size w_list] in *. rewrite Gt, Gc. assert (Fz : ~ In n (nodes t)) by (intros I; apply Gg in I; lia).
  destruct (descend_spec (rb_heap s) k n t 0%nat 0%nat true (S (rb_next s)) Gr Gd Go Fz ltac:(lia))
    as [(-> & E)|(b & left & xs & ys & E & El & Ib & En & Hx & Hy & Hb & Hg & Hh)].
  - rewrite E. cbn [bind]. cbn in Ge, Gl, Gt. subst l. rewrite Gl. cbn [peqb rb_prevp]. rewrite Gt, Gl. cbn [peqb]. rewrite andb_false_r.
    cbn [climb_left bind]. exact I.
  - rewrite E. cbn [bind]. rewrite !cmp0.
    assert (Kin : forall x, e_key (ent (rb_heap s) x) = rn_key (rb_heap s x)) by reflexivity.
    assert (Fl : filter (fun x => negb (k <? e_key x)) l = map (ent (rb_heap s)) xs).
    { rewrite Ge, En, map_app, filter_app, filter_all, filter_none, app_nil_r; auto.
      - intros e Ie. apply in_map_iff in Ie as (x & <- & Ix). rewrite Kin. specialize (Hy x Ix). lia.
      - intros e Ie. apply in_map_iff in Ie as (x & <- & Ix). rewrite Kin. specialize (Hx x Ix). lia. }
    assert (Fr : filter (fun x => k <? e_key x) l = map (ent (rb_heap s)) ys).
    { rewrite Ge, En, map_app, filter_app, filter_none, filter_all; auto.
      - intros e Ie. apply in_map_iff in Ie as (x & <- & Ix). rewrite Kin. specialize (Hy x Ix). lia.
      - intros e Ie. apply in_map_iff in Ie as (x & <- & Ix). rewrite Kin. specialize (Hx x Ix). lia. }
    assert (Lne : exists e l0, l = e :: l0).
    { rewrite Ge. destruct (nodes t); [destruct Ib|]. cbn. eauto. }
    assert (Lm : forall a : outcome (world * rb_obs), match l with [] => Panic | _ :: _ => a end = a) by (destruct Lne as (e & l0 & ->); auto).
    rewrite Lm. clear Lm.
    unfold put_unique. change (e_key (n, k, v)) with k. rewrite Fl, Fr. destruct (last_error xs) as [p|] eqn:Ep.
    + apply last_error_in in Ep as [xs' ->].
      assert (Hl : last_error (xs' ++ [p]) = Some p) by apply last_error_snoc.
      assert (Ip : In p (nodes t)) by (rewrite En; apply in_or_app; left; apply in_or_app; right; now left).
      (* where the loop ends, the last comparison is made with [p] *)
      set (K := fun y : nat => if rn_key (rb_heap s y) <? k then (let '(t0, z) := rb_insert s None y k v in Ok (t0, Some z)) else Ok (s, None)).
      assert (W : (if left : bool then if peqb (Some b) (rn_left (rb_heap s 0%nat)) then (let '(t0, z) := rb_insert s None b k v in Ok (t0, Some z))
                    else p0 <- rb_prevp (S (rb_next s)) (rb_heap s) (Some b) ;; match p0 with Some y => K y | None => Panic end
                  else K b) = K p).
      { destruct left.
        - destruct Hb as [_ Hb]. rewrite Gl, En, peqb_ne.
          + rewrite (prev_inner s _ t G0 b p); [reflexivity|]. rewrite En, <- app_assoc. destruct ys; [discriminate|]. injection Hb as ->. cbn. constructor.
          + intros X. symmetry in X. rewrite En in Gd. destruct ys as [|y ys]; [discriminate|]. injection Hb as ->.
            destruct (nodup_mid _ _ _ Gd) as (_ & _ & Nb & _ & _). apply Nb. destruct xs'; cbn in X |- *; injection X as ->; now left.
        - destruct Hb as [_ Hb]. injection Hb as <-. reflexivity. }
      match goal with |- sim_out _ (bind ?e _) _ => replace e with (K p) by (symmetry; exact W) end. clear W. unfold K. clear K.
      rewrite map_app. cbn [map]. rewrite rev_app_distr. cbn [rev app]. cbn [ent fst].
      assert (Sx : forall x, In x xs' -> rn_key (rb_heap s x) <= rn_key (rb_heap s p)).
      { intros x Ix. rewrite En, <- app_assoc in Go. cbn [app] in Go. apply sorted_mid in Go as (_ & _ & A & _). apply A. exact Ix. }
      destruct (rn_key (rb_heap s p) <? k) eqn:Kp.
      * assert (Ex : existsb (fun e => e_key e =? k) l = false).
        { apply not_true_iff_false. intros X. apply existsb_exists in X as (e & Ie & Ke). rewrite Ge, En in Ie. apply in_map_iff in Ie as (x & <- & Ix).
          rewrite Kin in Ke. rewrite !in_app_iff in Ix. cbn [In] in Ix. destruct Ix as [[Ix|[->|[]]]|Ix]; [specialize (Sx x Ix)| |specialize (Hy x Ix)]; lia. }
        rewrite Ex.
        destruct (graft (rb_heap s) n p t 0%nat Gr Gd Fz Ip) as (pre & lost & rest & Eg & Ha & Hg').
        assert (Sp : xs' = pre /\ ys = lost ++ rest).
        { apply (split_uniq xs' pre ys (lost ++ rest) p).
          - rewrite En, <- app_assoc in Gd. exact Gd.
          - rewrite <- Eg, En, <- app_assoc. reflexivity. }
        destruct Sp as [-> ->]. destruct (Ha Ag) as [Ha1 Ha2].
        destruct (insert_at s n sz l t k v p false (pre ++ [p]) lost rest G0) as (s' & t' & Ei & G' & A').
        -- lia.
        -- exact Ip.
        -- exact En.
        -- exact Hx.
        -- intros x Ix. apply Hy, in_or_app. now right.
        -- exact Hl.
        -- intros h' Hh'. destruct (Hg' h' Hh') as (t' & T0 & T1 & T2 & T3 & T4). exists t'. rewrite <- app_assoc. auto 6.
        -- rewrite Ei. cbn [bind fst snd sim_out]. split; auto. exists t'. split; auto.
           rewrite drop_younger_at; auto. rewrite map_app in G'. exact G'.
      * assert (Ex : existsb (fun e => e_key e =? k) l = true).
        { apply existsb_exists. exists (ent (rb_heap s) p). split; [rewrite Ge; apply in_map; exact Ip|]. rewrite Kin. specialize (Hx p ltac:(apply in_or_app; right; now left)). lia. }
        rewrite Ex. cbn [bind fst snd sim_out]. split; auto. exists t. auto.
    + apply last_error_none in Ep as ->. destruct left; [|destruct Hb; discriminate]. destruct Hb as [_ Hb]. cbn [app] in En.
      rewrite Gl, En, Hb, peqb_refl. cbn [map rev].
      assert (Ex : existsb (fun e => e_key e =? k) l = false).
      { apply not_true_iff_false. intros X. apply existsb_exists in X as (e & Ie & Ke). rewrite Ge, En in Ie. apply in_map_iff in Ie as (x & <- & Ix).
        rewrite Kin in Ke. specialize (Hy x Ix). lia. }
      rewrite Ex.
      destruct (insert_at s n sz l t k v b true [] [] ys G0 El Ib En) as (s' & t' & Ei & G' & A'); auto.
      rewrite Ei. cbn [bind fst snd sim_out]. split; auto. exists t'. split; auto.
Qed.

(** All calls but insertUnique keep the invariant without the ages. *)
Lemma step_core s w t op : good s w t -> is_unique op = false ->
  sim_out (fun s' w' => exists t', good s' w' t' /\ (aged t -> aged t')) (rb_step s op) (map_step w op).
Proof.
  intros G U. pose proof G as G0. destruct w as [n sz l]. destruct G as [Gn Gp Gc Gs Gt Gr Gd Gg Gl Ge Go]. cbn [w_next w_size w_list] in *.
  assert (Same : exists t', good s (W n sz l) t' /\ (aged t -> aged t')) by eauto.
  assert (Ini : forall b, exists t', good (rb_init s b) (W n 0 []) t' /\ (aged t -> aged t')).
  { intros b. exists Lf. split; [|intros _; exact I]. constructor; cbn; auto; try constructor; try contradiction. }
  destruct op; cbn [rb_step map_step]; try discriminate U.
  - cbn. auto.
  - cbn. auto.
  - destruct (insert_equal_ok s n sz l t k v G0) as (s' & t' & -> & G' & A'). cbn. split; auto. eauto.
  - destruct (find_all s _ t G0 k) as [c ->]. cbn. split; auto.
  - cbn. split; auto. congruence.
  - cbn. split; auto. rewrite Gt, Ge. destruct t as [|t1 a t2]; cbn; auto. destruct (nodes t1); reflexivity.
  - cbn. split; auto. rewrite Gl, Ge. destruct (nodes t); reflexivity.
  - cbn. auto.
  - rewrite (walk_all s _ t G0). cbn [w_list]. destruct l; cbn; auto.
  - cbn. auto.
  - cbn. auto.
  - cbn. auto.
  - cbn. auto.
  - cbn. auto.
Qed.
Lemma rb_step_ok s w op : rb_rel s w -> sim_out rb_rel (rb_step s op) (map_step w op).
Proof.
  intros R. destruct (is_unique op) eqn:U.
  - destruct op; try discriminate U. destruct w. now apply insert_unique_ok.
  - destruct R as (t & G & A). pose proof (step_core s w t op G U) as S.
    destruct (rb_step s op) as [[s' o]| |], (map_step w op) as [[w' o']| |]; cbn in *; auto. destruct S as [-> (t' & G' & A')]. split; auto. exists t'. auto.
Qed.
Lemma rb_new_rel : rb_rel rb_new (W 1 0 []).
Proof. exists Lf. split; [|exact I]. constructor; cbn; auto; try constructor; try contradiction. Qed.

(** Rotations at the root. *)
Lemma rotate_left_ok s w l a r1 y r2 : good s w (Nd l a (Nd r1 y r2)) ->
  exists s', rotate_left s (Some a) = Ok s' /\ good s' w (Nd (Nd l a r1) y r2).
Proof.
  intros G. destruct G as [Gn Gp Gc Gs Gt Gr Gd Gg Gl Ge Go]. cbn [rep nodes top] in *. destruct Gr as (P & L & R & Rl & (P' & L' & R' & Rr1 & Rr2)).
  assert (Ia : (0 < a)%nat) by (apply Gg, in_or_app; right; now left).
  assert (Iy : (0 < y)%nat) by (apply Gg, in_or_app; right; right; apply in_or_app; right; now left).
  assert (En : nodes l ++ a :: nodes r1 ++ y :: nodes r2 = (nodes l ++ a :: nodes r1) ++ y :: nodes r2) by (rewrite <- app_assoc; reflexivity).
  pose proof (nodup_mid _ _ _ Gd) as (Nl & Nr & Al & Ar & D). pose proof (nodup_mid _ _ _ Nr) as (N1 & N2 & Y1 & Y2 & D2).
  assert (Nay : a <> y) by (intros ->; apply Ar, in_or_app; right; now left).
  assert (Yl : ~ In y (nodes l)) by (intros I; apply (D y I), in_or_app; right; now left).
  assert (A1 : ~ In a (nodes r1)) by (intros I; apply Ar, in_or_app; auto). assert (A2 : ~ In a (nodes r2)) by (intros I; apply Ar, in_or_app; right; now right).
  assert (Z : ~ In 0%nat (nodes l) /\ ~ In 0%nat (nodes r1) /\ ~ In 0%nat (nodes r2)).
  { repeat split; intros I; assert (0 < 0 < w_next w)%nat by (apply Gg; rewrite !in_app_iff; cbn [In]; rewrite in_app_iff; cbn [In]; tauto); lia. }
  destruct Z as (Z0 & Z1 & Z2).
  unfold rotate_left. rewrite Gt, peqb_refl, R. cbn [top]. eexists. split; [reflexivity|].
  set (h := rb_heap s) in *. set (h1 := set_right h a (rn_left (h y))).
  assert (E1 : rn_left (h1 y) = top r1) by (unfold h1; rd; auto).
  set (h2 := match rn_left (h1 y) with Some b => set_parent h1 b (Some a) | None => h1 end).
  set (h6 := set_parent _ a (Some y)).
  assert (K : forall x, rn_key (h6 x) = rn_key (h x) /\ rn_val (h6 x) = rn_val (h x)).
  { intros x. unfold h6, h2. rd. destruct (rn_left (h1 y)); unfold h1; rd; auto. }
  assert (Lf6 : forall x, rn_left (h6 x) = if Nat.eqb x y then Some a else rn_left (h x)).
  { intros x. unfold h6, h2. rd. destruct (rn_left (h1 y)); unfold h1; rd; auto. }
  assert (Ri6 : forall x, rn_right (h6 x) = if Nat.eqb x a then top r1 else rn_right (h x)).
  { intros x. unfold h6, h2. rd. rewrite <- L'. destruct (rn_left (h1 y)); unfold h1; rd; auto. }
  assert (Pa2 : rn_parent (h2 a) = Some 0%nat).
  { unfold h2. rewrite E1. destruct r1 as [|? b ?]; cbn [top]; unfold h1; rd; auto. destruct (Nat.eqb_spec a b); auto. subst. exfalso. apply A1. cbn. apply in_or_app. right. now left. }
  assert (Pa6 : forall x, rn_parent (h6 x) = if Nat.eqb x a then Some y else if Nat.eqb x 0 then Some y else if Nat.eqb x y then Some 0%nat else if peqb (Some x) (top r1) then Some a else rn_parent (h x)).
  { intros x. unfold h6. rd. rewrite Pa2. destruct (Nat.eqb x a); auto. destruct (Nat.eqb x 0); auto. destruct (Nat.eqb x y); auto.
    unfold h2. rewrite E1. destruct r1 as [|? b ?]; cbn [top peqb]; unfold h1; rd; auto. }
  assert (Ext : forall t par, (forall x, In x (nodes t) -> x <> a /\ x <> 0%nat /\ x <> y /\ Some x <> top r1) -> rep h par t -> rep h6 par t).
  { intros t par H. apply rep_ext. intros x Ix. destruct (H x Ix) as (X1 & X2 & X3 & X4). unfold same_links. rewrite Lf6, Ri6, Pa6. rewrite (peqb_ne _ _ X4). eqs. auto. }
  assert (Tr1 : forall x, Some x = top r1 -> In x (nodes r1)) by (intros x X; apply top_in; auto).
  constructor; cbn [rb_next rb_size rb_cmp rb_heap nodes top]; auto.
  - rewrite Pa6. eqs.
  - cbn [rep top]. rewrite !Pa6, !Lf6, !Ri6. eqs.
    repeat (split; [solve [auto]|]). split; [split; [auto|]; split; [auto|]; split; [auto|]; split|].
    + apply Ext; auto. intros x Ix. repeat split; intros X; subst; try contradiction.
      apply (D x Ix). apply in_or_app. left. auto.
    + destruct r1 as [|q1 b q2]; [exact I|]. cbn [rep nodes] in *. destruct Rr1 as (B1 & B2 & B3 & B4 & B5).
      pose proof (nodup_mid _ _ _ N1) as (M1 & M2 & M3 & M4 & M5).
      rewrite Pa6, Lf6, Ri6. cbn [top]. rewrite peqb_refl.
      assert (b <> a) by (intros ->; apply A1, in_or_app; right; now left). assert (b <> y) by (intros ->; apply Y1, in_or_app; right; now left).
      assert (b <> 0%nat) by (intros ->; apply Z1, in_or_app; right; now left).
      eqs. repeat split; auto.
      * apply Ext; auto. intros x Ix. cbn [top]. repeat split; intros X; try (injection X as ->); subst; try contradiction; [apply A1|apply Z1|apply Y1]; apply in_or_app; auto.
      * apply Ext; auto. intros x Ix. cbn [top]. repeat split; intros X; try (injection X as ->); subst; try contradiction; [apply A1|apply Z1|apply Y1]; apply in_or_app; right; now right.
    + apply Ext; auto. intros x Ix. repeat split; intros X; subst; try contradiction.
      apply (D2 x); auto.
  - now rewrite <- En.
  - now rewrite <- En.
  - rewrite Lf6, <- En. eqs; exact Gl.
  - rewrite Ge, <- En. apply map_ext. intros x. unfold ent. destruct (K x) as [-> ->]. reflexivity.
  - rewrite <- En. eapply sorted_ext; [|exact Go]. intros x z _ _. unfold key_le. destruct (K x) as [-> _]. destruct (K z) as [-> _]. auto.
Qed.
Lemma rotate_right_ok s w l1 y l2 a r : good s w (Nd (Nd l1 y l2) a r) ->
  exists s', rotate_right s (Some a) = Ok s' /\ good s' w (Nd l1 y (Nd l2 a r)).
Proof.
  intros G. destruct G as [Gn Gp Gc Gs Gt Gr Gd Gg Gl Ge Go]. cbn [rep nodes top] in *. destruct Gr as (P & L & R & (P' & L' & R' & Rl1 & Rl2) & Rr).
  assert (En : (nodes l1 ++ y :: nodes l2) ++ a :: nodes r = nodes l1 ++ y :: nodes l2 ++ a :: nodes r) by (rewrite <- app_assoc; reflexivity).
  rewrite En in *.
  assert (Ia : (0 < a)%nat) by (apply Gg, in_or_app; right; right; apply in_or_app; right; now left).
  assert (Iy : (0 < y)%nat) by (apply Gg, in_or_app; right; now left).
  pose proof (nodup_mid _ _ _ Gd) as (Nl & Nr & Yl & Yr & D). pose proof (nodup_mid _ _ _ Nr) as (N1 & N2 & A1 & A2 & D2).
  assert (Nay : a <> y) by (intros ->; apply Yr, in_or_app; right; now left).
  assert (Al : ~ In a (nodes l1)) by (intros I; apply (D a I), in_or_app; right; now left).
  assert (Y1 : ~ In y (nodes l2)) by (intros I; apply Yr, in_or_app; auto). assert (Y2 : ~ In y (nodes r)) by (intros I; apply Yr, in_or_app; right; now right).
  assert (Z : ~ In 0%nat (nodes l1) /\ ~ In 0%nat (nodes l2) /\ ~ In 0%nat (nodes r)).
  { repeat split; intros I; assert (0 < 0 < w_next w)%nat by (apply Gg; rewrite !in_app_iff; cbn [In]; rewrite in_app_iff; cbn [In]; tauto); lia. }
  destruct Z as (Z0 & Z1 & Z2).
  unfold rotate_right. rewrite Gt, peqb_refl, L. cbn [top]. eexists. split; [reflexivity|].
  set (h := rb_heap s) in *. set (h1 := set_left h a (rn_right (h y))).
  assert (E1 : rn_right (h1 y) = top l2) by (unfold h1; rd; auto).
  set (h2 := match rn_right (h1 y) with Some b => set_parent h1 b (Some a) | None => h1 end).
  set (h6 := set_parent _ a (Some y)).
  assert (K : forall x, rn_key (h6 x) = rn_key (h x) /\ rn_val (h6 x) = rn_val (h x)).
  { intros x. unfold h6, h2. rd. destruct (rn_right (h1 y)); unfold h1; rd; auto. }
  assert (Ri6 : forall x, rn_right (h6 x) = if Nat.eqb x y then Some a else rn_right (h x)).
  { intros x. unfold h6, h2. rd. destruct (rn_right (h1 y)); unfold h1; rd; auto. }
  assert (Lf6 : forall x, rn_left (h6 x) = if Nat.eqb x a then top l2 else rn_left (h x)).
  { intros x. unfold h6, h2. rd. rewrite <- R'. destruct (rn_right (h1 y)); unfold h1; rd; auto. }
  assert (Pa2 : rn_parent (h2 a) = Some 0%nat).
  { unfold h2. rewrite E1. destruct l2 as [|? b ?]; cbn [top]; unfold h1; rd; auto. destruct (Nat.eqb_spec a b); auto. subst. exfalso. apply A1. cbn. apply in_or_app. right. now left. }
  assert (Pa6 : forall x, rn_parent (h6 x) = if Nat.eqb x a then Some y else if Nat.eqb x 0 then Some y else if Nat.eqb x y then Some 0%nat else if peqb (Some x) (top l2) then Some a else rn_parent (h x)).
  { intros x. unfold h6. rd. rewrite Pa2. destruct (Nat.eqb x a); auto. destruct (Nat.eqb x 0); auto. destruct (Nat.eqb x y); auto.
    unfold h2. rewrite E1. destruct l2 as [|? b ?]; cbn [top peqb]; unfold h1; rd; auto. }
  assert (Ext : forall t par, (forall x, In x (nodes t) -> x <> a /\ x <> 0%nat /\ x <> y /\ Some x <> top l2) -> rep h par t -> rep h6 par t).
  { intros t par H. apply rep_ext. intros x Ix. destruct (H x Ix) as (X1 & X2 & X3 & X4). unfold same_links. rewrite Lf6, Ri6, Pa6. rewrite (peqb_ne _ _ X4). eqs. auto. }
  assert (Tr1 : forall x, Some x = top l2 -> In x (nodes l2)) by (intros x X; apply top_in; auto).
  constructor; cbn [rb_next rb_size rb_cmp rb_heap nodes top]; auto.
  - rewrite Pa6. eqs.
  - cbn [rep top]. rewrite !Pa6, !Lf6, !Ri6. eqs.
    repeat (split; [solve [auto]|]). split; [|split; [auto|]; split; [auto|]; split; [auto|]; split].
    + apply Ext; auto. intros x Ix. repeat split; intros X; subst; try contradiction.
      apply (D x Ix). apply in_or_app. left. auto.
    + destruct l2 as [|q1 b q2]; [exact I|]. cbn [rep nodes] in *. destruct Rl2 as (B1 & B2 & B3 & B4 & B5).
      pose proof (nodup_mid _ _ _ N1) as (M1 & M2 & M3 & M4 & M5).
      rewrite Pa6, Lf6, Ri6. cbn [top]. rewrite peqb_refl.
      assert (b <> a) by (intros ->; apply A1, in_or_app; right; now left). assert (b <> y) by (intros ->; apply Y1, in_or_app; right; now left).
      assert (b <> 0%nat) by (intros ->; apply Z1, in_or_app; right; now left).
      eqs. repeat split; auto.
      * apply Ext; auto. intros x Ix. cbn [top]. repeat split; intros X; try (injection X as ->); subst; try contradiction; [apply A1|apply Z1|apply Y1]; apply in_or_app; auto.
      * apply Ext; auto. intros x Ix. cbn [top]. repeat split; intros X; try (injection X as ->); subst; try contradiction; [apply A1|apply Z1|apply Y1]; apply in_or_app; right; now right.
    + apply Ext; auto. intros x Ix. repeat split; intros X; subst; try contradiction.
      apply (D2 x); auto.
  - rewrite Lf6. eqs; exact Gl.
  - rewrite Ge. apply map_ext. intros x. unfold ent. destruct (K x) as [-> ->]. reflexivity.
  - eapply sorted_ext; [|exact Go]. intros x z _ _. unfold key_le. destruct (K x) as [-> _]. destruct (K z) as [-> _]. auto.
Qed.

Lemma rot_ok s w t lft : good s w t -> match rot_step s (inr lft) with Ok (s', o) => exists t', good s' w t' | Panic => True | Diverge => False end.
Proof.
  intros G. cbn [rot_step]. rewrite (g_top _ _ _ G). destruct t as [|l a r]; cbn [top].
  - destruct lft; cbn; eauto.
  - destruct lft.
    + destruct r as [|r1 y r2].
      * unfold rotate_left. rewrite (g_top _ _ _ G). cbn [top]. rewrite peqb_refl. destruct (g_rep _ _ _ G) as (_ & _ & -> & _). exact I.
      * destruct (rotate_left_ok _ _ _ _ _ _ _ G) as (s' & -> & G'). cbn. eauto.
    + destruct l as [|l1 y l2].
      * unfold rotate_right. rewrite (g_top _ _ _ G). cbn [top]. rewrite peqb_refl. destruct (g_rep _ _ _ G) as (_ & -> & _). exact I.
      * destruct (rotate_right_ok _ _ _ _ _ _ _ G) as (s' & -> & G'). cbn. eauto.
Qed.
Lemma rot_sim ops : forall s w t s' os, good s w t -> forallb (fun o => negb (is_unique o)) (calls ops) = true ->
  run_ops rot_step s ops = Ok (s', os) -> exists w', run_ops map_step w (calls ops) = Ok (w', returned ops os).
Proof.
  induction ops as [|[o|lft] ops IH]; intros s w t s' os G U E; cbn [run_ops calls] in *.
  - injection E as <- <-. eauto.
  - cbn [forallb] in U. apply andb_true_iff in U as [U1 U2]. cbn [rot_step] in E.
    pose proof (step_core s w t o G ltac:(now destruct (is_unique o))) as S. destruct (rb_step s o) as [[s1 o1]| |]; cbn [bind] in E; try discriminate.
    destruct (map_step w o) as [[w1 o2]| |]; cbn in S; try tauto. destruct S as [<- (t' & G' & _)].
    destruct (run_ops rot_step s1 ops) as [[s2 os2]| |] eqn:E2; cbn [bind] in E; try discriminate. injection E as <- <-.
    destruct (IH s1 w1 t' s2 os2 G' U2 E2) as [w2 R]. cbn. rewrite R. cbn. eauto.
  - pose proof (rot_ok s w t lft G) as R. destruct (rot_step s (inr lft)) as [[s1 o1]| |]; cbn [bind] in E; try discriminate. destruct R as [t' G'].
    destruct (run_ops rot_step s1 ops) as [[s2 os2]| |] eqn:E2; cbn [bind] in E; try discriminate. injection E as <- <-.
    exact (IH s1 w t' s2 os2 G' U E2).
Qed.

Lemma history ops : sim_out rb_rel (run_ops rb_step rb_new ops) (run_ops map_step (W 1 0 []) ops).
Proof. apply run_ops_sim; [exact rb_step_ok|exact rb_new_rel]. Qed.
Lemma history_state ops s os : run_ops rb_step rb_new ops = Ok (s, os) -> exists w, rb_rel s w /\ run_ops map_step (W 1 0 []) ops = Ok (w, os).
Proof.
  intros E. pose proof (history ops) as H. rewrite E in H. destruct (run_ops map_step (W 1 0 []) ops) as [[w os']| |]; cbn in H; try tauto.
  destruct H as [-> R]. eauto.
Qed.

(** Order of the entries. *)
Lemma before_trans a b c : before a b -> before b c -> before a c.
Proof. unfold before. lia. Qed.
Lemma put_perm e l : Permutation (e :: l) (put e l).
Proof. induction l as [|x l IH]; cbn; auto. destruct (e_key e <? e_key x); auto. rewrite perm_swap. now constructor. Qed.
Lemma put_sorted e l : (forall x, In x l -> (fst (fst x) < fst (fst e))%nat) -> StronglySorted before l -> StronglySorted before (put e l).
Proof.
  intros H S. induction S as [|x l S1 IH S2]; cbn; [repeat constructor|]. destruct (e_key e <? e_key x) eqn:K.
  - assert (B : before e x) by (left; lia). constructor; [constructor; auto|]. constructor; auto. rewrite Forall_forall in *. intros y Hy.
    eapply before_trans; eauto.
  - assert (B : before x e) by (specialize (H x (or_introl eq_refl)); unfold before; lia).
    constructor; [apply IH; intros; apply H; now right|]. rewrite Forall_forall in *. intros y Hy.
    apply (Permutation_in y (Permutation_sym (put_perm e l))) in Hy as [<-|Hy]; auto.
Qed.
Lemma inserts kvs : forall n sz l, (forall x, In x l -> (fst (fst x) < n)%nat) -> StronglySorted before l ->
  exists l', run_ops map_step (W n sz l) (map (fun e => BInsertEqual (fst e) (snd e)) kvs) =
    Ok (W (n + length kvs) (sz + Z.of_nat (length kvs)) l', map (fun e => RPtr (Some (fst (fst e)))) (numbered n kvs)) /\
    Permutation l' (l ++ numbered n kvs) /\ StronglySorted before l'.
Proof.
  induction kvs as [|[k v] kvs IH]; intros n sz l H S; cbn [map run_ops map_step fst snd bind length numbered].
  - exists l. rewrite app_nil_r, Nat.add_0_r, Z.add_0_r. repeat split; auto.
  - destruct (IH (Datatypes.S n) (sz + 1) (put (n, k, v) l)) as (l' & E & P & S').
    + intros x Hx. apply (Permutation_in x (Permutation_sym (put_perm _ _))) in Hx as [<-|Hx]; cbn; [lia|]. apply H in Hx. lia.
    + apply put_sorted; auto.
    + exists l'. cbn in E. rewrite E. cbn. split; [|split; auto].
      * f_equal. f_equal. f_equal; lia.
      * rewrite P. rewrite <- (put_perm (n, k, v) l). cbn. now rewrite <- Permutation_middle.
Qed.
Lemma rb_sorted kvs : kvs <> [] -> exists s l,
  run_ops rb_step rb_new (map (fun e => BInsertEqual (fst e) (snd e)) kvs ++ [BSize; BWalk]) =
    Ok (s, map (fun e => RPtr (Some (fst (fst e)))) (numbered 1 kvs) ++ [RNum (Z.of_nat (length kvs)); RList l]) /\
  Permutation l (numbered 1 kvs) /\ StronglySorted before l.
Proof.
  intros N. destruct (inserts kvs 1 0 [] ltac:(intros x []) ltac:(constructor)) as (l & E & P & S).
  assert (L : exists e l0, l = e :: l0). { destruct l; [|eauto]. cbn in P. apply Permutation_nil in P. destruct kvs as [|[k v] ?]; [congruence|discriminate]. }
  pose proof (history (map (fun e => BInsertEqual (fst e) (snd e)) kvs ++ [BSize; BWalk])) as H.
  rewrite (run_ops_app map_step), E in H. destruct L as (e & l0 & ->). cbn [bind] in H. cbn in H.
  destruct (run_ops rb_step rb_new _) as [[s os]| |]; cbn in H; try tauto. destruct H as [-> _]. exists s, (e :: l0). repeat split; auto.
Qed.

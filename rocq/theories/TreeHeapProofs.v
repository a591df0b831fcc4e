From Coq Require Import ZArith List Bool Arith Lia Permutation Sorted ZifyBool ZifyNat.
From Verif Require Import GoBase GoLists ConcBase SortSliceModel SortSliceSpec SortSliceProofs TreeModel TreeSpec TreeHeapModel TreeHeapSpec.
Import ListNotations.
Open Scope Z_scope.

Local Notation kid := (option nat).

Lemma ss_insert_list grow (s : gslice kid) c idx : gs_ok s ->
  exists s' n, ss_insert None grow s c idx = Ok (s', n) /\ gs_ok s' /\ visible s' = replace_at (visible s) c idx.
Proof.
  intros H. pose proof (ss_step_real None grow s (visible s) (SInsert c idx) (conj H eq_refl)) as S.
  cbn [ss_step real_step] in S. destruct (ss_insert None grow s c idx) as [[s' n]| |]; cbn [bind] in S.
  - destruct (in_range (visible s) idx) eqn:E; destruct S as (_ & K1 & K2); exists s', n; (split; [reflexivity|split; [exact K1|]]);
      rewrite K2; unfold replace_at; change (inside (visible s) idx) with (in_range (visible s) idx); rewrite E; auto.
    unfold before, from. unfold in_range in E. replace (Z.to_nat (idx + 1)) with (S (Z.to_nat idx)) by lia. reflexivity.
  - destruct (in_range (visible s) idx); contradiction.
  - destruct (in_range (visible s) idx); contradiction.
Qed.
Lemma get_at_pos {A} (l : list A) i : at_pos l i = get_at l i.
Proof.
  unfold at_pos, get_at, inside. destruct (Z.ltb_spec i 0), (Z.leb_spec 0 i); try lia; auto. cbn [andb].
  destruct (Z.ltb_spec i (zlen l)); auto. apply nth_error_None. unfold zlen in *. lia.
Qed.
Lemma ss_get_list (s : gslice kid) i : gs_ok s -> ss_get s i = Ok (get_at (visible s) i).
Proof. intros H. rewrite (ss_get_spec None s (visible s) i (conj H eq_refl)). now rewrite get_at_pos. Qed.
Lemma ss_must_list (s : gslice kid) i : gs_ok s -> ss_must_get s i = match get_at (visible s) i with Some c => Ok c | None => Panic end.
Proof. intros H. unfold ss_must_get. rewrite ss_get_list by auto. reflexivity. Qed.
Lemma ss_len_list (s : gslice kid) : gs_ok s -> ss_len s = zlen (visible s).
Proof. intros H. now apply RS_len. Qed.
Lemma ss_remove_list grow (s : gslice kid) idx : gs_ok s ->
  exists s', ss_remove None grow s idx = Ok (s', get_at (visible s) idx) /\ gs_ok s' /\ visible s' = delete_at (visible s) idx.
Proof.
  intros H. unfold ss_remove. rewrite ss_get_list by auto. cbn [bind]. unfold delete_at.
  destruct (get_at (visible s) idx) as [c|] eqn:E.
  - assert (Ei : inside (visible s) idx = true) by (unfold get_at in E; destruct (inside _ _); [reflexivity|discriminate]).
    rewrite Ei. unfold inside in Ei. rewrite ss_len_list by auto. rewrite (zslice_from (visible s)) by lia. cbn [bind].
    destruct (greslice_RS s (visible s) idx (conj H eq_refl)) as (s1 & -> & R1); [lia|]. cbn [bind].
    exists (gappend None grow s1 (from (visible s) (idx + 1))). split; [reflexivity|].
    destruct R1 as [R1 R2]. destruct (gappend_RS None grow s1 (from (visible s) (idx + 1)) R1) as [R3 R4].
    split; auto. rewrite R4, R2. unfold before, from. do 2 f_equal. lia.
  - exists s. split; [reflexivity|]. split; auto.
    destruct (inside (visible s) idx) eqn:Ei; auto. exfalso. unfold get_at in E. rewrite Ei in E.
    apply nth_error_None in E. unfold inside, zlen in Ei. lia.
Qed.
Lemma get_at_in {A} (l : list A) i v : get_at l i = Some v -> In v l.
Proof. unfold get_at. destruct (inside l i); [apply nth_error_In|discriminate]. Qed.
Lemma get_at_inside {A} (l : list A) i : inside l i = true -> exists v, get_at l i = Some v.
Proof.
  intros H. unfold get_at. rewrite H. destruct (nth_error l (Z.to_nat i)) eqn:E; eauto. apply nth_error_None in E.
  unfold inside, zlen in H. lia.
Qed.

Lemma firstn_sub {A} (l : list A) n x : In x (firstn n l) -> In x l.
Proof. intros H. rewrite <- (firstn_skipn n l). apply in_or_app. auto. Qed.
Lemma skipn_sub {A} (l : list A) n x : In x (skipn n l) -> In x l.
Proof. intros H. rewrite <- (firstn_skipn n l). apply in_or_app. auto. Qed.
Lemma replace_in {A} (l : list A) v idx x : In x (replace_at l v idx) -> x = v \/ In x l.
Proof.
  unfold replace_at. destruct (inside l idx).
  - intros H. apply in_app_or in H. destruct H as [H|H]; [right; eapply firstn_sub; eauto|].
    destruct H as [H|H]; auto. right. eapply skipn_sub; eauto.
  - intros H. apply in_app_or in H. destruct H as [H|[H|[]]]; auto.
Qed.
Lemma delete_in {A} (l : list A) idx x : In x (delete_at l idx) -> In x l.
Proof.
  unfold delete_at. destruct (inside l idx); auto.
  intros H. apply in_app_or in H. destruct H as [H|H]; [eapply firstn_sub; eauto|eapply skipn_sub; eauto].
Qed.

(** ** Invariant *)
Definition vis_ok (nx : nat) (v : hvisitor) : Prop :=
  (forall p b, In (p, b) (hv_stack v) -> (0 <= b -> p <> None) /\ forall a, p = Some a -> (a < nx)%nat) /\
  (forall a, hv_node v = Some a -> (a < nx)%nat).
Record HI (w : hworld) : Prop := {
  i_ok : forall a, gs_ok (n_kids (hw_heap w a));
  i_dom : forall a, (hw_next w <= a)%nat -> children w a = [];
  i_cl : forall a c, In (Some c) (children w a) -> (c < hw_next w)%nat;
  i_vis : forall i, vis_ok (hw_next w) (hw_vis w i)
}.
Lemma HI0 : HI hworld0.
Proof. constructor; cbn; auto; try contradiction. - intros a. unfold gs_ok. cbn. lia. - split; cbn; [tauto|discriminate]. Qed.

Lemma vis_ok_mono n m v : (n <= m)%nat -> vis_ok n v -> vis_ok m v.
Proof.
  intros H [A B]. split.
  - intros p b I. destruct (A p b I) as [C D]. split; auto. intros a E. specialize (D a E). lia.
  - intros a E. specialize (B a E). lia.
Qed.

Lemma kids_same w a g : children (set_kids w a g) a = visible g.
Proof. unfold children, set_kids. cbn. now rewrite fupd_same. Qed.
Lemma kids_other w a g b : b <> a -> children (set_kids w a g) b = children w b.
Proof. intros N. unfold children, set_kids. cbn. now rewrite fupd_other. Qed.
Lemma value_kids w a g b : value (set_kids w a g) b = value w b.
Proof. unfold value, set_kids. cbn. unfold fupd. destruct (Nat.eqb_spec b a) as [->|]; auto. Qed.

Lemma only_set w a g k : k = 0%nat -> only_kids w (set_kids w a g) a (visible g) k.
Proof.
  intros ->. split; [cbn; lia|]. split; [apply kids_same|]. split; [apply value_kids|].
  intros b N _. split; [now apply kids_other|apply value_kids].
Qed.

Lemma HI_set w a g : HI w -> (a < hw_next w)%nat -> gs_ok g -> (forall c, In (Some c) (visible g) -> (c < hw_next w)%nat) -> HI (set_kids w a g).
Proof.
  intros I Ha Hg Hc. constructor.
  - intros b. cbn. unfold fupd. destruct (b =? a)%nat; [exact Hg|apply I].
  - intros b Hb. cbn in Hb. rewrite kids_other by lia. now apply I.
  - intros b c. cbn. destruct (Nat.eq_dec b a) as [->|N]; [rewrite kids_same; auto|rewrite kids_other by auto; apply I].
  - intros i. apply I.
Qed.
Lemma HI_alloc w v : HI w -> HI (fst (alloc w v)).
Proof.
  intros I. unfold alloc. cbn [fst]. 
  assert (C : forall b, children (HW (fupd (hw_heap w) (hw_next w) (HNode v (GSlice [] 0))) (S (hw_next w)) (hw_vis w) (hw_nvis w)) b = children w b).
  { intros b. unfold children. cbn. unfold fupd. destruct (Nat.eqb_spec b (hw_next w)) as [->|]; auto. cbn.
    symmetry. apply (i_dom _ I). lia. }
  constructor.
  - intros b. cbn. unfold fupd. destruct (b =? hw_next w)%nat; [unfold gs_ok; cbn; lia|apply I].
  - intros b Hb. rewrite C. apply I. cbn in Hb. lia.
  - intros b c Hc. rewrite C in Hc. apply I in Hc. cbn. lia.
  - intros i. cbn. eapply vis_ok_mono; [|apply I]. lia.
Qed.
Lemma alloc_kids w v b : HI w -> children (fst (alloc w v)) b = children w b.
Proof.
  intros I. unfold alloc, children. cbn. unfold fupd. destruct (Nat.eqb_spec b (hw_next w)) as [->|]; auto. cbn.
  symmetry. apply (i_dom _ I). lia.
Qed.
Lemma alloc_value w v b : value (fst (alloc w v)) b = if (b =? hw_next w)%nat then v else value w b.
Proof. unfold alloc, value. cbn. unfold fupd. destruct (Nat.eqb_spec b (hw_next w)) as [->|]; auto. Qed.

Lemma ptr_some w n a : ptr_of w n = Some a -> a = n /\ (n < hw_next w)%nat.
Proof. unfold ptr_of. destruct (Nat.ltb_spec n (hw_next w)); [intros [= <-]; auto|discriminate]. Qed.
Lemma ptr_lt w n : (n < hw_next w)%nat -> ptr_of w n = Some n.
Proof. unfold ptr_of. intros H. destruct (Nat.ltb_spec n (hw_next w)); auto; lia. Qed.

(** Sorting. *)
Section Sort.
Variable w : hworld.
Fixpoint vals (ks : list kid) : outcome (list (nat * Z)) :=
  match ks with
  | [] => Ok []
  | None :: _ => Panic
  | Some c :: ks => r <- vals ks ;; Ok ((c, n_val (hw_heap w c)) :: r)
  end.
Lemma vals_ok ks l : vals ks = Ok l -> ks = map Some (map fst l) /\ forall e, In e l -> snd e = value w (fst e).
Proof.
  revert l. induction ks as [|[c|] ks IH]; cbn; intros l H; try discriminate.
  - injection H as <-. cbn. tauto.
  - destruct (vals ks) as [r| |]; try discriminate. cbn in H. injection H as <-.
    destruct (IH r eq_refl) as (-> & E). cbn. split; auto. intros e [<-|I]; auto.
Qed.
Lemma vals_panic ks : vals ks = Panic \/ (exists l, vals ks = Ok l) /\ ~ In None ks.
Proof.
  induction ks as [|[c|] ks IH]; cbn; eauto. destruct IH as [->|((l & ->) & N)]; cbn; auto.
  right. split; eauto. intros [E|E]; [discriminate|auto].
Qed.
End Sort.
Lemma sort_eq srt w a : sort_children srt w (Some a) =
  (if (length (children w a) <=? 1)%nat then Ok w else
   l <- vals w (children w a) ;;
   let g := n_kids (hw_heap w a) in
   Ok (set_kids w a (GSlice (map (fun e => Some (fst e)) (srt l) ++ skipn (glen g) (garr g)) (glen g)))).
Proof. reflexivity. Qed.

Lemma StronglySorted_map {A B} (f : A -> B) (R : B -> B -> Prop) (Q : A -> A -> Prop) l :
  (forall x y, In x l -> In y l -> Q x y -> R (f x) (f y)) -> StronglySorted Q l -> StronglySorted R (map f l).
Proof.
  induction l as [|x l IH]; intros H S; cbn; constructor.
  - apply IH; [|now apply StronglySorted_inv in S]. intros; apply H; cbn; auto.
  - apply StronglySorted_inv in S as [S F]. rewrite Forall_forall in *. intros y I. apply in_map_iff in I as (z & <- & I).
    apply H; cbn; auto.
Qed.

Lemma sort_spec srt w a w' : sorts srt -> HI w -> (a < hw_next w)%nat -> sort_children srt w (Some a) = Ok w' ->
  HI w' /\ hw_vis w' = hw_vis w /\ hw_nvis w' = hw_nvis w /\ exists l, only_kids w w' a l 0 /\ Permutation l (children w a) /\
      ((length l < 2)%nat \/ exists cs, l = map Some cs /\ StronglySorted (fun x y => value w x <= value w y) cs).
Proof.
  intros Hs I Ha. rewrite (sort_eq srt w a). destruct (Nat.leb_spec (length (children w a)) 1) as [L|L].
  - intros [= <-]. split; auto. split; auto. split; auto. exists (children w a).
    split; [|split; [apply Permutation_refl|left; lia]]. split; [lia|]. auto.
  - destruct (vals w (children w a)) as [l| |] eqn:E; cbn [bind]; try discriminate. intros [= <-].
    destruct (vals_ok _ _ _ E) as (Ek & Ev). destruct (Hs l) as (P & S).
    set (g := n_kids (hw_heap w a)) in *.
    assert (Lg : glen g = length (srt l)).
    { rewrite (Permutation_length P). transitivity (length (children w a)).
      - symmetry. apply visible_length. apply I.
      - rewrite Ek, !map_length. reflexivity. }
    assert (V : visible (GSlice (map (fun e => Some (fst e)) (srt l) ++ skipn (glen g) (garr g)) (glen g)) = map Some (map fst (srt l))).
    { unfold visible. cbn [glen garr]. rewrite firstn_app, map_length, Lg, Nat.sub_diag, firstn_O, app_nil_r.
      rewrite firstn_all2 by (rewrite map_length; lia). now rewrite map_map. }
    assert (P' : Permutation (map Some (map fst (srt l))) (children w a)).
    { rewrite Ek. now apply Permutation_map, Permutation_map. }
    assert (I' : HI (set_kids w a (GSlice (map (fun e => Some (fst e)) (srt l) ++ skipn (glen g) (garr g)) (glen g)))).
    { apply HI_set; auto.
      - unfold gs_ok. cbn. rewrite app_length, map_length. lia.
      - intros c Hc. rewrite V in Hc. eapply Permutation_in in Hc; [|exact P']. eapply i_cl; eauto. }
    split; auto. split; auto. split; auto. exists (map Some (map fst (srt l))).
    split; [rewrite <- V; now apply only_set|]. split; auto. right. exists (map fst (srt l)). split; auto.
    eapply StronglySorted_map; [|exact S]. intros x y Ix Iy Hxy. cbn in Hxy.
    rewrite <- !Ev; auto; eapply Permutation_in; eauto.
Qed.

(** The loops of the visitor keep it inside. *)
Lemma must_kid w a i c : HI w -> ss_must_get (n_kids (hw_heap w a)) i = Ok (Some c) -> (c < hw_next w)%nat.
Proof.
  intros I. rewrite ss_must_list by apply I. destruct (get_at (visible _) i) as [k|] eqn:E; [|discriminate].
  intros [= ->]. apply get_at_in in E. eapply i_cl; eauto.
Qed.
Lemma next_loop_ok w f : HI w -> forall st v, (vis_ok (hw_next w) (HV None st)) -> h_next_loop f w st = Ok v -> vis_ok (hw_next w) v.
Proof.
  intros I. induction f as [|f IH]; intros st v O; cbn; [discriminate|].
  destruct st as [|[p b] rest]; [intros [= <-]; split; cbn; [tauto|discriminate]|].
  assert (O' : vis_ok (hw_next w) (HV None rest)).
  { destruct O as [O _]. split; cbn in *; [intros; apply O; auto|discriminate]. }
  destruct (Z.ltb_spec b 0).
  - destruct p as [a|]; [|now apply IH]. intros [= <-]. split; cbn; [apply O'|].
    intros ? [= <-]. destruct O as [O _]. destruct (O (Some a) b) as [_ K]; cbn; auto.
  - destruct p as [a|]; cbn; [|discriminate]. destruct (O' ) as [O1 _].
    assert (Hst : forall c, vis_ok (hw_next w) (HV c ((Some a, b + 1) :: rest)) <-> (forall x, c = Some x -> (x < hw_next w)%nat)).
    { intros c. split; [intros [_ K]; exact K|]. intros K. split; auto. cbn. intros p b' [[= <- <-]|J]; [|now apply O1].
      split; [discriminate|]. destruct O as [O _]. destruct (O (Some a) b) as [_ K']; cbn; auto. }
    destruct (b <? ss_len (n_kids (hw_heap w a)) - 1); [|now apply IH].
    destruct (ss_must_get (n_kids (hw_heap w a)) (b + 1)) as [c| |] eqn:E; cbn; try discriminate.
    destruct c as [x|].
    + intros [= <-]. apply Hst. intros y [= <-]. eapply must_kid; eauto.
    + apply IH. apply Hst. discriminate.
Qed.
Lemma top_loop_ok w f : HI w -> forall p st n st', (forall a, p = Some a -> (a < hw_next w)%nat) -> vis_ok (hw_next w) (HV None st) ->
  h_top_loop f w p st = Ok (n, st') -> vis_ok (hw_next w) (HV n st').
Proof.
  intros I. induction f as [|f IH]; intros p st n st' Hp O; cbn; [discriminate|].
  destruct p as [a|]; cbn; [|discriminate].
  destruct (0 <? ss_len (n_kids (hw_heap w a))) eqn:El.
  - destruct (ss_must_get _ _) as [c| |] eqn:E; cbn; try discriminate. apply IH.
    + intros x ->. eapply must_kid; eauto.
    + destruct O as [O _]. split; cbn; [|discriminate]. intros p b [[= <- <-]|J]; [|now apply O].
      split; [discriminate|exact Hp].
  - intros [= <- <-]. destruct O as [O _]. split; cbn; auto.
Qed.
Lemma top_right_ok w p st n st' : HI w -> (forall a, p = Some a -> (a < hw_next w)%nat) -> vis_ok (hw_next w) (HV None st) ->
  h_top_right w p st = Ok (n, st') -> vis_ok (hw_next w) (HV n st').
Proof.
  intros I Hp O. unfold h_top_right. destruct p; [now apply top_loop_ok|]. intros [= <- <-]. exact O.
Qed.
Lemma h_next_ok w v v' b : HI w -> vis_ok (hw_next w) v -> h_next w v = Ok (v', b) -> vis_ok (hw_next w) v'.
Proof.
  intros I O. unfold h_next. intros H.
  assert (G : forall x, (v1 <- x ;; Ok (v1, match hv_node v1 with Some _ => true | None => false end)) = Ok (v', b) -> x = Ok v').
  { intros [y| |]; cbn; congruence. }
  apply G in H. clear G.
  assert (O0 : vis_ok (hw_next w) (HV None (hv_stack v))) by (destruct O; split; cbn; auto; discriminate).
  destruct (hv_node v) as [a|] eqn:En; [|now apply next_loop_ok in H].
  destruct (0 <? ss_len (n_kids (hw_heap w a))); [|now apply next_loop_ok in H].
  destruct (ss_must_get _ 0) as [c| |] eqn:E; cbn [bind] in H; try discriminate.
  assert (Ha : (a < hw_next w)%nat) by (destruct O as [_ O2]; auto).
  assert (Hs : forall c, (forall x, c = Some x -> (x < hw_next w)%nat) -> vis_ok (hw_next w) (HV c ((Some a, 0) :: hv_stack v))).
  { intros d Hd. destruct O0 as [O1 _]. split; cbn; auto. intros p bb [[= <- <-]|J]; [|now apply O1].
    split; [discriminate|]. intros ? [= <-]. auto. }
  destruct c as [x|].
  - injection H as <-. apply Hs. intros ? [= <-]. eapply must_kid; eauto.
  - apply next_loop_ok in H; auto. apply Hs. discriminate.
Qed.
Lemma h_prev_ok w v v' b : HI w -> vis_ok (hw_next w) v -> h_prev w v = Ok (v', b) -> vis_ok (hw_next w) v'.
Proof.
  intros I O. unfold h_prev. intros H.
  assert (G : forall x, (v1 <- x ;; Ok (v1, match hv_node v1 with Some _ => true | None => false end)) = Ok (v', b) -> x = Ok v').
  { intros [y| |]; cbn; congruence. }
  apply G in H. clear G.
  destruct (hv_node v) as [a|] eqn:En; destruct (hv_stack v) as [|[p i] rest] eqn:Es.
  - injection H as <-. split; cbn; [tauto|discriminate].
  - assert (Or : vis_ok (hw_next w) (HV None rest)).
    { destruct O as [O _]. rewrite Es in O. split; cbn in *; [intros; apply O; auto|discriminate]. }
    assert (Op : forall x, p = Some x -> (x < hw_next w)%nat).
    { destruct O as [O _]. rewrite Es in O. apply (O p i). cbn. auto. }
    destruct (0 <? i) eqn:Ei.
    + destruct p as [q|]; cbn in H; [|discriminate].
      destruct (ss_must_get _ _) as [c| |] eqn:E; cbn [bind] in H; try discriminate.
      destruct (h_top_right w c ((Some q, i - 1) :: rest)) as [[n st]| |] eqn:Et; cbn [bind] in H; try discriminate. injection H as <-.
      eapply top_right_ok in Et; eauto.
      * intros x ->. eapply must_kid; eauto.
      * destruct Or as [O1 _]. split; cbn; [|discriminate]. intros p' b' [[= <- <-]|J]; [|now apply O1]. split; [discriminate|exact Op].
    + injection H as <-. destruct Or as [O1 _]. split; cbn; auto.
  - injection H as <-. exact O.
  - assert (Or : vis_ok (hw_next w) (HV None rest)).
    { destruct O as [O _]. rewrite Es in O. split; cbn in *; [intros; apply O; auto|discriminate]. }
    assert (Op : forall x, p = Some x -> (x < hw_next w)%nat).
    { destruct O as [O _]. rewrite Es in O. apply (O p i). cbn. auto. }
    destruct (h_top_right w p rest) as [[n st]| |] eqn:Et; cbn [bind] in H; try discriminate. injection H as <-.
    eapply top_right_ok in Et; eauto.
Qed.

Lemma HI_vis w vis nv : HI w -> (forall i, vis_ok (hw_next w) (vis i)) -> HI (HW (hw_heap w) (hw_next w) vis nv).
Proof. intros I H. constructor; try apply I. exact H. Qed.

Lemma step_spec srt grow w op w' o : sorts srt -> HI w -> h_step srt grow w op = Ok (w', o) -> HI w' /\ edits replace_at w op w' o.
Proof.
  intros Hs I. destruct op as [|n v idx|n c idx|n idx|n idx|n|n|n|n|i|i|i]; cbn [h_step edits].
  - intros [= <- <-]. split; [apply (HI_alloc w 0 I)|]. split; [reflexivity|]. split; [reflexivity|].
    change (HW _ _ _ _) with (fst (alloc w 0)). rewrite alloc_kids, alloc_value, Nat.eqb_refl by auto.
    split; [apply (i_dom _ I); lia|]. split; [reflexivity|]. intros b Hb. rewrite alloc_kids, alloc_value by auto.
    destruct (Nat.eqb_spec b (hw_next w)); [lia|auto].
  - unfold add_child, add_child_node. destruct (ptr_of w n) as [a|] eqn:Ep; cbn; [|discriminate].
    apply ptr_some in Ep as (-> & Hn). change (HW _ _ _ _) with (fst (alloc w v)).
    pose proof (HI_alloc w v I) as I'. set (w1 := fst (alloc w v)) in *.
    assert (En : hw_next w1 = S (hw_next w)) by reflexivity.
    replace (fupd (hw_heap w) (hw_next w) (HNode v (GSlice [] 0)) n) with (hw_heap w1 n) by reflexivity.
    destruct (ss_insert_list grow (n_kids (hw_heap w1 n)) (Some (hw_next w)) idx) as (g & k & -> & Hg & Vg); [apply I'|].
    cbn [bind]. intros [= <- <-].
    change (visible (n_kids (hw_heap w1 n))) with (children w1 n) in Vg. unfold w1 in Vg. rewrite alloc_kids in Vg by auto. fold w1 in Vg.
    split.
    + apply HI_set; auto; [rewrite En; lia|]. intros c Hc. rewrite Vg in Hc. apply replace_in in Hc. rewrite En.
      destruct Hc as [[= ->]|Hc]; [lia|]. apply (i_cl _ I) in Hc. lia.
    + split; auto. split; auto. rewrite <- Vg. repeat split.
      * cbn. lia.
      * apply kids_same.
      * rewrite value_kids. unfold w1. rewrite alloc_value. destruct (Nat.eqb_spec n (hw_next w)); [lia|auto].
      * rewrite kids_other by auto. now apply alloc_kids.
      * rewrite value_kids. unfold w1. rewrite alloc_value. destruct (Nat.eqb_spec b (hw_next w)); [lia|auto].
      * rewrite kids_other by lia. unfold w1. rewrite alloc_kids by auto. apply I. lia.
      * rewrite value_kids. unfold w1. rewrite alloc_value. now rewrite Nat.eqb_refl.
  - unfold add_child_node. destruct (ptr_of w n) as [a|] eqn:Ep; cbn; [|discriminate]. apply ptr_some in Ep as (-> & Hn).
    destruct (ss_insert_list grow (n_kids (hw_heap w n)) (ptr_of w c) idx) as (g & k & -> & Hg & Vg); [apply I|].
    cbn [bind]. intros [= <- <-]. split.
    + apply HI_set; auto. intros x Hx. rewrite Vg in Hx. apply replace_in in Hx. destruct Hx as [E|Hx].
      * symmetry in E. apply ptr_some in E as (-> & Hc). exact Hc.
      * eapply (i_cl _ I); eauto.
    + split; auto. split; auto. change (visible (n_kids (hw_heap w n))) with (children w n) in Vg.
      change (only_kids w (set_kids w n g) n (replace_at (children w n) (ptr_of w c) idx) 0). rewrite <- Vg. now apply only_set.
  - unfold remove_child. destruct (ptr_of w n) as [a|] eqn:Ep; cbn; [|discriminate]. apply ptr_some in Ep as (-> & Hn).
    destruct (ss_remove_list grow (n_kids (hw_heap w n)) idx) as (g & -> & Hg & Vg); [apply I|]. cbn [bind]. intros [= <- <-].
    change (visible (n_kids (hw_heap w n))) with (children w n) in *. split.
    + apply HI_set; auto. intros x Hx. rewrite Vg in Hx. apply delete_in in Hx. eapply (i_cl _ I); eauto.
    + split; auto. split; auto. rewrite <- Vg. now apply only_set.
  - destruct (ptr_of w n) as [a|] eqn:Ep; cbn; [|discriminate]. apply ptr_some in Ep as (-> & Hn).
    rewrite ss_get_list by apply I. cbn. intros [= <- <-]. auto.
  - destruct (ptr_of w n) as [a|] eqn:Ep; cbn; [|discriminate]. apply ptr_some in Ep as (-> & Hn).
    intros [= <- <-]. rewrite ss_len_list by apply I. auto.
  - destruct (ptr_of w n) as [a|] eqn:Ep; [|discriminate]. apply ptr_some in Ep as (-> & Hn).
    destruct (sort_children srt w (Some n)) as [w1| |] eqn:E; cbn [bind]; try discriminate. intros [= <- <-].
    destruct (sort_spec srt w n w1 Hs I Hn E) as (I1 & _ & _ & l & P). split; auto. split; auto. split; auto. exists l. auto.
  - destruct (all_rec _ w (ptr_of w n)); cbn [bind]; try discriminate. intros [= <- <-]. auto.
  - intros [= <- <-]. split; [|split; auto]. apply HI_vis; auto. intros j. unfold fupd. destruct (j =? hw_nvis w)%nat; [|apply I].
    split; cbn; [|discriminate]. intros p b [[= <- <-]|[]]. split; [lia|]. intros a Ea. apply ptr_some in Ea. lia.
  - destruct (i <? hw_nvis w)%nat; [|discriminate]. destruct (h_next w (hw_vis w i)) as [[v b]| |] eqn:E; cbn [bind]; try discriminate.
    intros [= <- <-]. split; [|split; auto]. apply HI_vis; auto. intros j. unfold fupd. destruct (j =? i)%nat; [|apply I].
    eapply h_next_ok; eauto. apply I.
  - destruct (i <? hw_nvis w)%nat; [|discriminate]. destruct (h_prev w (hw_vis w i)) as [[v b]| |] eqn:E; cbn [bind]; try discriminate.
    intros [= <- <-]. split; [|split; auto]. apply HI_vis; auto. intros j. unfold fupd. destruct (j =? i)%nat; [|apply I].
    eapply h_prev_ok; eauto. apply I.
  - destruct (i <? hw_nvis w)%nat; [|discriminate]. intros [= <- <-]. auto.
Qed.

Lemma reached_HI srt grow w : sorts srt -> reached srt grow w -> HI w.
Proof.
  intros Hs (ops & os & H). revert H. generalize HI0. generalize hworld0. revert os.
  induction ops as [|op ops IH]; intros os w0 I0; cbn.
  - intros [= <- <-]. auto.
  - destruct (h_step srt grow w0 op) as [[w1 o]| |] eqn:E; cbn; try discriminate.
    destruct (run_ops (h_step srt grow) w1 ops) as [[w2 os']| |] eqn:E2; cbn; try discriminate. intros [= <- <-].
    eapply IH; [|exact E2]. eapply step_spec; eauto.
Qed.

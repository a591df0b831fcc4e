From Coq Require Import ZArith List Bool Lia Permutation Sorting.Sorted.
From Verif Require Import GoBase GoStrings PathModel FsModel FsSpec FsProofs.
Import ListNotations.
Open Scope Z_scope.

(** ** The order of FileHash.Less *)
Lemma str_less_spec a : forall b, str_less a b = true <-> bytes_lt a b.
Proof.
  induction a as [|x a IH]; intros [|y b]; cbn [str_less].
  - split; [discriminate|intros H; inversion H].
  - split; [constructor|auto].
  - split; [discriminate|intros H; inversion H].
  - rewrite orb_true_iff, andb_true_iff, Z.ltb_lt, Z.eqb_eq, IH. split.
    + intros [H|[-> H]]; [now apply lt_head|now apply lt_tail].
    + intros H. inversion H; subst; auto.
Qed.
Lemma str_less_anti a : forall b, str_less a b = false -> str_less b a = false -> a = b.
Proof.
  induction a as [|x a IH]; intros [|y b]; cbn [str_less]; try discriminate; auto.
  rewrite !orb_false_iff, !andb_false_iff, !Z.ltb_ge, !Z.eqb_neq. intros [H1 H2] [H3 H4]. assert (x = y) by lia. subst y.
  f_equal. apply IH; [destruct H2; [congruence|auto]|destruct H4; [congruence|auto]].
Qed.
Lemma bytes_lt_irrefl a : ~ bytes_lt a a.
Proof. induction a as [|x a IH]; intros H; inversion H; subst; [lia|auto]. Qed.
Lemma bytes_lt_trans a b c : bytes_lt a b -> bytes_lt b c -> bytes_lt a c.
Proof.
  intros H. revert c. induction H as [y b|x y a b Hxy|x a b H IH]; intros c Hc; inversion Hc; subst; try (now constructor).
  - apply lt_head. lia.
  - apply lt_tail. auto.
Qed.
Definition key (v : hnode) : Z * list Z := (fh_size (hval v), fh_hash (hval v)).
Definition klt (a b : Z * list Z) : bool := if fst a <? fst b then true else if (fst a =? fst b) && str_less (snd a) (snd b) then true else false.
Lemma node_less_key a b : node_less a b = klt (key a) (key b).
Proof. reflexivity. Qed.
Lemma klt_anti a b : klt a b = false -> klt b a = false -> a = b.
Proof.
  destruct a as [x s], b as [y t]. unfold klt. cbn [fst snd].
  destruct (Z.ltb_spec x y); [discriminate|]. destruct (Z.ltb_spec y x); [discriminate|]. assert (x = y) by lia. subst y. rewrite Z.eqb_refl. cbn [andb].
  destruct (str_less s t) eqn:E1; [discriminate|]. destruct (str_less t s) eqn:E2; [discriminate|]. intros _ _. f_equal. now apply str_less_anti.
Qed.
Lemma fh_less_spec a b : fh_less a b = true <-> fh_size a < fh_size b \/ (fh_size a = fh_size b /\ bytes_lt (fh_hash a) (fh_hash b)).
Proof.
  unfold fh_less. destruct (Z.ltb_spec (fh_size a) (fh_size b)); [split; auto|].
  destruct (Z.eqb_spec (fh_size a) (fh_size b)) as [E|E]; cbn [andb].
  - destruct (str_less (fh_hash a) (fh_hash b)) eqn:S.
    + apply str_less_spec in S. split; auto.
    + split; [discriminate|]. intros [H1|[_ H1]]; [lia|]. apply str_less_spec in H1. congruence.
  - split; [discriminate|]. intros [H1|[H1 _]]; lia.
Qed.

(** ** Sorting is unique up to keys *)
Lemma sorted_unique {A} (R : A -> A -> Prop) (anti : forall a b, R a b -> R b a -> a = b) :
  forall l1 l2, Permutation l1 l2 -> StronglySorted R l1 -> StronglySorted R l2 -> l1 = l2.
Proof.
  induction l1 as [|a l1 IH]; intros l2 P S1 S2.
  - apply Permutation_nil in P. auto.
  - destruct l2 as [|b l2]; [apply Permutation_sym, Permutation_nil in P; discriminate|].
    apply StronglySorted_inv in S1 as [S1 F1]. apply StronglySorted_inv in S2 as [S2 F2].
    assert (E : a = b).
    { assert (Ia : In a (b :: l2)) by (eapply Permutation_in; [exact P|now left]). destruct Ia as [->|Ia]; auto.
      assert (Ib : In b (a :: l1)) by (eapply Permutation_in; [apply Permutation_sym, P|now left]). destruct Ib as [->|Ib]; auto.
      rewrite Forall_forall in F1, F2. apply anti; auto. }
    subst b. f_equal. apply IH; auto. eapply Permutation_cons_inv; eauto.
Qed.
Lemma sorted_map {A B} (f : A -> B) (R : A -> A -> Prop) (Q : B -> B -> Prop) (H : forall a b, R a b -> Q (f a) (f b)) l :
  StronglySorted R l -> StronglySorted Q (map f l).
Proof.
  intros S. induction S as [|a l S IH F]; constructor; auto. apply Forall_map. eapply Forall_impl; [|exact F]. auto.
Qed.
Lemma srt_keys s1 s2 l1 l2 : sorts s1 -> sorts s2 -> Permutation (map key l1) (map key l2) -> map key (s1 l1) = map key (s2 l2).
Proof.
  intros H1 H2 P. destruct (H1 l1) as [P1 S1]. destruct (H2 l2) as [P2 S2].
  apply (sorted_unique (fun a b => klt b a = false)).
  - intros a b Ha Hb. apply klt_anti; auto.
  - transitivity (map key l1); [now apply Permutation_map|]. transitivity (map key l2); auto. apply Permutation_sym. now apply Permutation_map.
  - eapply sorted_map; [|exact S1]. intros a b Hab. exact Hab.
  - eapply sorted_map; [|exact S2]. intros a b Hab. exact Hab.
Qed.

(** ** Results of the children *)
Lemma all_some_spec l r : all_some l = Some r <-> l = map Some r.
Proof.
  revert r. induction l as [|[x|] l IH]; intros r; cbn [all_some].
  - split; [intros [= <-]; reflexivity|]. destruct r; [reflexivity|discriminate].
  - destruct (all_some l) as [r'|].
    + split; [intros [= <-]; cbn; f_equal; now apply IH|]. destruct r as [|y r]; [discriminate|]. intros [= -> E]. apply IH in E. congruence.
    + split; [discriminate|]. destruct r as [|y r]; [discriminate|]. intros [= -> E]. apply IH in E. discriminate.
  - split; [discriminate|]. destruct r; discriminate.
Qed.
Lemma all_some_none l : all_some l = None <-> In None l.
Proof.
  induction l as [|[x|] l IH]; cbn [all_some In].
  - split; [discriminate|tauto].
  - destruct (all_some l); split; intros; try discriminate.
    + destruct H as [H|H]; [discriminate|]. apply IH in H. discriminate.
    + right. now apply IH.
    + reflexivity.
  - split; auto.
Qed.
Lemma concat_keys l : concat (map (fun v => fh_hash (hval v)) l) = concat (map snd (map key l)).
Proof. rewrite map_map. reflexivity. Qed.
Lemma size_keys l : forall a, fold_left (fun a v => (a + fh_size (hval v)) mod 2 ^ 64) l a = fold_left (fun a s => (a + s) mod 2 ^ 64) (map fst (map key l)) a.
Proof. induction l as [|v l IH]; intros a; [reflexivity|]. cbn [map fold_left]. now rewrite IH. Qed.

Definition agree (a b : option hnode) : Prop :=
  match a, b with
  | Some x, Some y => key x = key y /\ fh_isdir (hval x) = fh_isdir (hval y)
  | None, None => True
  | _, _ => False
  end.
Lemma agree_keys l1 l2 : Forall2 agree l1 l2 -> 
  match all_some l1, all_some l2 with Some r1, Some r2 => map key r1 = map key r2 | None, None => True | _, _ => False end.
Proof.
  intros H. induction H as [|x y l1 l2 Hxy _ IH]; [reflexivity|]. cbn [all_some].
  destruct x as [x|], y as [y|]; try (destruct Hxy; fail); auto.
  destruct Hxy as [K _]. destruct (all_some l1), (all_some l2); auto. cbn. congruence.
Qed.
Lemma perm_keys l1 l2 : Permutation l1 l2 ->
  match all_some l1, all_some l2 with Some r1, Some r2 => Permutation (map key r1) (map key r2) | None, None => True | _, _ => False end.
Proof.
  intros P. destruct (all_some l1) as [r1|] eqn:E1; destruct (all_some l2) as [r2|] eqn:E2; auto.
  - apply all_some_spec in E1, E2. subst l1 l2. apply Permutation_map.
    assert (Q : Permutation (map (fun o => match o with Some x => x | None => HNode {| fh_path := []; fh_hash := []; fh_size := 0; fh_isdir := false |} [] end) (map Some r1))
        (map (fun o => match o with Some x => x | None => HNode {| fh_path := []; fh_hash := []; fh_size := 0; fh_isdir := false |} [] end) (map Some r2))) by (now apply Permutation_map).
    rewrite !map_map, !map_id in Q. exact Q.
  - apply all_some_spec in E1. subst l1. apply all_some_none in E2. eapply Permutation_in in E2; [|apply Permutation_sym, P]. apply in_map_iff in E2 as (? & ? & _). discriminate.
  - apply all_some_spec in E2. subst l2. apply all_some_none in E1. eapply Permutation_in in E1; [|apply P]. apply in_map_iff in E1 as (? & ? & _). discriminate.
Qed.

Lemma hash_same text s1 s2 : sorts s1 -> sorts s2 -> forall n1 n2 p1 p2, same_content n1 n2 ->
  agree (hash_tree text s1 p1 n1) (hash_tree text s2 p2 n2).
Proof.
  intros H1 H2. induction n1 as [nm c|nm b|nm|nm kids IH] using fnode_ind2; intros n2 p1 p2 S; inversion S; subst; cbn [hash_tree]; try (cbn; auto; fail).
  match goal with A : Forall2 same_content kids ?k', B : Permutation ?k' ?k'' |- _ => rename A into F; rename B into P; rename k' into ks'; rename k'' into ks'' end.
  set (f1 := fun k => hash_tree text s1 (path_joins p1 [node_name k]) k). set (f2 := fun k => hash_tree text s2 (path_joins p2 [node_name k]) k).
  assert (A : Forall2 agree (map f1 kids) (map f2 ks')).
  { clear - IH F. revert IH. induction F as [|x y l l' Hxy _ IHf]; intros IH; constructor.
    - apply Forall_cons_iff in IH as [IH _]. apply IH. auto.
    - apply IHf. now apply Forall_cons_iff in IH. }
  apply agree_keys in A. pose proof (perm_keys (map f2 ks') (map f2 ks'') (Permutation_map f2 P)) as B.
  destruct (all_some (map f1 kids)) as [r1|]; destruct (all_some (map f2 ks')) as [r'|]; try tauto;
  destruct (all_some (map f2 ks'')) as [r2|]; try tauto; try exact I.
  assert (K : map key (s1 r1) = map key (s2 r2)) by (apply srt_keys; auto; now rewrite A).
  cbn [agree hval fh_isdir]. split; [|reflexivity]. unfold key at 1 2. cbn [hval fh_size fh_hash].
  rewrite !concat_keys, !size_keys, K. reflexivity.
Qed.

(** ** Sizes *)
Definition sumz (l : list Z) : Z := fold_right Z.add 0 l.
Lemma sumz_app a b : sumz (a ++ b) = sumz a + sumz b.
Proof. unfold sumz. induction a as [|x a IH]; cbn; [lia|]. lia. Qed.
Lemma sumz_perm a b : Permutation a b -> sumz a = sumz b.
Proof. intros P. unfold sumz. induction P; cbn in *; lia. Qed.
Lemma fold_mod l : forall a, 0 <= a < 2 ^ 64 -> fold_left (fun a s => (a + s) mod 2 ^ 64) l a = (a + sumz l) mod 2 ^ 64.
Proof.
  induction l as [|x l IH]; intros a Ha; cbn [fold_left sumz fold_right].
  - rewrite Z.add_0_r, Z.mod_small; lia.
  - rewrite IH by (apply Z.mod_pos_bound; lia). rewrite Zplus_mod_idemp_l. f_equal. unfold sumz. lia.
Qed.
Lemma total_size_dir nm kids : total_size (Dir nm (Some kids)) = sumz (map total_size kids).
Proof.
  unfold total_size. cbn [contents]. induction kids as [|k kids IH]; [reflexivity|]. cbn [flat_map map]. rewrite map_app. fold (sumz (map zlen (contents k) ++ map zlen (flat_map contents kids))).
  rewrite sumz_app. unfold sumz in *. cbn [fold_right]. lia.
Qed.
Lemma hash_size text srt : sorts srt -> forall n p r, hash_tree text srt p n = Some r -> fh_size (hval r) mod 2 ^ 64 = total_size n mod 2 ^ 64 /\ (is_dir n = true -> fh_size (hval r) = total_size n mod 2 ^ 64).
Proof.
  intros Hs. induction n as [nm c|nm b|nm|nm kids IH] using fnode_ind2; intros p r; cbn [hash_tree]; try discriminate.
  - intros [= <-]. cbn [hval fh_size]. unfold total_size. cbn. split; [f_equal; lia|discriminate].
  - destruct (all_some _) as [subs|] eqn:E; [|discriminate].
    assert (G : fold_left (fun a v => (a + fh_size (hval v)) mod 2 ^ 64) (srt subs) 0 = total_size (Dir nm (Some kids)) mod 2 ^ 64).
    { rewrite size_keys, fold_mod by lia. rewrite Z.add_0_l, total_size_dir.
      replace (sumz (map fst (map key (srt subs)))) with (sumz (map fst (map key subs))) by (apply sumz_perm, Permutation_map, Permutation_map, Permutation_sym, (Hs subs)).
      apply all_some_spec in E. revert subs E. induction IH as [|k kids Hk _ IHk]; intros subs E.
      - destruct subs; [reflexivity|discriminate].
      - destruct subs as [|v subs]; [discriminate|]. cbn [map] in E. injection E as E1 E2. cbn [map sumz fold_right].
        destruct (Hk _ _ E1) as [Hk' _]. specialize (IHk subs E2). unfold sumz in *. cbn [fst key]. rewrite Zplus_mod, Hk', IHk, <- Zplus_mod. reflexivity. }
    cbv zeta. rewrite G. intros [= <-]. cbn [hval fh_size]. split; auto. apply Z.mod_mod. lia.
Qed.
(** The inner loop of [statistic] is a fold. *)
Lemma statistic_dir nm kids nd nf sz : statistic (nd, nf, sz) (Dir nm (Some kids)) = fold_left statistic kids (nd + 1, nf, sz).
Proof.
  cbn [statistic]. generalize (nd + 1, nf, sz). induction kids as [|k kids IH]; intros acc; [reflexivity|]. cbn [fold_left]. apply IH.
Qed.
Lemma statistic_spec : forall n, readable n -> forall nd nf sz, 0 <= sz < 2 ^ 64 ->
  statistic (nd, nf, sz) n = (nd + dirs n, nf + zlen (contents n), (sz + total_size n) mod 2 ^ 64).
Proof.
  induction n as [nm c|nm b|nm|nm kids IH] using fnode_ind2; intros R nd nf sz Hsz; inversion R; subst.
  - cbn [statistic dirs]. unfold total_size, zlen. cbn. f_equal; [f_equal; lia|f_equal; lia].
  - rewrite statistic_dir, total_size_dir. match goal with H : Forall readable kids |- _ => rename H into F end.
    assert (G : forall kids nd nf sz, 0 <= sz < 2 ^ 64 ->
      Forall (fun n => readable n -> forall nd nf sz, 0 <= sz < 2 ^ 64 -> statistic (nd, nf, sz) n = (nd + dirs n, nf + zlen (contents n), (sz + total_size n) mod 2 ^ 64)) kids ->
      Forall readable kids ->
      fold_left statistic kids (nd, nf, sz) = (nd + sumz (map dirs kids), nf + zlen (flat_map contents kids), (sz + sumz (map total_size kids)) mod 2 ^ 64)).
    { clear. induction kids as [|k kids IHk]; intros nd nf sz Hsz A B.
      - cbn. rewrite !Z.add_0_r, Z.mod_small by lia. reflexivity.
      - apply Forall_cons_iff in A as [Ak A]. apply Forall_cons_iff in B as [Bk B]. cbn [fold_left]. rewrite Ak by auto.
        rewrite IHk by (auto; apply Z.mod_pos_bound; lia). cbn [map flat_map sumz fold_right]. fold (sumz (map dirs kids)). fold (sumz (map total_size kids)).
        unfold zlen. rewrite app_length, Nat2Z.inj_add. rewrite Zplus_mod_idemp_l. f_equal; [f_equal; lia|f_equal; lia]. }
    rewrite G by auto. cbn [dirs contents]. fold (sumz (map dirs kids)). f_equal. f_equal. lia.
Qed.
Lemma readable_hash text srt : forall n, readable n -> forall p, exists r, hash_tree text srt p n = Some r.
Proof.
  induction n as [nm c|nm b|nm|nm kids IH] using fnode_ind2; intros R p; inversion R; subst; cbn [hash_tree]; [eauto|].
  destruct (all_some _) as [subs|] eqn:E; [eauto|]. exfalso. apply all_some_none in E. apply in_map_iff in E as (k & E & Hk).
  rewrite Forall_forall in *. destruct (IH k Hk ltac:(auto) (path_joins p [node_name k])) as [r Er]. congruence.
Qed.
Lemma statistic_hash text srt n p r : sorts srt -> readable n -> is_dir n = true -> hash_tree text srt p n = Some r ->
  statistic (0, 0, 0) n = (dirs n, zlen (contents n), fh_size (hval r)).
Proof.
  intros Hs R D E. rewrite statistic_spec by (auto; lia). destruct (hash_size text srt Hs n p r E) as [_ H]. rewrite H by auto. reflexivity.
Qed.

(** ** Collisions *)
Lemma hex_num_len n : forall v, length (hex_num n v) = n.
Proof. induction n as [|n IH]; intros v; [reflexivity|]. cbn [hex_num]. rewrite app_length, IH. cbn. lia. Qed.
Lemma hex_bytes_len l : length (hex_bytes l) = (2 * length l)%nat.
Proof. induction l as [|b l IH]; [reflexivity|]. cbn in *. unfold hex_bytes in IH. rewrite IH. lia. Qed.
Lemma fp_text_len h1 h2 h3 s d : good_hashes h1 h2 h3 -> length (fp_text h1 h2 h3 s d) = 51%nat.
Proof.
  intros H. destruct (H d) as (L1 & L2 & L3). unfold fp_text, sub_slice. rewrite app_length, hex_num_len. cbn [length]. rewrite app_length. cbn [length]. rewrite app_length. cbn [length].
  rewrite !hex_bytes_len, !firstn_length, !skipn_length, L1, L2, L3. reflexivity.
Qed.
Lemma app_inj_l {A} (a b c d : list A) : length a = length c -> a ++ b = c ++ d -> a = c /\ b = d.
Proof.
  revert c. induction a as [|x a IH]; intros [|y c] L E; cbn in *; try lia; auto. injection E as -> E. destruct (IH c) as [-> ->]; auto.
Qed.
Lemma fp_text_inj h1 h2 h3 s d s' d' : fp_text h1 h2 h3 s d = fp_text h1 h2 h3 s' d' -> digest h1 h2 h3 d = digest h1 h2 h3 d'.
Proof. intros E. unfold fp_text in E. apply app_inj_l in E as [_ E]; [|now rewrite !hex_num_len]. injection E as E. exact E. Qed.
Lemma sorts_one srt v : sorts srt -> srt [v] = [v].
Proof. intros H. destruct (H [v]) as [P _]. apply Permutation_sym, Permutation_length_1_inv in P. auto. Qed.
Lemma file_dir_collide h1 h2 h3 srt c nm nm1 nm2 p p' : good_hashes h1 h2 h3 -> sorts srt -> length c = 51%nat ->
  exists c' r r', fingerprint h1 h2 h3 srt p (Dir nm (Some [File nm1 c])) = Some r /\
    fingerprint h1 h2 h3 srt p' (File nm2 c') = Some r' /\ fh_hash (hval r) = fh_hash (hval r') /\ fh_size (hval r) = fh_size (hval r').
Proof.
  intros G Hs L. exists (fp_text h1 h2 h3 (zlen c) c). unfold fingerprint. cbn [hash_tree map all_some node_name]. rewrite !sorts_one by auto. cbn [map concat fold_left hval fh_hash fh_size]. rewrite app_nil_r.
  eexists. eexists. split; [reflexivity|]. split; [reflexivity|]. cbn [hval fh_hash fh_size].
  unfold zlen. rewrite fp_text_len by auto. rewrite L. split; reflexivity.
Qed.
Lemma hash_collide h salt srt c nm nm1 nm2 p p' : sorts srt ->
  exists c' r r', hash_with h salt srt p (Dir nm (Some [File nm1 c])) = Some r /\
    hash_with h salt srt p' (File nm2 c') = Some r' /\ fh_hash (hval r) = fh_hash (hval r').
Proof.
  intros Hs. exists (hex_bytes (h (salt ++ c))). unfold hash_with. cbn [hash_tree map all_some node_name]. rewrite !sorts_one by auto. cbn [map concat fold_left hval fh_hash fh_size]. rewrite app_nil_r.
  eexists. eexists. split; [reflexivity|]. split; [reflexivity|]. reflexivity.
Qed.

(** ** Trees of equal depth everywhere *)
Lemma perm_forall2 {A B} (R : A -> B -> Prop) l1 l1' : Permutation l1 l1' -> forall l2', Forall2 R l1' l2' -> exists l2, Forall2 R l1 l2 /\ Permutation l2 l2'.
Proof.
  intros P. induction P as [|x l l' P IH|x y l|l l' l'' P1 IH1 P2 IH2]; intros l2' F.
  - inversion F; subst. exists []. auto.
  - inversion F; subst. destruct (IH l'0) as (l2 & F2 & P2); auto. exists (y :: l2). split; auto.
  - inversion F as [|? b ? l0 Hb F0]; subst. inversion F0 as [|? b' ? l3 Hb' F3]; subst. exists (b' :: b :: l3). split; [auto|apply perm_swap].
  - destruct (IH2 l2' F) as (l2 & F2 & Q2). destruct (IH1 l2 F2) as (l1 & F1 & Q1). exists l1. split; auto. now transitivity l2.
Qed.
Lemma forall2_map_some {A B} (f : A -> option B) l r : map f l = map Some r -> Forall2 (fun k v => f k = Some v) l r.
Proof.
  revert r. induction l as [|k l IH]; intros [|v r] E; try discriminate; constructor; cbn in E; injection E as E1 E2; auto.
Qed.
Lemma concat_len_inj {A} n (l l' : list (list A)) : (n > 0)%nat -> Forall (fun x => length x = n) l -> Forall (fun x => length x = n) l' -> concat l = concat l' -> l = l'.
Proof.
  intros Hn H. revert l'. induction H as [|x l Hx _ IH]; intros l' H' E.
  - destruct l' as [|y l']; auto. apply Forall_cons_iff in H' as [Hy _]. cbn in E. destruct y; [cbn in Hy; lia|discriminate].
  - destruct l' as [|y l']; [destruct x; [cbn in Hx; lia|discriminate]|]. apply Forall_cons_iff in H' as [Hy H']. cbn in E.
    apply app_inj_l in E as [-> E]; [|congruence]. f_equal. auto.
Qed.
Section Distinguish.
  Variables (h1 h2 h3 : list Z -> list Z) (s1 s2 : list hnode -> list hnode).
  Hypotheses (G : good_hashes h1 h2 h3) (H1 : sorts s1) (H2 : sorts s2).
  Let T := fp_text h1 h2 h3.
  Lemma hash_len p n r srt : hash_tree T srt p n = Some r -> length (fh_hash (hval r)) = 51%nat.
  Proof.
    destruct n as [nm c|nm [kids|]|nm b]; cbn [hash_tree]; try discriminate.
    - intros [= <-]. cbn [hval fh_hash]. now apply fp_text_len.
    - destruct (all_some _); [|discriminate]. intros [= <-]. cbn [hval fh_hash]. now apply fp_text_len.
  Qed.
  Lemma distinguish k : forall n1 n2 p1 p2 r1 r2, level k n1 -> level k n2 ->
    hash_tree T s1 p1 n1 = Some r1 -> hash_tree T s2 p2 n2 = Some r2 -> fh_hash (hval r1) = fh_hash (hval r2) ->
    same_content n1 n2 \/ collision h1 h2 h3 (hashed T s1 p1 n1) (hashed T s2 p2 n2).
  Proof.
    induction k as [|k IH]; intros n1 n2 p1 p2 r1 r2 L1 L2 E1 E2 E.
    - destruct n1 as [nm c|nm ?|nm ?]; try (destruct L1; fail). destruct n2 as [nm' c'|nm' ?|nm' ?]; try (destruct L2; fail).
      cbn [hash_tree] in E1, E2. injection E1 as <-. injection E2 as <-. cbn [hval fh_hash] in E. apply fp_text_inj in E.
      destruct (list_eq_dec Z.eq_dec c c') as [<-|N]; [left; constructor|]. right. exists c, c'. cbn. auto.
    - destruct n1 as [nm c|nm [ks1|]|nm ?]; try (destruct L1; fail). destruct n2 as [nm' c'|nm' [ks2|]|nm' ?]; try (destruct L2; fail).
      cbn [level] in L1, L2. cbn [hash_tree] in E1, E2. cbn [hashed].
      destruct (all_some (map _ ks1)) as [u1|] eqn:A1; [|discriminate]. destruct (all_some (map _ ks2)) as [u2|] eqn:A2; [|discriminate].
      injection E1 as <-. injection E2 as <-. cbn [hval fh_hash] in E. apply fp_text_inj in E.
      set (d1 := concat (map (fun v => fh_hash (hval v)) (s1 u1))) in *. set (d2 := concat (map (fun v => fh_hash (hval v)) (s2 u2))) in *.
      destruct (list_eq_dec Z.eq_dec d1 d2) as [Ed|N]; [|right; exists d1, d2; cbn; auto].
      apply all_some_spec in A1, A2. apply forall2_map_some in A1, A2.
      assert (Len : forall srt p ks u, Forall2 (fun k v => hash_tree T srt (path_joins p [node_name k]) k = Some v) ks u -> forall u', Permutation u' u ->
                Forall (fun x => length x = 51%nat) (map (fun v => fh_hash (hval v)) u')).
      { intros srt p ks u F u' P. apply Forall_map. eapply Permutation_Forall; [apply Permutation_sym, P|].
        clear - F G. induction F; constructor; auto. eapply hash_len; eauto. }
      assert (Em : map (fun v => fh_hash (hval v)) (s1 u1) = map (fun v => fh_hash (hval v)) (s2 u2)).
      { apply (concat_len_inj 51); [lia| | |exact Ed]; [eapply (Len s1 p1 ks1 u1 A1), H1|eapply (Len s2 p2 ks2 u2 A2), H2]. }
      (* children in the order of the sorted results *)
      assert (Fl : forall (R : fnode -> hnode -> Prop) l u, Forall2 R l u -> Forall2 (fun v k => R k v) u l) by (clear; intros R l u F; induction F; constructor; auto).
      destruct (perm_forall2 _ _ _ (proj1 (H1 u1)) _ (Fl _ _ _ A1)) as (q1 & F1 & P1).
      destruct (perm_forall2 _ _ _ (proj1 (H2 u2)) _ (Fl _ _ _ A2)) as (q2 & F2 & P2).
      assert (Lq1 : Forall (level k) q1) by (eapply Permutation_Forall; [apply Permutation_sym, P1|exact L1]).
      assert (Lq2 : Forall (level k) q2) by (eapply Permutation_Forall; [apply Permutation_sym, P2|exact L2]).
      set (g1 := fun k => hashed T s1 (path_joins p1 [node_name k]) k). set (g2 := fun k => hashed T s2 (path_joins p2 [node_name k]) k).
      assert (C : Forall2 same_content q1 q2 \/ collision h1 h2 h3 (flat_map g1 q1) (flat_map g2 q2)).
      { clear - IH F1 F2 Em Lq1 Lq2. revert q2 F2 Lq2 Em Lq1. generalize (s2 u2) as w2. induction F1 as [|v k1 w1 q1 Hv F1 IHf]; intros w2 q2 F2 Lq2 Em Lq1.
        - destruct w2; [|discriminate]. inversion F2; subst. left. constructor.
        - destruct w2 as [|v' w2]; [discriminate|]. inversion F2 as [|? k2 ? q2' Hv' F2']; subst. cbn [map] in Em. injection Em as Eh Em.
          apply Forall_cons_iff in Lq1 as [Lk1 Lq1]. apply Forall_cons_iff in Lq2 as [Lk2 Lq2].
          destruct (IH _ _ _ _ _ _ Lk1 Lk2 Hv Hv' Eh) as [Sm|(x & y & Hx & Hy & Nxy & D)].
          + destruct (IHf w2 q2' F2' Lq2 Em Lq1) as [Sf|(x & y & Hx & Hy & Nxy & D)].
            * left. constructor; auto.
            * right. exists x, y. cbn [flat_map]. repeat split; auto; apply in_or_app; auto.
          + right. exists x, y. cbn [flat_map]. repeat split; auto; apply in_or_app; auto. }
      destruct C as [C|(x & y & Hx & Hy & Nxy & D)].
      + left. destruct (perm_forall2 _ _ _ (Permutation_sym P1) _ C) as (q & F & P). eapply same_dir; [exact F|]. now transitivity q2.
      + right. exists x, y. split; [|split; [|auto]]; apply in_or_app; right.
        * eapply Permutation_in; [apply Permutation_flat_map, P1|exact Hx].
        * eapply Permutation_in; [apply Permutation_flat_map, P2|exact Hy].
  Qed.
End Distinguish.

(** ** There is such a sort *)
Fixpoint ins (v : hnode) (l : list hnode) : list hnode :=
  match l with
  | [] => [v]
  | w :: l' => if node_less w v then w :: ins v l' else v :: l
  end.
Definition isort (l : list hnode) : list hnode := fold_right ins [] l.
Lemma bytes_total a : forall b, bytes_lt a b \/ a = b \/ bytes_lt b a.
Proof.
  induction a as [|x a IH]; intros [|y b]; auto; [left; constructor|right; right; constructor|].
  destruct (Z.lt_trichotomy x y) as [H|[<-|H]]; [left; now constructor| |right; right; now constructor].
  destruct (IH b) as [H|[<-|H]]; [left; now constructor|auto|right; right; now constructor].
Qed.
Lemma less_cases a b : fh_less a b = false -> (fh_size a = fh_size b /\ fh_hash a = fh_hash b) \/ fh_less b a = true.
Proof.
  intros H. destruct (fh_less b a) eqn:E; auto. left.
  assert (N : forall x y, fh_less x y = false -> ~ (fh_size x < fh_size y \/ (fh_size x = fh_size y /\ bytes_lt (fh_hash x) (fh_hash y)))).
  { intros x y F Q. apply fh_less_spec in Q. congruence. }
  apply N in H. apply N in E. assert (fh_size a = fh_size b) by lia. split; auto.
  destruct (bytes_total (fh_hash a) (fh_hash b)) as [Q|[Q|Q]]; auto; exfalso; [apply H|apply E]; right; split; auto.
Qed.
Lemma less_trans a b c : fh_less a b = true -> fh_less b c = true -> fh_less a c = true.
Proof.
  rewrite !fh_less_spec. intros [H|[H H']] [K|[K K']]; try (left; lia). right. split; [lia|]. eapply bytes_lt_trans; eauto.
Qed.
Lemma less_irrefl a : fh_less a a = false.
Proof.
  destruct (fh_less a a) eqn:E; auto. apply fh_less_spec in E as [E|[_ E]]; [lia|]. now apply bytes_lt_irrefl in E.
Qed.
Lemma less_asym a b : fh_less a b = true -> fh_less b a = false.
Proof. intros H. destruct (fh_less b a) eqn:E; auto. pose proof (less_trans _ _ _ H E). rewrite less_irrefl in *. discriminate. Qed.
Lemma nless_trans a b c : fh_less b a = false -> fh_less c b = false -> fh_less c a = false.
Proof.
  intros H K. destruct (fh_less c a) eqn:E; auto. exfalso.
  destruct (less_cases _ _ H) as [[S1 S2]|L].
  - assert (fh_less c b = true); [|congruence]. apply fh_less_spec in E. apply fh_less_spec. rewrite S1, S2. exact E.
  - pose proof (less_trans _ _ _ E L). congruence.
Qed.
Lemma isort_sorts : sorts isort.
Proof.
  assert (PI : forall v l, Permutation (ins v l) (v :: l)).
  { intros v l. induction l as [|w l IH]; [reflexivity|]. cbn [ins]. destruct (node_less w v); [|reflexivity].
    rewrite IH. apply perm_swap. }
  assert (SI : forall v l, StronglySorted (fun a b => node_less b a = false) l -> StronglySorted (fun a b => node_less b a = false) (ins v l)).
  { intros v l S. induction S as [|w l S IH F]; [constructor; constructor|]. cbn [ins]. destruct (node_less w v) eqn:E.
    - constructor; auto. eapply Permutation_Forall; [apply Permutation_sym, PI|]. constructor; auto. now apply less_asym.
    - constructor; [constructor; auto|]. constructor; auto. eapply Forall_impl; [|exact F]. intros x Hx. cbn beta in *. eapply nless_trans; [exact E|exact Hx]. }
  intros l. induction l as [|v l [P S]]; [split; constructor|]. cbn [isort fold_right]. fold (isort l). split; auto. rewrite PI. now constructor.
Qed.
(** Sorted children: the smaller ones first. *)
Lemma ascending srt l i j a b : sorts srt -> nth_error (srt l) i = Some a -> nth_error (srt l) j = Some b -> fh_size (hval a) < fh_size (hval b) -> (i < j)%nat.
Proof.
  intros Hs Ha Hb L. destruct (Hs l) as [_ S]. destruct (Nat.lt_trichotomy i j) as [H|[H|H]]; auto; exfalso.
  - subst j. rewrite Ha in Hb. injection Hb as <-. lia.
  - assert (Q : node_less a b = false).
    { clear - Ha Hb H S. revert i j Ha Hb H. induction S as [|x l0 S IH F]; intros i j Ha Hb H; [destruct i; discriminate|].
      destruct j as [|j]; [|destruct i as [|i]; [lia|]; cbn in Ha, Hb; apply (IH i j); auto; lia].
      destruct i as [|i]; [lia|]. cbn in Ha, Hb. injection Hb as <-. rewrite Forall_forall in F. apply F. eapply nth_error_In; eauto. }
    assert (node_less a b = true); [|congruence]. apply fh_less_spec. auto.
Qed.
Lemma less_facts a b :
  (fh_less a b = true <-> fh_size a < fh_size b \/ (fh_size a = fh_size b /\ bytes_lt (fh_hash a) (fh_hash b))) /\
  (fh_less a b = false -> fh_less b a = false -> fh_size a = fh_size b /\ fh_hash a = fh_hash b).
Proof.
  split; [apply fh_less_spec|]. intros H K. destruct (less_cases _ _ H) as [Q|Q]; [auto|congruence].
Qed.
Lemma hash_same' text s1 s2 n1 n2 p1 p2 : sorts s1 -> sorts s2 -> same_content n1 n2 ->
  match hash_tree text s1 p1 n1, hash_tree text s2 p2 n2 with
  | Some a, Some b => fh_hash (hval a) = fh_hash (hval b) /\ fh_size (hval a) = fh_size (hval b) /\ fh_isdir (hval a) = fh_isdir (hval b)
  | None, None => True
  | _, _ => False
  end.
Proof.
  intros H1 H2 S. pose proof (hash_same text s1 s2 H1 H2 n1 n2 p1 p2 S) as A. unfold agree in A.
  destruct (hash_tree text s1 p1 n1) as [a|], (hash_tree text s2 p2 n2) as [b|]; auto.
  destruct A as [K I]. unfold key in K. injection K as K1 K2. auto.
Qed.
Lemma statistic_all n : readable n -> statistic (0, 0, 0) n = (dirs n, zlen (contents n), total_size n mod 2 ^ 64).
Proof. intros R. rewrite (statistic_spec n R 0 0 0); [reflexivity|lia]. Qed.
Lemma hash_readable text srt : forall n p r, hash_tree text srt p n = Some r -> readable n.
Proof.
  induction n as [nm c|nm b|nm|nm kids IH] using fnode_ind2; intros p r; cbn [hash_tree]; try discriminate; [constructor|].
  destruct (all_some _) as [subs|] eqn:E; [|discriminate]. intros _. apply all_some_spec in E. constructor. apply Forall_forall. intros k Hk.
  assert (In (hash_tree text srt (path_joins p [node_name k]) k) (map Some subs)) as Hi
    by (rewrite <- E; apply (in_map (fun k => hash_tree text srt (path_joins p [node_name k]) k)); auto).
  apply in_map_iff in Hi as (v & Hv & _). rewrite Forall_forall in IH. symmetry in Hv. eapply IH; eauto.
Qed.
Lemma hash_error text srt n p : hash_tree text srt p n = None <-> ~ readable n.
Proof.
  split.
  - intros E R. destruct (readable_hash text srt n R p) as [r Hr]. congruence.
  - intros R. destruct (hash_tree text srt p n) as [r|] eqn:E; auto. exfalso. apply R. eapply hash_readable; eauto.
Qed.
Lemma hash_errors h1 h2 h3 h salt srt n p : (fingerprint h1 h2 h3 srt p n = None <-> ~ readable n) /\ (hash_with h salt srt p n = None <-> ~ readable n).
Proof. split; apply hash_error. Qed.

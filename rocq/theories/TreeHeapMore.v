From Coq Require Import ZArith List Bool Arith Lia Permutation Sorted ZifyBool ZifyNat.
From Verif Require Import GoBase GoLists ConcBase SortSliceModel SortSliceSpec SortSliceProofs TreeModel TreeSpec TreeProofs TreeHeapModel TreeHeapSpec TreeHeapProofs.
Import ListNotations.
Open Scope Z_scope.

Local Notation kid := (option nat).

(** ** Fuel *)
Section Least.
Variable N : nat.
Variable nd : nat -> kid -> Prop.
Hypothesis dec : forall f p, nd f p \/ ~ nd f p.
Hypothesis mono : forall f p, nd f p -> nd (S f) p.
Hypothesis nil1 : nd 1 None.
Hypothesis zero : forall p, ~ nd 0 p.
Definition inb (p : kid) := forall a, p = Some a -> (a < N)%nat.
Hypothesis down : forall g a, (a < N)%nat -> nd (S (S g)) (Some a) -> ~ nd (S g) (Some a) -> exists c, inb c /\ nd (S g) c /\ ~ nd g c.
Lemma mono_le f f' p : (f <= f')%nat -> nd f p -> nd f' p.
Proof. induction 1; auto. Qed.
Lemma chain m : forall p, inb p -> nd (S m) p -> ~ nd m p ->
  exists l, length l = m /\ NoDup l /\ forall x, In x l -> (x < N)%nat /\ nd (S m) (Some x).
Proof.
  induction m as [|g IH]; intros p Hp H1 H2.
  - exists []. repeat split; try constructor; cbn in *; tauto.
  - destruct p as [a|]; [|exfalso; apply H2; apply (mono_le 1); [lia|auto]].
    destruct (down g a (Hp a eq_refl) H1 H2) as (c & Hc & K1 & K2).
    destruct (IH c Hc K1 K2) as (l & L & ND & Hl). exists (a :: l). split; [cbn; lia|]. split.
    + constructor; auto. intros I. destruct (Hl a I) as [_ K]. auto.
    + intros x [<-|I]; [split; auto|]. destruct (Hl x I). split; auto.
Qed.
Lemma enough f p : inb p -> nd f p -> nd (S N) p.
Proof.
  intros Hp. induction f as [|f IH]; intros H; [now apply zero in H|].
  destruct (dec f p) as [K|K]; [auto|].
  destruct (chain f p Hp H K) as (l & L & ND & Hl).
  apply (mono_le (S f)); auto. cut (length l <= length (seq 0 N))%nat; [rewrite seq_length; lia|].
  apply NoDup_incl_length; auto. intros x I. apply in_seq. destruct (Hl x I). lia.
Qed.
End Least.

(** ** All *)
Section All.
Variable w : hworld.
Fixpoint lists (f : nat) (ks : list kid) : outcome (list Z) :=
  match ks with
  | [] => Ok []
  | c :: ks => r <- all_rec f w c ;; rs <- lists f ks ;; Ok (r ++ rs)
  end.
Lemma fold_lists f ks : forall acc, fold_left (fun acc c => l <- acc ;; r <- all_rec f w c ;; Ok (l ++ r)) ks acc =
  (l <- acc ;; r <- lists f ks ;; Ok (l ++ r)).
Proof.
  induction ks as [|c ks IH]; intros acc; cbn [fold_left lists].
  - destruct acc; cbn; auto. now rewrite app_nil_r.
  - rewrite IH. destruct acc; cbn; auto. destruct (all_rec f w c); cbn; auto. destruct (lists f ks); cbn; auto. now rewrite app_assoc.
Qed.
Lemma all_eq f a : all_rec (S f) w (Some a) = (r <- lists f (children w a) ;; Ok (value w a :: r)).
Proof. cbn [all_rec deref bind]. rewrite fold_lists. cbn [bind]. reflexivity. Qed.
Lemma lists_ext f g ks : (forall c, In c ks -> all_rec f w c <> Diverge -> all_rec g w c = all_rec f w c) ->
  lists f ks <> Diverge -> lists g ks = lists f ks.
Proof.
  induction ks as [|c ks IH]; intros H D; auto. cbn in *.
  destruct (all_rec f w c) as [r| |] eqn:E; cbn in *.
  - rewrite (H c (or_introl eq_refl)), E by (rewrite E; discriminate). cbn. rewrite IH; auto.
    intros X. rewrite X in D. auto.
  - rewrite (H c (or_introl eq_refl)), E by (rewrite E; discriminate). reflexivity.
  - congruence.
Qed.
Lemma all_mono f : forall p, all_rec f w p <> Diverge -> all_rec (S f) w p = all_rec f w p.
Proof.
  induction f as [|f IH]; intros p H; [now cbn in H|].
  destruct p as [a|]; [|reflexivity]. rewrite (all_eq f) in *. rewrite (all_eq (S f)).
  rewrite (lists_ext f (S f)); auto. intros X. rewrite X in H. auto.
Qed.
Lemma all_mono_le f g p : (f <= g)%nat -> all_rec f w p <> Diverge -> all_rec g w p = all_rec f w p.
Proof. induction 1; intros D; auto. rewrite all_mono; auto. rewrite IHle; auto. Qed.
Lemma lists_down f ks : lists (S f) ks <> Diverge -> lists f ks = Diverge ->
  exists c, In c ks /\ all_rec (S f) w c <> Diverge /\ all_rec f w c = Diverge.
Proof.
  induction ks as [|c ks IH]; intros H D; [discriminate|]. cbn [lists] in *.
  destruct (all_rec f w c) as [r| |] eqn:E; cbn [bind] in D.
  - rewrite all_mono, E in H by (rewrite E; discriminate). cbn [bind] in H.
    destruct IH as (c' & I & K).
    + intros X. rewrite X in H. auto.
    + destruct (lists f ks); cbn in D; congruence.
    + exists c'. split; [right|]; tauto.
  - discriminate.
  - exists c. split; [left; auto|]. split; auto. intros X. rewrite X in H. auto.
Qed.
Lemma all_enough f p : HI w -> (forall a, p = Some a -> (a < hw_next w)%nat) -> all_rec f w p <> Diverge -> all_rec (S (hw_next w)) w p = all_rec f w p.
Proof.
  intros I Hp H.
  assert (D : all_rec (S (hw_next w)) w p <> Diverge).
  { refine (enough (hw_next w) (fun f p => all_rec f w p <> Diverge) _ _ _ _ _ f p Hp H).
    - intros f0 p0. destruct (all_rec f0 w p0); [left|left|right]; congruence.
    - intros f0 p0 K. now rewrite all_mono.
    - discriminate.
    - intros p0 K. now apply K.
    - intros g a Ha K1 K2. rewrite all_eq in K1, K2.
      assert (K3 : lists g (children w a) = Diverge) by (destruct (lists g (children w a)); auto; exfalso; apply K2; discriminate).
      destruct (lists_down g (children w a)) as (c & Ic & K4 & K5); auto.
      + intros X. rewrite X in K1. auto.
      + exists c. split; [|split; auto]. intros x ->. eapply i_cl; eauto. }
  destruct (Nat.le_ge_cases f (S (hw_next w))) as [L|L]; [now apply all_mono_le|]. symmetry. now apply all_mono_le.
Qed.
End All.

Scheme below_mut := Induction for below Sort Prop with below_list_mut := Induction for below_list Sort Prop.
Combined Scheme below_both from below_mut, below_list_mut.

Lemma all_node {V} (v : V) ts : all (Node v ts) = v :: flat_map all ts.
Proof. cbn [all]. rewrite fold_left_app_concat. reflexivity. Qed.

Lemma below_all w : (forall a t, below w a t -> exists f, all_rec f w (Some a) = Ok (all (valued w t))) /\
  (forall ks ts, below_list w ks ts -> exists f, lists w f ks = Ok (flat_map all (map (valued w) ts))).
Proof.
  apply (below_both w (fun a t _ => exists f, all_rec f w (Some a) = Ok (all (valued w t)))
    (fun ks ts _ => exists f, lists w f ks = Ok (flat_map all (map (valued w) ts)))).
  - intros a ts _ (f & E). exists (S f). rewrite all_eq, E. cbn [bind valued]. now rewrite all_node.
  - exists 0%nat. reflexivity.
  - intros c cs t ts _ (f & E) _ (g & F). exists (f + g)%nat. cbn [lists].
    rewrite (all_mono_le w f) by (try lia; rewrite E; discriminate). rewrite E. cbn [bind].
    rewrite (lists_ext w g (f + g)) by (rewrite ?F; try discriminate; intros; apply all_mono_le; auto; lia).
    rewrite F. reflexivity.
Qed.
Lemma all_below w f : forall a l, all_rec f w (Some a) = Ok l -> exists t, below w a t /\ l = all (valued w t).
Proof.
  induction f as [|f IH]; intros a l H; [discriminate|]. rewrite all_eq in H.
  destruct (lists w f (children w a)) as [r| |] eqn:E; try discriminate. cbn in H. injection H as <-.
  assert (K : exists ts, below_list w (children w a) ts /\ r = flat_map all (map (valued w) ts)).
  { clear -E IH. revert r E. induction (children w a) as [|c ks IHk]; intros r E; cbn in E.
    - injection E as <-. exists []. split; [constructor|reflexivity].
    - destruct (all_rec f w c) as [r1| |] eqn:E1; try discriminate. cbn in E.
      destruct (lists w f ks) as [r2| |]; try discriminate. cbn in E. injection E as <-.
      destruct c as [c|]; [|destruct f; discriminate]. destruct (IH c r1 E1) as (t & B & ->).
      destruct (IHk r2 eq_refl) as (ts & Bs & ->). exists (t :: ts). split; [constructor; auto|reflexivity]. }
  destruct K as (ts & B & ->). exists (Node a ts). split; [constructor; auto|]. cbn [valued]. now rewrite all_node.
Qed.

Lemma below_unique w : (forall a t, below w a t -> forall t', below w a t' -> t' = t) /\
  (forall ks ts, below_list w ks ts -> forall ts', below_list w ks ts' -> ts' = ts).
Proof.
  apply (below_both w (fun a t _ => forall t', below w a t' -> t' = t) (fun ks ts _ => forall ts', below_list w ks ts' -> ts' = ts)).
  - intros a ts _ IH t' B. inversion B; subst. f_equal. auto.
  - intros ts' B. inversion B; auto.
  - intros c cs t ts _ IH1 _ IH2 ts' B. inversion B; subst. f_equal; auto.
Qed.
Lemma below_kid w a t : below w a t -> forall c, In c (children w a) -> exists x s, c = Some x /\ below w x s /\ In s (tchildren t).
Proof.
  intros B. inversion B as [a' ts L]; subst. clear B. cbn [tchildren].
  revert L. generalize (children w a). intros ks L c. induction L as [|c' ks t ts B _ IH]; [now intros []|].
  intros [<-|I].
  - exists c', t. cbn. auto.
  - destruct (IH I) as (x & s & E & Bs & Is). exists x, s. cbn. auto.
Qed.
Lemma reach_below w a b : reach w a b -> forall t, below w a t -> exists s, below w b s /\ (height s <= height t)%nat.
Proof.
  induction 1 as [|b c _ IH I]; intros t B; [eauto|].
  destruct (IH t B) as (s & Bs & L). destruct (below_kid w b s Bs (Some c) I) as (x & u & [= <-] & Bu & Iu).
  exists u. split; auto. apply height_child in Iu. lia.
Qed.
Lemma cycle_not_below w a b c t : reach w a b -> In (Some c) (children w b) -> reach w c b -> below w a t -> False.
Proof.
  intros R I R' B. destruct (reach_below w a b R t B) as (s & Bs & _).
  destruct (below_kid w b s Bs (Some c) I) as (x & u & [= <-] & Bu & Iu).
  destruct (reach_below w c b R' u Bu) as (s' & Bs' & L). pose proof (proj1 (below_unique w) b s Bs s' Bs') as ->.
  apply height_child in Iu. lia.
Qed.

Lemma below_bound w a t : HI w -> (a < hw_next w)%nat -> below w a t -> forall b, In b (all t) -> (b < hw_next w)%nat.
Proof.
  intros I Ha B.
  assert (G : (forall a t, below w a t -> (a < hw_next w)%nat -> forall b, In b (all t) -> (b < hw_next w)%nat) /\
    (forall ks ts, below_list w ks ts -> (forall c, In (Some c) ks -> (c < hw_next w)%nat) -> forall b, In b (flat_map all ts) -> (b < hw_next w)%nat)).
  { apply (below_both w (fun a t _ => (a < hw_next w)%nat -> forall b, In b (all t) -> (b < hw_next w)%nat)
      (fun ks ts _ => (forall c, In (Some c) ks -> (c < hw_next w)%nat) -> forall b, In b (flat_map all ts) -> (b < hw_next w)%nat)).
    - intros a0 ts _ IH Ha0 b. rewrite all_node. intros [<-|J]; auto. apply IH; auto. intros c. apply I.
    - intros _ b [].
    - intros c cs t0 ts _ IH1 _ IH2 Hc b. cbn. intros J. apply in_app_or in J. destruct J as [J|J].
      + apply IH1; auto. apply Hc. cbn. auto.
      + apply IH2; auto. intros c' I'. apply Hc. cbn. auto. }
  eapply (proj1 G); eauto.
Qed.

Lemma height_max {V} (ts : list (tree V)) v : ts <> [] -> exists s, In s ts /\ height (Node v ts) = S (height s).
Proof.
  cbn [height]. induction ts as [|t ts IH]; intros H; [congruence|]. cbn [fold_right].
  destruct ts as [|t' ts]; [exists t; cbn; split; auto; lia|].
  destruct IH as (s & I & E); [discriminate|]. rewrite E.
  destruct (Nat.max_dec (S (height t)) (S (height s))) as [X|X]; rewrite X; [exists t|exists s]; cbn; auto.
Qed.
Lemma below_child w a t s : below w a t -> In s (tchildren t) -> exists c, In (Some c) (children w a) /\ below w c s.
Proof.
  intros B. inversion B as [a' ts L]; subst. clear B. cbn [tchildren].
  revert L. generalize (children w a). intros ks L. induction L as [|c' ks t ts B _ IH]; [now intros []|].
  intros [<-|I]; [exists c'; cbn; auto|]. destruct (IH I) as (c & Ic & Bc). exists c. cbn. auto.
Qed.
Lemma below_height w : HI w -> forall a t, (a < hw_next w)%nat -> below w a t -> (height t < hw_next w)%nat.
Proof.
  intros I a t Ha B.
  assert (G : forall n a t, height t = n -> (a < hw_next w)%nat -> below w a t ->
    exists l, length l = S n /\ NoDup l /\ forall x, In x l -> (x < hw_next w)%nat /\ exists s, below w x s /\ (height s <= n)%nat).
  { induction n as [|n IH]; intros a0 t0 Hn Ha0 B0.
    - exists [a0]. split; auto. split; [repeat constructor; cbn; tauto|]. intros x [<-|[]]. split; auto. exists t0. split; auto. lia.
    - destruct t0 as [v ts]. destruct (height_max ts v) as (s & Is & Es); [intros ->; discriminate|].
      destruct (below_child w a0 _ s B0 Is) as (c & Ic & Bc).
      destruct (IH c s) as (l & L & ND & Hl); [lia|eapply i_cl; eauto|auto|].
      exists (a0 :: l). split; [cbn; lia|]. split.
      + constructor; auto. intros J. destruct (Hl a0 J) as (_ & s' & Bs' & L'). pose proof (proj1 (below_unique w) _ _ B0 s' Bs') as ->. lia.
      + intros x [<-|J]; [split; auto; exists (Node v ts); split; auto; lia|].
        destruct (Hl x J) as (K1 & s' & K2 & K3). split; auto. exists s'. split; auto. }
  destruct (G _ a t eq_refl Ha B) as (l & L & ND & Hl).
  cut (length l <= length (seq 0 (hw_next w)))%nat; [rewrite seq_length; lia|].
  apply NoDup_incl_length; auto. intros x J. apply in_seq. destruct (Hl x J). lia.
Qed.

Lemma step_all srt grow w a : (a < hw_next w)%nat -> h_step srt grow w (HAll a) = (l <- all_rec (S (hw_next w)) w (Some a) ;; Ok (w, HList l)).
Proof. intros H. cbn [h_step]. rewrite ptr_lt by auto. reflexivity. Qed.
Lemma all_of_tree srt grow w a t l : HI w -> (a < hw_next w)%nat -> below w a t -> Preorder (valued w t) l ->
  h_step srt grow w (HAll a) = Ok (w, HList l).
Proof.
  intros I Ha B P. rewrite step_all by auto. destruct (proj1 (below_all w) a t B) as (f & E).
  rewrite (all_enough w f) by (auto; try congruence; intros ? [= <-]; auto). rewrite E. apply preorder_unique in P as ->. reflexivity.
Qed.
Lemma all_only_tree srt grow w a w' o : h_step srt grow w (HAll a) = Ok (w', o) ->
  exists t l, (a < hw_next w)%nat /\ below w a t /\ Preorder (valued w t) l /\ o = HList l.
Proof.
  cbn [h_step]. destruct (ptr_of w a) as [b|] eqn:E.
  - apply ptr_some in E as (-> & Ha). destruct (all_rec (S (hw_next w)) w (Some a)) as [l| |] eqn:E; cbn [bind]; try discriminate.
    intros [= <- <-]. apply all_below in E as (t & B & ->). exists t, (all (valued w t)). repeat split; auto. apply all_preorder.
  - discriminate.
Qed.
Lemma all_diverges srt grow w a : HI w -> (h_step srt grow w (HAll a) = Diverge <-> forall f, all_rec f w (ptr_of w a) = Diverge).
Proof.
  intros I. change (h_step srt grow w (HAll a)) with (l <- all_rec (S (hw_next w)) w (ptr_of w a) ;; Ok (w, HList l)). split.
  - intros H f. assert (D : all_rec (S (hw_next w)) w (ptr_of w a) = Diverge) by (destruct (all_rec _ w (ptr_of w a)); auto; discriminate).
    destruct (all_rec f w (ptr_of w a)) as [l| |] eqn:E; auto; exfalso;
      rewrite (all_enough w f) in D; try (rewrite ?E in *; congruence); auto; intros b Eb; apply ptr_some in Eb; lia.
  - intros H. now rewrite H.
Qed.

(** ** Panics *)
Lemma sort_total srt w a : (exists w', sort_children srt w (Some a) = Ok w') \/
  sort_children srt w (Some a) = Panic /\ (2 <= length (children w a))%nat /\ In None (children w a).
Proof.
  rewrite sort_eq. destruct (Nat.leb_spec (length (children w a)) 1); [eauto|].
  destruct (vals_panic w (children w a)) as [E|((l & E) & _)]; rewrite E; cbn; [|eauto]. right. split; auto. split; [lia|].
  clear H. induction (children w a) as [|[c|] ks IH]; cbn in *; auto; try discriminate.
  right. apply IH. destruct (vals w ks); cbn in *; congruence.
Qed.
Lemma sort_nil srt w a : (2 <= length (children w a))%nat -> In None (children w a) -> sort_children srt w (Some a) = Panic.
Proof.
  intros L N. rewrite sort_eq. destruct (Nat.leb_spec (length (children w a)) 1); [lia|].
  destruct (vals_panic w (children w a)) as [->|(_ & K)]; [reflexivity|contradiction].
Qed.

(** The model of AES computes what the formulas of the standard say: proofs for AesProps. *)
From Coq Require Import ZArith List Bool Lia.
From Coq Require Import ZifyBool ZifyNat.
From Verif Require Import GoBase CryptoSpec AesModel AesSpec AesProofs.
Import ListNotations.
Open Scope Z_scope.

Lemma std_sub_eq : forall x, byte x -> std_sub x = sub_byte x.
Proof. intros x Hx. apply Z.eqb_eq. exact (all_byte (fun x => std_sub x =? sub_byte x) ltac:(vm_compute; reflexivity) x Hx). Qed.
Lemma map_sub_eq : forall n s, good n s -> map std_sub s = map sub_byte s.
Proof.
  intros n s [H _]. apply map_ext_in. intros x Hx. apply std_sub_eq. unfold bytes in H. rewrite Forall_forall in H. now apply H.
Qed.
Lemma std_shift_eq : forall s, std_shift s = shift_rows s.
Proof. reflexivity. Qed.
Lemma gmul_field : forall c x, In c consts -> byte x -> gmul c x = field_mul c x.
Proof.
  intros c x Hc Hx. pose proof (all_byte (fun x => forallb (fun c => gmul c x =? field_mul c x) consts) ltac:(vm_compute; reflexivity) x Hx) as H.
  cbv beta in H. rewrite forallb_forall in H. apply Z.eqb_eq. now apply H.
Qed.
Lemma std_mix_eq : forall s, good 16 s -> std_mix s = mix_columns s.
Proof.
  intros s H. destruct (in16 s H) as (a & b & c & d & e & f & g & h & i & j & k & l & m & n & o & p & ->).
  destruct H as [H _]. unfold bytes in H. bytes_of H.
  unfold mix_columns. cbn [mix_all]. unfold mix_column. cbn [app].
  assert (G : forall q x, In q consts -> 0 <= x < 256 -> gmul q x = field_mul q x) by (intros; now apply gmul_field).
  rewrite !G by (assumption || (cbn; tauto)).
  cbv [std_mix]. cbn [map seq fold_right nth Nat.add Nat.sub Nat.mul Nat.modulo Nat.div Nat.divmod fst snd].
  rewrite !Z.lxor_0_r. reflexivity.
Qed.
Lemma std_xor_eq : forall a b, std_xor a b = add_key a b.
Proof. reflexivity. Qed.

(** ** The key schedule *)
Lemma xtime_field : forall x, byte x -> xtime x = field_mul 2 x.
Proof. intros x Hx. apply Z.eqb_eq. exact (all_byte (fun x => xtime x =? field_mul 2 x) ltac:(vm_compute; reflexivity) x Hx). Qed.
Lemma rcon_S : forall i, (0 < i)%nat -> std_rcon (S i) = field_mul 2 (std_rcon i).
Proof. intros [|i] H; [lia|reflexivity]. Qed.
Lemma expand_prefix : forall n i nk rc ws, exists rest, expand n i nk rc ws = rev ws ++ rest.
Proof.
  induction n as [|n IH]; intros i nk rc ws; [exists []; cbn; now rewrite app_nil_r|]. cbn [expand]. cbv zeta.
  assert (K : forall i rc w, exists rest, expand n i nk rc (w :: ws) = rev ws ++ rest).
  { intros i' rc' w. destruct (IH i' nk rc' (w :: ws)) as (r & ->). cbn [rev]. rewrite <- app_assoc. eauto. }
  destruct (i mod nk =? 0)%nat; [apply K|]. destruct ((6 <? nk) && (i mod nk =? 4))%nat%bool; apply K.
Qed.
Lemma rc_word : forall t rc, good 4 t -> match t with x :: r => Z.lxor x rc :: r | [] => [] end = std_xor t [rc; 0; 0; 0].
Proof.
  intros t rc [_ L]. do 4 (destruct t as [|? t]; [discriminate|]). destruct t; [|discriminate].
  unfold std_xor. cbn [combine map fst snd]. now rewrite !Z.lxor_0_r.
Qed.
Definition std_temp (nk i : nat) (p : list Z) : list Z :=
  if (i mod nk =? 0)%nat then std_xor (map std_sub (skipn 1 p ++ firstn 1 p)) [std_rcon (i / nk); 0; 0; 0]
  else if ((6 <? nk) && (i mod nk =? 4))%nat%bool then map std_sub p else p.
Lemma up_div : forall i nk, (0 < nk)%nat -> 
  ((i mod nk = 0)%nat -> ((i + nk - 1) / nk = i / nk)%nat /\ ((S i + nk - 1) / nk = S (i / nk))%nat) /\
  ((i mod nk <> 0)%nat -> ((i + nk - 1) / nk = (S i + nk - 1) / nk)%nat).
Proof.
  intros i nk H. pose proof (Nat.div_mod i nk ltac:(lia)) as E. pose proof (Nat.mod_upper_bound i nk ltac:(lia)) as M.
  set (q := (i / nk)%nat) in *. set (r := (i mod nk)%nat) in *. split; intro R.
  - split; symmetry; [apply (Nat.div_unique _ _ _ (nk - 1))|apply (Nat.div_unique _ _ _ 0)]; lia.
  - transitivity (S q); [symmetry; apply (Nat.div_unique _ _ _ (r - 1)); lia|].
    apply (Nat.div_unique _ _ _ r); lia.
Qed.
Lemma rev_nth_mid : forall (ws : list (list Z)) k, (k < length ws)%nat -> nth k (rev ws) [] = nth (length ws - S k) ws [].
Proof. intros. now apply rev_nth. Qed.
Lemma expand_ok : forall nk, (0 < nk)%nat -> forall n i rc ws, byte rc -> Forall (good 4) ws -> length ws = i -> (nk <= i)%nat ->
  rc = std_rcon ((i + nk - 1) / nk) ->
  let l := expand n i nk rc ws in
  forall j, (i <= j < i + n)%nat -> nth j l [] = std_xor (nth (j - nk) l []) (std_temp nk j (nth (j - 1) l [])).
Proof.
  intros nk Hnk. induction n as [|n IH]; intros i rc ws Hrc Hws Li Hi Erc l j Hj; [lia|].
  assert (Ht : good 4 (hd [] ws)) by (destruct ws; [cbn in Li; lia|now inversion Hws]).
  pose proof (nth_good ws (nk - 1) Hws ltac:(lia)) as Ho.
  destruct (up_div i nk Hnk) as [UD1 UD2].
  (* one step *)
  assert (K : exists rc' w, l = expand n (S i) nk rc' (add_key (nth (nk - 1) ws []) w :: ws) /\ good 4 w /\
     byte rc' /\ rc' = std_rcon ((S i + nk - 1) / nk) /\ w = std_temp nk i (hd [] ws)).
  { unfold l. cbn [expand]. cbv zeta. unfold std_temp. destruct (i mod nk =? 0)%nat eqn:Em.
    - apply Nat.eqb_eq in Em. destruct (UD1 Em) as [U1 U2]. rewrite U1 in Erc.
      pose proof (word_rot _ Ht) as Gr. pose proof (sub_word _ Gr) as Gs.
      eexists _, _. split; [reflexivity|].
      rewrite (rc_word _ rc Gs). split; [|split; [|split]].
      + assert (GR : good 4 [rc; 0; 0; 0]) by (split; [repeat (apply Forall_cons; [unfold byte in *; lia|]); constructor|reflexivity]).
        apply (add_good 4 _ _ Gs GR).
      + now apply xtime_byte.
      + rewrite xtime_field by auto. rewrite U2, rcon_S, Erc; [reflexivity|]. apply Nat.div_str_pos. lia.
      + rewrite Erc. f_equal. symmetry. destruct (hd [] ws) eqn:Eh; exact (map_sub_eq 4 _ Gr).
    - apply Nat.eqb_neq in Em. rewrite (UD2 Em) in Erc. destruct ((6 <? nk) && (i mod nk =? 4))%nat%bool.
      + eexists _, _. split; [reflexivity|]. split; [now apply sub_word|]. split; [exact Hrc|]. split; [exact Erc|].
        symmetry. now apply (map_sub_eq 4).
      + eexists _, _. split; [reflexivity|]. split; [exact Ht|]. split; [exact Hrc|]. split; [exact Erc|reflexivity]. }
  destruct K as (rc' & w & El & Gw & Hrc' & Erc' & Ew).
  destruct (Nat.eq_dec j i) as [->|Nj].
  - destruct (expand_prefix n (S i) nk rc' (add_key (nth (nk - 1) ws []) w :: ws)) as (rest & Er). rewrite El, Er. cbn [rev].
    rewrite <- app_assoc. cbn [app].
    rewrite (app_nth2 (rev ws)) by (rewrite rev_length; lia). rewrite rev_length, Li, Nat.sub_diag. cbn [nth].
    rewrite !app_nth1 by (rewrite rev_length; lia). rewrite !rev_nth_mid by lia. rewrite Li.
    replace (i - S (i - nk))%nat with (nk - 1)%nat by lia. replace (i - S (i - 1))%nat with 0%nat by lia.
    rewrite Ew. unfold std_xor, add_key. destruct ws; reflexivity.
  - rewrite El. apply (IH (S i) rc' (add_key (nth (nk - 1) ws []) w :: ws)); auto; try (cbn [length]; lia).
    constructor; auto. now apply add_good.
Qed.
Lemma words_nth : forall n key, length key = (4 * n)%nat -> forall i, (i < n)%nat -> nth i (words key) [] = firstn 4 (skipn (4 * i) key).
Proof.
  induction n as [|n IH]; intros key L i Hi; [lia|].
  replace (4 * S n)%nat with (S (S (S (S (4 * n))))) in L by lia.
  do 4 (destruct key as [|? key]; [discriminate|]). cbn [words]. destruct i as [|i]; [reflexivity|].
  cbn [nth]. replace (4 * S i)%nat with (S (S (S (S (4 * i))))) by lia. cbn [skipn]. apply IH; [cbn in L; lia|lia].
Qed.
Lemma round_keys_nth : forall n ws, length ws = (4 * n)%nat -> forall r, (r < n)%nat ->
  nth r (round_keys ws) [] = std_key (fun i => nth i ws []) r.
Proof.
  induction n as [|n IH]; intros ws L r Hr; [lia|].
  replace (4 * S n)%nat with (S (S (S (S (4 * n))))) in L by lia.
  do 4 (destruct ws as [|? ws]; [discriminate|]). cbn [round_keys]. destruct r as [|r]; [reflexivity|].
  cbn [nth]. rewrite (IH ws) by (cbn in L; lia). unfold std_key.
  replace (4 * S r)%nat with (S (S (S (S (4 * r))))) by lia. reflexivity.
Qed.

Lemma schedule_std : forall nk key, bytes key -> length key = (4 * nk)%nat -> (0 < nk)%nat ->
  exists w, std_schedule nk key w /\ forall r, (r < nk + 7)%nat -> nth r (key_schedule key) [] = std_key w r.
Proof.
  intros nk key Hk L Hnk. destruct (words_good nk key Hk L) as [W1 W2].
  set (l := expand (4 * (nk + 7) - nk) nk nk 1 (rev (words key))). exists (fun i => nth i l []).
  destruct (expand_good (4 * (nk + 7) - nk) nk nk 1 (rev (words key))) as [E1 E2].
  { unfold byte. lia. } { now apply Forall_rev. } { rewrite rev_length. lia. }
  fold l in E1, E2. rewrite rev_length, W2 in E2.
  split; [split|].
  - intros i Hi. destruct (expand_prefix (4 * (nk + 7) - nk) nk nk 1 (rev (words key))) as (rest & Er).
    fold l in Er. rewrite Er, rev_involutive, app_nth1 by lia. now apply (words_nth nk).
  - intros i Hi. pose proof (expand_ok nk Hnk (4 * (nk + 7) - nk) nk 1 (rev (words key))) as X.
    apply X; try lia.
    + unfold byte. lia.
    + now apply Forall_rev.
    + now rewrite rev_length.
    + replace ((nk + nk - 1) / nk)%nat with 1%nat; [reflexivity|]. apply (Nat.div_unique _ _ _ (nk - 1)); lia.
  - intros r Hr. unfold key_schedule. cbv zeta. rewrite W2. fold l. apply (round_keys_nth (nk + 7)); lia.
Qed.

(** ** The rounds *)
Lemma rounds_std : forall w b ms k0, good 16 b -> good 16 k0 -> Forall (good 16) ms ->
  k0 = std_key w 0 -> (forall r, (r < length ms)%nat -> nth r ms [] = std_key w (S r)) ->
  std_state w b (length ms) = fold_left rnd ms (add_key b k0) /\ good 16 (std_state w b (length ms)).
Proof.
  intros w b ms k0 Hb H0 Hms E0. induction ms as [|k ms IH] using rev_ind; intro Hr.
  - cbn. rewrite E0. split; [reflexivity|]. rewrite <- E0. now apply add_good.
  - apply Forall_app in Hms. destruct Hms as [Hms Hk]. apply Forall_inv in Hk.
    destruct (IH Hms) as [I1 I2].
    { intros r Lr. rewrite <- (Hr r) by (rewrite app_length; lia). now rewrite app_nth1. }
    rewrite app_length. cbn [length]. rewrite Nat.add_1_r. cbn [std_state]. rewrite fold_left_app. cbn [fold_left].
    assert (Ek : k = std_key w (S (length ms))).
    { rewrite <- (Hr (length ms)) by (rewrite app_length; cbn; lia). rewrite app_nth2, Nat.sub_diag by lia. reflexivity. }
    rewrite <- Ek, <- I1. rewrite (map_sub_eq 16 _ I2), std_shift_eq.
    pose proof (sr_good _ I2) as [G _]. unfold sr in G. rewrite (std_mix_eq _ G). split; [reflexivity|]. apply rnd_good; auto.
Qed.
Lemma aes_std : forall nk key, nk = 4%nat \/ nk = 6%nat \/ nk = 8%nat -> bytes key -> length key = (4 * nk)%nat ->
  exists w, std_schedule nk key w /\ forall b, bytes b -> length b = 16%nat -> aes_E key b = std_cipher (nk + 6) w b.
Proof.
  intros nk key Hnk Hk L. assert (Hn : (0 < nk)%nat) by lia.
  destruct (schedule_std nk key Hk L Hn) as (w & S1 & S2). exists w. split; [exact S1|]. intros b Hb Lb.
  destruct (schedule_shape nk key Hk L Hn) as (k0 & ms & kl & E & G0 & Gm & Gl).
  destruct (schedule_good nk key Hk L Hn) as [_ LS]. rewrite E in *. cbn [length] in LS. rewrite app_length in LS. cbn [length] in LS.
  assert (Lm : length ms = (nk + 5)%nat) by lia.
  destruct (rounds_std w b ms k0) as [R1 R2]; auto.
  { now split. } { apply (S2 0%nat). lia. }
  { intros r Hr. rewrite <- (S2 (S r)) by lia. cbn [nth]. now rewrite app_nth1. }
  unfold aes_E. rewrite E, cipher_rounds_eq. unfold std_cipher. replace (nk + 6 - 1)%nat with (length ms) by lia.
  rewrite R1 in *. rewrite (map_sub_eq 16 _ R2). rewrite std_shift_eq. fold (sr (fold_left rnd ms (add_key b k0))).
  rewrite <- (S2 (nk + 6)%nat) by lia. replace (nk + 6)%nat with (S (length ms)) by lia. cbn [nth].
  rewrite app_nth2, Nat.sub_diag by lia. reflexivity.
Qed.

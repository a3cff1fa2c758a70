From Coq Require Import ZifyBool Psatz FinFun.
From Verif Require Import Lib.Py Lib.PyFacts Model.Index Spec.IndexSpec Proofs.IndexProofs.
Open Scope Z_scope.
Set Default Proof Using "Type".

(** ** row-major lists of positions *)
Definition rows_list (lo hi : Z -> Z) (a b : Z) : list (Z * Z) :=
  flat_map (fun r => map (fun c => (r, c)) (zrange (lo r) (hi r))) (zrange a b).

Lemma rows_list_length lo hi P a b : a <= b ->
  P a = 0 -> (forall r, a <= r < b -> lo r <= hi r /\ P (r + 1) = P r + (hi r - lo r)) ->
  Z.of_nat (List.length (rows_list lo hi a b)) = P b /\ 0 <= P b.
Proof.
  intros Hab H0. replace b with (a + (b - a)) by lia.
  assert (H : 0 <= b - a) by lia. revert H. generalize (b - a) as k. z_ind.
  - rewrite Z.add_0_r. intros _. unfold rows_list. rewrite zrange_nil by lia. cbn. lia.
  - intros k Hk IH Hr. replace (a + Z.succ k) with (a + k + 1) by lia.
    destruct IH as [IH1 IH2]; [intros; apply Hr; lia|].
    unfold rows_list in *. rewrite zrange_snoc by lia. rewrite flat_map_app, app_length.
    cbn [flat_map]. rewrite app_nil_r, map_length, zrange_length.
    destruct (Hr (a + k)) as [H1 H2]; [lia|]. lia.
Qed.

Lemma nth_error_zrange a b i : a <= i < b -> nth_error (zrange a b) (Z.to_nat (i - a)) = Some i.
Proof.
  intros H. unfold zrange.
  rewrite nth_error_map.
  rewrite (nth_error_nth' _ 0%nat) by (rewrite seq_length; lia).
  rewrite seq_nth by lia. cbn. f_equal. lia.
Qed.

Lemma rows_list_nth lo hi P a b r c : a <= b ->
  P a = 0 -> (forall r, a <= r < b -> lo r <= hi r /\ P (r + 1) = P r + (hi r - lo r)) ->
  a <= r < b -> lo r <= c < hi r ->
  nth_error (rows_list lo hi a b) (Z.to_nat (P r + c - lo r)) = Some (r, c).
Proof.
  intros Hab H0 Hr Hra Hc.
  unfold rows_list. rewrite (zrange_app a r b) by lia. rewrite flat_map_app.
  fold (rows_list lo hi a r).
  destruct (rows_list_length lo hi P a r) as [H1 H2]; [lia|auto|intros; apply Hr; lia|].
  rewrite nth_error_app2 by lia.
  rewrite (zrange_cons r b) by lia. cbn [flat_map].
  rewrite nth_error_app1 by (rewrite map_length, zrange_length; lia).
  rewrite nth_error_map.
  replace (Z.to_nat (P r + c - lo r) - List.length (rows_list lo hi a r))%nat
    with (Z.to_nat (c - lo r)) by lia.
  rewrite nth_error_zrange by lia. reflexivity.
Qed.

Lemma rows_list_NoDup lo hi a b : NoDup (rows_list lo hi a b).
Proof. apply NoDup_flat_map_pairs; intros; apply zrange_NoDup. Qed.

Lemma filter_zrange (p : Z -> bool) lo hi a b : lo <= a -> a <= b -> b <= hi ->
  (forall c, lo <= c < hi -> p c = (a <=? c) && (c <? b)) ->
  filter p (zrange lo hi) = zrange a b.
Proof.
  intros H1 H2 H3 Hp.
  rewrite (zrange_app lo a hi), (zrange_app a b hi) by lia.
  rewrite !filter_app.
  assert (E1 : filter p (zrange lo a) = []).
  { rewrite (filter_ext_in _ (fun _ => false)).
    - clear. induction (zrange lo a); auto.
    - intros c Hc. apply in_zrange in Hc. rewrite Hp; lia. }
  assert (E2 : filter p (zrange b hi) = []).
  { rewrite (filter_ext_in _ (fun _ => false)).
    - clear. induction (zrange b hi); auto.
    - intros c Hc. apply in_zrange in Hc. rewrite Hp; lia. }
  assert (E3 : filter p (zrange a b) = zrange a b).
  { rewrite (filter_ext_in _ (fun _ => true)).
    - clear. induction (zrange a b); cbn; congruence.
    - intros c Hc. apply in_zrange in Hc. rewrite Hp; lia. }
  rewrite E1, E2, E3. now rewrite app_nil_r.
Qed.

Lemma flat_map_ext_in {X Y} (f g : X -> list Y) l :
  (forall x, In x l -> f x = g x) -> flat_map f l = flat_map g l.
Proof.
  induction l as [|x l IH]; intros H; cbn; [reflexivity|].
  rewrite H by (left; auto). f_equal. apply IH. intros; apply H; right; auto.
Qed.

Lemma where2_rows rows cols mask lo hi :
  (forall r, 0 <= r < rows -> 0 <= lo r /\ lo r <= hi r /\ hi r <= cols /\
     forall c, 0 <= c < cols -> mask r c = (lo r <=? c) && (c <? hi r)) ->
  where2 rows cols mask = rows_list lo hi 0 rows.
Proof.
  intros H. unfold where2, rows_list. apply flat_map_ext_in.
  intros r Hr. apply in_zrange in Hr. destruct (H r Hr) as (H1 & H2 & H3 & H4).
  rewrite (filter_zrange _ 0 cols (lo r) (hi r)); auto; lia.
Qed.

Lemma in_rows_list lo hi a b r c :
  In (r, c) (rows_list lo hi a b) <-> a <= r < b /\ lo r <= c < hi r.
Proof. unfold rows_list. rewrite in_flat_map_pairs, !in_zrange. lia. Qed.

(** ** the triangular masks *)
Lemma tri_positions_rows L : 1 <= L ->
  tri_positions L = rows_list (fun r => L - 1 - r) (fun r => L + r) 0 L.
Proof. intros HL. unfold tri_positions. apply where2_rows. intros r Hr. repeat split; lia. Qed.

Lemma tri_positions_nth L el m : 1 <= L -> valid_lm L el m ->
  nth_error (tri_positions L) (Z.to_nat (elm2ind el m)) = Some (el, L - 1 + m).
Proof.
  intros HL [H1 H2]. rewrite tri_positions_rows by assumption.
  replace (elm2ind el m) with (el * el + (L - 1 + m) - (L - 1 - el)) by (unfold elm2ind; lia).
  apply (rows_list_nth _ _ (fun r => r * r)); lia.
Qed.

Lemma tri_positions_length L : 1 <= L -> Z.of_nat (List.length (tri_positions L)) = L * L.
Proof.
  intros HL. rewrite tri_positions_rows by assumption.
  apply (rows_list_length _ _ (fun r => r * r)); lia.
Qed.

Lemma tri_positions_NoDup L : 1 <= L -> NoDup (tri_positions L).
Proof. intros. rewrite tri_positions_rows by assumption. apply rows_list_NoDup. Qed.

Lemma in_tri_positions L el c : 1 <= L ->
  In (el, c) (tri_positions L) <-> valid_lm L el (c - (L - 1)).
Proof.
  intros. rewrite tri_positions_rows by assumption. rewrite in_rows_list. unfold valid_lm. lia.
Qed.

(** ** scatter and gather *)
Lemma combine_nth {X} (l : list X) : forall n p k s,
  n = s + Z.of_nat (List.length l) ->
  In (k, p) (combine (zrange s n) l) -> s <= k /\ nth_error l (Z.to_nat (k - s)) = Some p.
Proof.
  induction l as [|x l IH]; intros n p k s Hn Hin.
  - cbn [List.length] in Hn. rewrite zrange_nil in Hin by lia. destruct Hin.
  - cbn [List.length] in Hn. rewrite zrange_cons in Hin by lia. cbn [combine] in Hin.
    destruct Hin as [Heq|Hin].
    + injection Heq; intros; subst. rewrite Z.sub_diag. cbn. split; [lia|reflexivity].
    + destruct (IH n p k (s + 1)) as [H1 H2]; [lia|exact Hin|]. split; [lia|].
      replace (Z.to_nat (k - s)) with (S (Z.to_nat (k - (s + 1)))) by lia. exact H2.
Qed.

Lemma nth_combine {X} (l : list X) : forall n p k s,
  n = s + Z.of_nat (List.length l) -> s <= k ->
  nth_error l (Z.to_nat (k - s)) = Some p -> In (k, p) (combine (zrange s n) l).
Proof.
  induction l as [|x l IH]; intros n p k s Hn Hk Hp.
  - destruct (Z.to_nat (k - s)); discriminate.
  - cbn [List.length] in Hn. rewrite zrange_cons by lia. cbn [combine].
    destruct (Z.eq_dec k s) as [->|Hne].
    + rewrite Z.sub_diag in Hp. cbn in Hp. injection Hp as ->. left; reflexivity.
    + right. apply IH; [lia|lia|].
      replace (Z.to_nat (k - s)) with (S (Z.to_nat (k - (s + 1)))) in Hp by lia. exact Hp.
Qed.

Lemma NoDup_combine_l {X Y} (l : list X) (l' : list Y) : NoDup l -> NoDup (combine l l').
Proof.
  revert l'; induction l as [|x l IH]; intros [|y l'] H; cbn; try constructor; inversion H; subst.
  - intros Hin. apply in_combine_l in Hin. auto.
  - auto.
Qed.

Lemma scatter2_spec {A} (a v : ndarray A) pos n :
  shape v = [n] -> n = Z.of_nat (List.length pos) -> NoDup pos ->
  (forall r c, In (r, c) pos -> in_shape (shape a) [r; c]) ->
  exists o, scatter2 a pos v = Ok o /\ shape o = shape a /\
    (forall k r c, 0 <= k -> nth_error pos (Z.to_nat k) = Some (r, c) -> get o [r; c] = get v [k]) /\
    (forall r c, ~ In (r, c) pos -> get o [r; c] = get a [r; c]).
Proof.
  intros Hv Hn Hnd Hin. unfold scatter2. rewrite Hv.
  replace (negb (n =? Z.of_nat (List.length pos))) with false by lia.
  destruct (write_loop (fun kp : Z * (Z * Z) => [fst (snd kp); snd (snd kp)])
      (fun kp => get v [fst kp])
      (fun out kp => let '(k, (r, c)) := kp in awrite out [r; c] (get v [k]))
      (combine (zrange 0 n) pos) a) as (o & E & S1 & G1 & G2).
  - intros a' [k [r c]] _ _. reflexivity.
  - intros [k [r c]] H. apply in_combine_r in H. cbn [fst snd]. auto.
  - apply NoDup_combine_l, zrange_NoDup.
  - intros [k [r c]] [k' [r' c']] H1 H2 Heq. cbn [fst snd] in Heq.
    injection Heq; intros; subst r' c'.
    destruct (combine_nth pos n (r, c) k 0) as [A1 A2]; [lia|auto|].
    destruct (combine_nth pos n (r, c) k' 0) as [B1 B2]; [lia|auto|].
    rewrite Z.sub_0_r in A2, B2.
    assert (Z.to_nat k = Z.to_nat k').
    { apply (proj1 (NoDup_nth_error pos) Hnd); [|congruence].
      apply nth_error_Some. congruence. }
    f_equal. lia.
  - exists o. split; [exact E|]. split; [exact S1|]. split.
    + intros k r c Hk Hp. apply (G1 (k, (r, c))). apply nth_combine; [lia|lia|].
      now rewrite Z.sub_0_r.
    + intros r c H. apply G2. intros [k [r' c']] H1 Heq. cbn [fst snd] in Heq.
      injection Heq; intros; subst. apply in_combine_r in H1. auto.
Qed.

Section Fast.
  Context {A : Type} (zero : A).

  Lemma flm_1d_to_2d_fast_eq (f : ndarray A) L : 1 <= L -> shape f = [L * L] ->
    exists g h, flm_1d_to_2d zero f L = Ok g /\ flm_1d_to_2d_fast zero f L = Ok h /\ arr_eq h g.
  Proof.
    intros HL Hs.
    destruct (flm_1d_to_2d_spec zero f L HL Hs) as (g & E1 & S1 & G1 & T1).
    destruct (scatter2_spec (zeros zero [L; 2 * L - 1]) f (tri_positions L) (L * L))
      as (h & E2 & S2 & G2 & G3).
    { exact Hs. } { now rewrite tri_positions_length. } { now apply tri_positions_NoDup. }
    { intros r c H. apply in_tri_positions in H; [|auto]. unfold valid_lm in H. shp. }
    exists g, h. split; [exact E1|]. split; [exact E2|]. cbn [shape zeros] in S2.
    split; [rewrite S1, S2; reflexivity|].
    intros idx Hin. rewrite S2 in Hin.
    destruct (idx2_split L idx Hin) as (el & m & -> & H1 & H2).
    destruct (Z_le_dec (- el) m); [destruct (Z_le_dec m el)|].
    - rewrite G1 by (split; lia). apply G2; [unfold elm2ind; nia|].
      apply tri_positions_nth; [auto|split; lia].
    - rewrite T1 by (auto; unfold valid_lm; lia). rewrite G3; [reflexivity|].
      rewrite in_tri_positions by auto. unfold valid_lm; lia.
    - rewrite T1 by (auto; unfold valid_lm; lia). rewrite G3; [reflexivity|].
      rewrite in_tri_positions by auto. unfold valid_lm; lia.
  Qed.

  Lemma flm_2d_to_1d_fast_eq (f : ndarray A) L : 1 <= L -> shape f = flm_shape L ->
    exists g, flm_2d_to_1d zero f L = Ok g /\ arr_eq (flm_2d_to_1d_fast zero f L) g.
  Proof.
    intros HL Hs.
    destruct (flm_2d_to_1d_spec zero f L HL Hs) as (g & E1 & S1 & G1).
    exists g. split; [exact E1|]. split.
    - cbn. rewrite tri_positions_length by auto. auto.
    - intros idx Hin. cbn [flm_2d_to_1d_fast gather2 shape] in Hin.
      rewrite tri_positions_length in Hin by auto.
      destruct idx as [|k [|]]; cbn [in_shape] in Hin; try tauto.
      destruct (ind2elm_valid L k HL (proj1 Hin)) as [Hv Hk].
      rewrite <- Hk at 2. rewrite (G1 _ _ Hv).
      cbn [flm_2d_to_1d_fast gather2 get].
      rewrite <- Hk at 1. rewrite tri_positions_nth by auto. reflexivity.
  Qed.

  (** *** healpy ordering *)
  Lemma triu0_rows L : 1 <= L ->
    triu_indices (L + 1) 0 L = rows_list (fun r => r) (fun _ => L) 0 (L + 1).
  Proof. intros HL. unfold triu_indices. apply where2_rows. intros r Hr. repeat split; lia. Qed.

  Lemma triu1_rows L : 1 <= L ->
    triu_indices L 1 L = rows_list (fun r => r + 1) (fun _ => L) 0 L.
  Proof. intros HL. unfold triu_indices. apply where2_rows. intros r Hr. repeat split; lia. Qed.

  Lemma half_mul M a b : 2 * a = M * b -> M * b / 2 = a.
  Proof. intros H. rewrite <- H. rewrite Z.mul_comm. apply Z.div_mul. lia. Qed.

  Lemma even_prod r k : (r * (2 * k + 1 - r)) = 2 * (r * (2 * k + 1 - r) / 2).
  Proof.
    pose proof (hp_getidx_eq (k + 1) 0 r) as H. unfold hp_getidx in H.
    replace (2 * (k + 1) - 1 - r) with (2 * k + 1 - r) in H by lia. lia.
  Qed.

  Lemma triu0_nth L el m : 1 <= L -> valid_lm_pos L el m ->
    nth_error (triu_indices (L + 1) 0 L) (Z.to_nat (hp_getidx L el m)) = Some (m, el).
  Proof.
    intros HL [H1 H2]. rewrite triu0_rows by auto.
    pose proof (hp_getidx_eq L el m) as E. pose proof (even_prod m L) as E2.
    replace (hp_getidx L el m) with (m * (2 * L + 1 - m) / 2 + el - m) by lia.
    apply (rows_list_nth (fun r => r) (fun _ => L) (fun r => r * (2 * L + 1 - r) / 2) 0 (L+1) m el); try lia.
    - reflexivity.
    - intros r Hr. split; [lia|]. pose proof (even_prod r L). pose proof (even_prod (r + 1) L). lia.
  Qed.

  Lemma triu0_length L : 1 <= L ->
    Z.of_nat (List.length (triu_indices (L + 1) 0 L)) = L * (L + 1) / 2.
  Proof.
    intros HL. rewrite triu0_rows by auto.
    destruct (rows_list_length (fun r => r) (fun _ => L) (fun r => r * (2 * L + 1 - r) / 2) 0 (L + 1))
      as [H _]; try lia.
    - reflexivity.
    - intros r Hr. split; [lia|]. pose proof (even_prod r L). pose proof (even_prod (r + 1) L). lia.
    - rewrite H. f_equal. lia.
  Qed.

  Lemma flm_2d_to_hp_fast_eq (f : ndarray A) L : 1 <= L -> shape f = flm_shape L ->
    exists g, flm_2d_to_hp zero f L = Ok g /\ arr_eq (flm_2d_to_hp_fast zero f L) g.
  Proof.
    intros HL Hs.
    destruct (flm_2d_to_hp_spec zero f L HL Hs) as (g & E1 & S1 & G1).
    exists g. split; [exact E1|]. split.
    - cbn [shape flm_2d_to_hp_fast gather2]. rewrite map_length, triu0_length by auto. auto.
    - intros idx Hin. cbn [flm_2d_to_hp_fast gather2 shape] in Hin.
      rewrite map_length, triu0_length in Hin by auto.
      destruct idx as [|k [|]]; cbn [in_shape] in Hin; try tauto.
      destruct (hp_getidx_surj L k HL (proj1 Hin)) as (el & m & Hv & <-).
      rewrite (G1 _ _ Hv).
      cbn [flm_2d_to_hp_fast gather2 get].
      rewrite nth_error_map, triu0_nth by auto. reflexivity.
  Qed.

  Definition mel (L : Z) := map (fun p => (fst p + 1, snd p)) (triu_indices L 1 L).

  Lemma mel_nth L el m : 1 <= L -> valid_lm_pos L el m -> 1 <= m ->
    nth_error (mel L) (Z.to_nat (hp_getidx L el m - L)) = Some (m, el) /\ 0 <= hp_getidx L el m - L.
  Proof.
    intros HL [H1 H2] Hm. unfold mel. rewrite triu1_rows by auto.
    pose proof (hp_getidx_eq L el m) as E. pose proof (even_prod (m - 1) (L - 1)) as E2.
    rewrite nth_error_map.
    replace (hp_getidx L el m - L)
      with ((m - 1) * (2 * (L - 1) + 1 - (m - 1)) / 2 + el - ((m - 1) + 1)) by lia.
    assert (0 <= (m - 1) * (2 * (L - 1) + 1 - (m - 1))) by nia.
    rewrite (rows_list_nth (fun r => r + 1) (fun _ => L) (fun r => r * (2 * (L - 1) + 1 - r) / 2)
      0 L (m - 1) el); try lia.
    - cbn [option_map fst snd]. split; [do 2 f_equal; lia|lia].
    - reflexivity.
    - intros r Hr. split; [lia|].
      pose proof (even_prod r (L - 1)). pose proof (even_prod (r + 1) (L - 1)). lia.
  Qed.

  Lemma mel_length L : 1 <= L -> Z.of_nat (List.length (mel L)) = L * (L + 1) / 2 - L.
  Proof.
    intros HL. unfold mel. rewrite map_length, triu1_rows by auto.
    destruct (rows_list_length (fun r => r + 1) (fun _ => L)
      (fun r => r * (2 * (L - 1) + 1 - r) / 2) 0 L) as [H _]; try lia.
    - reflexivity.
    - intros r Hr. split; [lia|].
      pose proof (even_prod r (L - 1)). pose proof (even_prod (r + 1) (L - 1)). lia.
    - rewrite H. pose proof (even_prod L (L - 1)). pose proof (half_even L). lia.
  Qed.

  Lemma in_mel L el m : 1 <= L -> In (m, el) (mel L) <-> valid_lm_pos L el m /\ 1 <= m.
  Proof.
    intros HL. unfold mel. rewrite triu1_rows by auto. rewrite in_map_iff. split.
    - intros ([r c] & Heq & Hin). apply in_rows_list in Hin. injection Heq; intros; subst.
      unfold valid_lm_pos. cbn [fst snd] in *. lia.
    - intros [Hv Hm]. exists (m - 1, el). split; [cbn; f_equal; lia|].
      apply in_rows_list. unfold valid_lm_pos in Hv. lia.
  Qed.

  Lemma mel_NoDup L : 1 <= L -> NoDup (mel L).
  Proof.
    intros HL. unfold mel. apply FinFun.Injective_map_NoDup.
    - intros [a b] [c d] H. cbn in H. injection H; intros. f_equal; lia.
    - rewrite triu1_rows by auto. apply rows_list_NoDup.
  Qed.

  Lemma nth_map_lo {B C} (f : B -> C) l k x :
    nth_error l k = Some x -> nth_error (map f l) k = Some (f x).
  Proof. intros H. rewrite nth_error_map, H. reflexivity. Qed.

End Fast.

Section FastHp.
  Context {A : Type} (zero : A) (neg conj : A -> A).

  Lemma flm_hp_to_2d_fast_eq (f : ndarray A) L : 1 <= L -> shape f = [L * (L + 1) / 2] ->
    exists g h, flm_hp_to_2d zero neg conj f L = Ok g /\
      flm_hp_to_2d_fast zero neg conj f L = Ok h /\ arr_eq h g.
  Proof.
    intros HL Hs.
    destruct (flm_hp_to_2d_spec zero neg conj f L HL Hs) as (g & E1 & S1 & G1 & R1 & T1).
    unfold flm_hp_to_2d_fast. fold (mel L).
    pose proof (mel_length L HL) as Hlen.
    destruct (scatter2_spec (zeros zero [L; 2 * L - 1]) (slice_to f L)
      (map (fun r => (r, L - 1)) (zrange 0 L)) L) as (h1 & F1 & P1 & Q1 & U1).
    { reflexivity. } { rewrite map_length, zrange_length. lia. }
    { apply FinFun.Injective_map_NoDup; [intros a b; congruence|apply zrange_NoDup]. }
    { intros r c H. apply in_map_iff in H. destruct H as (r' & Heq & Hin). apply in_zrange in Hin.
      injection Heq; intros; subst. shp. }
    rewrite F1. cbn [bind].
    destruct (scatter2_spec h1 (slice_from zero f L)
      (map (fun p => (snd p, L - 1 + fst p)) (mel L)) (L * (L + 1) / 2 - L))
      as (h2 & F2 & P2 & Q2 & U2).
    { unfold slice_from. rewrite Hs. reflexivity. } { rewrite map_length. lia. }
    { apply FinFun.Injective_map_NoDup; [|now apply mel_NoDup].
      intros [a b] [c d] H. cbn in H. injection H; intros. f_equal; lia. }
    { intros r c H. apply in_map_iff in H. destruct H as ([m el] & Heq & Hin).
      apply in_mel in Hin; [|auto]. cbn [fst snd] in Heq. injection Heq; intros; subst.
      unfold valid_lm_pos in Hin. rewrite P1. shp. }
    rewrite F2. cbn [bind].
    match goal with |- context [scatter2 h2 ?p ?v] => 
      destruct (scatter2_spec h2 v p (L * (L + 1) / 2 - L)) as (h & F3 & P3 & Q3 & U3) end.
    { cbn [shape]. unfold slice_from. rewrite Hs. reflexivity. } { rewrite map_length. lia. }
    { apply FinFun.Injective_map_NoDup; [|now apply mel_NoDup].
      intros [a b] [c d] H. cbn in H. injection H; intros. f_equal; lia. }
    { intros r c H. apply in_map_iff in H. destruct H as ([m el] & Heq & Hin).
      apply in_mel in Hin; [|auto]. cbn [fst snd] in Heq. injection Heq; intros; subst.
      unfold valid_lm_pos in Hin. rewrite P2, P1. shp. }
    exists g, h. split; [exact E1|]. split; [exact F3|].
    assert (SH : shape h = flm_shape L) by (rewrite P3, P2, P1; reflexivity).
    split; [congruence|].
    assert (NP : forall el m, 0 <= m -> ~ In (el, L - 1 + m)
       (map (fun p => (snd p, L - 1 - fst p)) (mel L))).
    { intros el m Hm Hin. apply in_map_iff in Hin. destruct Hin as ([m' el'] & Heq & Hin).
      apply in_mel in Hin; [|auto]. cbn [fst snd] in Heq. injection Heq; intros; subst. lia. }
    assert (NQ : forall el m, m <= 0 \/ el < m -> ~ In (el, L - 1 + m)
       (map (fun p => (snd p, L - 1 + fst p)) (mel L))).
    { intros el m Hm Hin. apply in_map_iff in Hin. destruct Hin as ([m' el'] & Heq & Hin).
      apply in_mel in Hin; [|auto]. unfold valid_lm_pos in Hin.
      cbn [fst snd] in Heq. injection Heq; intros; subst. lia. }
    assert (NN : forall el m, el < m \/ m < - el -> ~ In (el, L - 1 + m)
       (map (fun p => (snd p, L - 1 - fst p)) (mel L))).
    { intros el m Hm Hin. apply in_map_iff in Hin. destruct Hin as ([m' el'] & Heq & Hin).
      apply in_mel in Hin; [|auto]. unfold valid_lm_pos in Hin.
      cbn [fst snd] in Heq. injection Heq; intros; subst. lia. }
    assert (NZ : forall el m, m <> 0 -> ~ In (el, L - 1 + m)
       (map (fun r => (r, L - 1)) (zrange 0 L))).
    { intros el m Hm Hin. apply in_map_iff in Hin. destruct Hin as (r & Heq & Hin).
      injection Heq; intros; subst. lia. }
    intros idx Hin. rewrite SH in Hin.
    destruct (idx2_split L idx Hin) as (el & m & -> & H1 & H2).
    assert (HZ : get h [el; L - 1 + m] = zero \/ valid_lm L el m).
    { destruct (Z_le_dec (- el) m); [destruct (Z_le_dec m el); [right; split; lia|]|].
      - left. rewrite U3, U2, U1; [reflexivity|apply NZ; lia|apply NQ; lia|apply NN; lia].
      - left. rewrite U3, U2, U1; [reflexivity|apply NZ; lia|apply NQ; lia|apply NN; lia]. }
    destruct (Z_le_dec (- el) m); [destruct (Z_le_dec m el)|].
    2,3: rewrite T1 by (auto; unfold valid_lm; lia); destruct HZ as [HZ|HZ];
         [exact HZ|unfold valid_lm in HZ; lia].
    clear HZ.
    destruct (Z.lt_trichotomy m 0) as [Hm|[Hm|Hm]].
    - replace (L - 1 + m) with (L - 1 - (- m)) by lia.
      rewrite R1 by lia. rewrite G1 by (split; lia).
      destruct (mel_nth L el (- m)) as [N1 N2]; [auto|split; lia|lia|].
      rewrite (Q3 (hp_getidx L el (- m) - L)).
      + cbn [get]. rewrite N1. unfold sgn_pow, slice_from. rewrite Hs. cbn [get].
        rewrite Z.sub_add. destruct (Z.even (- m)); reflexivity.
      + auto.
      + rewrite (nth_map_lo _ _ _ _ N1). cbn. reflexivity.
    - subst m. rewrite G1 by (split; lia).
      rewrite U3 by (apply NP; lia). rewrite U2 by (apply NQ; lia).
      rewrite (Q1 (hp_getidx L el 0)).
      + reflexivity.
      + pose proof (hp_getidx_eq L el 0); lia.
      + replace (hp_getidx L el 0) with (el - 0) by (unfold hp_getidx; cbn; lia).
        rewrite nth_error_map, nth_error_zrange by lia. cbn. do 2 f_equal. lia.
    - rewrite G1 by (split; lia). rewrite U3 by (apply NP; lia).
      destruct (mel_nth L el m) as [N1 N2]; [auto|split; lia|lia|].
      rewrite (Q2 (hp_getidx L el m - L)).
      + unfold slice_from. rewrite Hs. cbn [get]. rewrite Z.sub_add. reflexivity.
      + auto.
      + rewrite (nth_map_lo _ _ _ _ N1). reflexivity.
  Qed.
End FastHp.

(** ** C05: Wigner layouts *)
Lemma elmn2ind_split el m n L N : elmn2ind el m n L N = (N - 1 + n) * (L * L) + elm2ind el m.
Proof. unfold elmn2ind, elm2ind. ring. Qed.

Lemma elmn2ind_bijection L N : 1 <= L -> 1 <= N ->
  bijection3 (fun n el m => valid_lmn L N el m n) (fun n el m => elmn2ind el m n L N)
    (flmn_shape_1d L N).
Proof.
  intros HL HN. unfold valid_lmn, flmn_shape_1d. split; [|split].
  - intros n el m [Hv Hn]. rewrite elmn2ind_split.
    pose proof (elm2ind_range L el m Hv). nia.
  - intros n el m n' el' m' [Hv Hn] [Hv' Hn'] E. rewrite !elmn2ind_split in E.
    pose proof (elm2ind_range L el m Hv) as R1. pose proof (elm2ind_range L el' m' Hv') as R2.
    assert (n = n') by nia. subst n'.
    destruct (elm2ind_inj el m el' m'); try (unfold valid_lm in *; lia).
  - intros k Hk.
    assert (HLL : 0 < L * L) by nia.
    pose proof (Z.div_mod k (L * L) ltac:(lia)) as D.
    pose proof (Z.mod_pos_bound k (L * L) HLL) as B.
    destruct (ind2elm_valid L (k mod (L * L)) HL B) as [Hv HE].
    exists (k / (L * L) - (N - 1)), (fst (ind2elm (k mod (L * L)))), (snd (ind2elm (k mod (L * L)))).
    assert (0 <= k / (L * L)) by (apply Z.div_pos; lia).
    assert (k / (L * L) < 2 * N - 1) by (apply Z.div_lt_upper_bound; nia).
    split; [split; [exact Hv|lia]|].
    rewrite elmn2ind_split, HE. lia.
Qed.

Section Wig.
  Context {A : Type} (zero : A).

  Definition lmn_list (L N : Z) : list (Z * (Z * Z)) :=
    flat_map (fun n => map (fun p => (n, p)) (lm_pairs L)) (zrange (- N + 1) N).

  Lemma in_lmn L N n el m : In (n, (el, m)) (lmn_list L N) <-> valid_lmn L N el m n.
  Proof.
    unfold lmn_list. rewrite in_flat_map_pairs, in_zrange, in_lm_pairs. unfold valid_lmn. intuition lia.
  Qed.
  Lemma lmn_NoDup L N : NoDup (lmn_list L N).
  Proof. apply NoDup_flat_map_pairs; intros; [apply zrange_NoDup|apply lm_pairs_NoDup]. Qed.

  Lemma triple_loop {S} (f : S -> Z -> Z -> Z -> result S) L N s :
    foldM (fun s n => foldM (fun s el => foldM (fun s m => f s n el m) (zrange (- el) (el + 1)) s)
       (zrange 0 L) s) (zrange (- N + 1) N) s
    = foldM (fun s t => f s (fst t) (fst (snd t)) (snd (snd t))) (lmn_list L N) s.
  Proof.
    unfold lmn_list.
    rewrite <- (foldM_nested (fun s n p => f s n (fst p) (snd p)) (fun _ => lm_pairs L)).
    apply foldM_ext. intros s' n _.
    apply (foldM_nested (fun s el m => f s n el m) (fun el => zrange (- el) (el + 1))).
  Qed.

  Lemma flmn_3d_to_1d_spec (f : ndarray A) L N : 1 <= L -> 1 <= N -> shape f = flmn_shape L N ->
    exists o, flmn_3d_to_1d zero f L N = Ok o /\ shape o = [flmn_shape_1d L N] /\
      forall el m n, valid_lmn L N el m n ->
        get o [elmn2ind el m n L N] = get f [N - 1 + n; el; L - 1 + m].
  Proof.
    intros HL HN Hs. unfold flmn_3d_to_1d. rewrite Hs. cbn [flmn_shape List.length Nat.eqb negb].
    destruct (elmn2ind_bijection L N HL HN) as (B1 & B2 & B3).
    rewrite triple_loop.
    destruct (write_loop (fun t : Z * (Z * Z) => [elmn2ind (fst (snd t)) (snd (snd t)) (fst t) L N])
        (fun t => get f [N - 1 + fst t; fst (snd t); L - 1 + snd (snd t)])
        (fun out t => let* v := aread f [N - 1 + fst t; fst (snd t); L - 1 + snd (snd t)] in
           awrite out [elmn2ind (fst (snd t)) (snd (snd t)) (fst t) L N] v)
        (lmn_list L N) (zeros zero [flmn_shape_1d L N])) as (o & E & S1 & G1 & G2).
    - intros a' [n [el m]] _ Hin. cbn [fst snd]. apply in_lmn in Hin.
      unfold valid_lmn, valid_lm in Hin.
      rewrite aread_in; [reflexivity|]. rewrite Hs. cbn [flmn_shape in_shape]. lia.
    - intros [n [el m]] Hin. apply in_lmn in Hin. cbn [fst snd shape zeros in_shape].
      split; [apply (B1 n el m Hin)|exact I].
    - apply lmn_NoDup.
    - intros [n [el m]] [n' [el' m']] H1 H2 Heq. apply in_lmn in H1, H2.
      cbn [fst snd] in Heq. injection Heq as Heq.
      destruct (B2 n el m n' el' m' H1 H2 Heq) as (-> & -> & ->). reflexivity.
    - exists o. rewrite E. cbn [shape zeros] in S1. repeat split; auto.
      intros el m n H. apply (G1 (n, (el, m))). now apply in_lmn.
  Qed.

  Lemma flmn_1d_to_3d_spec (f : ndarray A) L N : 1 <= L -> 1 <= N -> shape f = [flmn_shape_1d L N] ->
    exists o, flmn_1d_to_3d zero f L N = Ok o /\ shape o = flmn_shape L N /\
      (forall el m n, valid_lmn L N el m n ->
        get o [N - 1 + n; el; L - 1 + m] = get f [elmn2ind el m n L N]) /\
      triangular3 zero L N o.
  Proof.
    intros HL HN Hs. unfold flmn_1d_to_3d. rewrite Hs. cbn [flmn_shape List.length Nat.eqb negb].
    destruct (elmn2ind_bijection L N HL HN) as (B1 & B2 & B3).
    rewrite triple_loop.
    destruct (write_loop (fun t : Z * (Z * Z) => [N - 1 + fst t; fst (snd t); L - 1 + snd (snd t)])
        (fun t => get f [elmn2ind (fst (snd t)) (snd (snd t)) (fst t) L N])
        (fun out t => let* v := aread f [elmn2ind (fst (snd t)) (snd (snd t)) (fst t) L N] in
           awrite out [N - 1 + fst t; fst (snd t); L - 1 + snd (snd t)] v)
        (lmn_list L N) (zeros zero (flmn_shape L N))) as (o & E & S1 & G1 & G2).
    - intros a' [n [el m]] _ Hin. cbn [fst snd]. apply in_lmn in Hin.
      rewrite aread_in; [reflexivity|]. rewrite Hs. cbn [in_shape].
      split; [apply (B1 n el m Hin)|exact I].
    - intros [n [el m]] Hin. apply in_lmn in Hin. unfold valid_lmn, valid_lm in Hin.
      cbn [fst snd shape zeros in_shape flmn_shape]. lia.
    - apply lmn_NoDup.
    - intros [n [el m]] [n' [el' m']] H1 H2 Heq. cbn [fst snd] in Heq. injection Heq; intros.
      repeat f_equal; lia.
    - exists o. rewrite E. cbn [shape zeros] in S1. repeat split; auto.
      + intros el m n H. apply (G1 (n, (el, m))). now apply in_lmn.
      + intros n el m H1 H2 H3 H4. rewrite G2; [reflexivity|].
        intros [n' [el' m']] Hin Heq. cbn [fst snd] in Heq. injection Heq; intros.
        apply in_lmn in Hin. unfold valid_lmn in Hin. apply H4.
        replace m with m' by lia. now subst el'.
  Qed.

  Lemma roundtrip_1d_3d (f : ndarray A) L N : 1 <= L -> 1 <= N -> shape f = [flmn_shape_1d L N] ->
    exists g h, flmn_1d_to_3d zero f L N = Ok g /\ flmn_3d_to_1d zero g L N = Ok h /\ arr_eq h f.
  Proof.
    intros HL HN Hs.
    destruct (flmn_1d_to_3d_spec f L N HL HN Hs) as (g & E1 & S1 & G1 & T1).
    destruct (flmn_3d_to_1d_spec g L N HL HN S1) as (h & E2 & S2 & G2).
    exists g, h. repeat split; auto; [congruence|].
    intros idx Hin. rewrite S2 in Hin. destruct idx as [|k [|]]; cbn [in_shape] in Hin; try tauto.
    destruct (elmn2ind_bijection L N HL HN) as (B1 & B2 & B3).
    destruct (B3 k (proj1 Hin)) as (n & el & m & Hv & <-).
    rewrite (G2 _ _ _ Hv). apply G1; auto.
  Qed.

  Lemma roundtrip_3d_1d (f : ndarray A) L N : 1 <= L -> 1 <= N -> shape f = flmn_shape L N ->
    exists g h, flmn_3d_to_1d zero f L N = Ok g /\ flmn_1d_to_3d zero g L N = Ok h /\
      (arr_eq h f <-> triangular3 zero L N f).
  Proof.
    intros HL HN Hs.
    destruct (flmn_3d_to_1d_spec f L N HL HN Hs) as (g & E1 & S1 & G1).
    destruct (flmn_1d_to_3d_spec g L N HL HN S1) as (h & E2 & S2 & G2 & T2).
    assert (G : forall el m n, valid_lmn L N el m n ->
       get h [N - 1 + n; el; L - 1 + m] = get f [N - 1 + n; el; L - 1 + m]).
    { intros el m n Hv. rewrite (G2 _ _ _ Hv). auto. }
    exists g, h. do 2 (split; [auto|]). split.
    - intros [_ He] n el m H1 H2 H3 H4. rewrite <- He; [now apply T2|].
      rewrite S2. cbn [flmn_shape in_shape]. lia.
    - intros T. split; [congruence|]. intros idx Hin. rewrite S2 in Hin.
      destruct idx as [|a [|el [|c [|]]]]; cbn [flmn_shape in_shape] in Hin; try tauto.
      replace a with (N - 1 + (a - (N - 1))) by lia.
      replace c with (L - 1 + (c - (L - 1))) by lia.
      set (n := a - (N - 1)). set (m := c - (L - 1)).
      assert (Hn : - N < n < N) by (unfold n; lia).
      assert (Hm : - L < m < L) by (unfold m; lia).
      destruct (Z_le_dec (- el) m); [destruct (Z_le_dec m el)|].
      + apply G. split; [split; lia|lia].
      + rewrite T2, T by (unfold valid_lm; lia). reflexivity.
      + rewrite T2, T by (unfold valid_lm; lia). reflexivity.
  Qed.
End Wig.

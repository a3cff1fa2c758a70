From Coq Require Import ZifyBool Psatz.
From Verif Require Import Lib.Py Lib.Vec Lib.VecFacts Model.Samples Model.HealpixFFT Model.Cuda
  Spec.SamplesSpec Spec.CudaSpec Proofs.SamplesProofs Proofs.HealpixFFTProofs Proofs.CudaProofs
  Proofs.CudaKernelProofs Proofs.CudaPlanProofs.
Open Scope Z_scope.
Set Default Proof Using "Type".

Lemma desc_eqb_good d d' ex : desc_eqb d d' = true -> good d ex -> good d' ex.
Proof.
  unfold desc_eqb. rewrite !andb_true_iff. intros (((((H1 & H2) & H3) & H4) & H5) & H6).
  apply Z.eqb_eq in H1. apply Bool.eqb_prop in H5.
  assert (N : d_norm d = d_norm d') by (destruct (d_norm d), (d_norm d'); auto; discriminate).
  unfold good. now rewrite H1, H5, N.
Qed.
Lemma desc_eqb_sym d d' : desc_eqb d d' = desc_eqb d' d.
Proof.
  unfold desc_eqb. rewrite (Z.eqb_sym (d_nside d)), (Z.eqb_sym (d_L d)).
  assert (B : forall a b, Bool.eqb a b = Bool.eqb b a) by (intros [] []; reflexivity).
  rewrite (B (d_reality d)), (B (d_shift d)), (B (d_double d)).
  now destruct (d_norm d), (d_norm d').
Qed.
Lemma desc_eqb_double d d' : desc_eqb d d' = true -> d_double d = d_double d'.
Proof. unfold desc_eqb. rewrite !andb_true_iff. intros [_ H]. now apply Bool.eqb_prop. Qed.
Lemma desc_eqb_nside d d' : desc_eqb d d' = true -> d_nside d = d_nside d'.
Proof. unfold desc_eqb. rewrite !andb_true_iff. intros (((((H1 & H2) & H3) & H4) & H5) & H6). lia. Qed.
Lemma desc_eqb_refl d : desc_eqb d d = true.
Proof. unfold desc_eqb. rewrite !Z.eqb_refl, !Bool.eqb_reflx. now destruct (d_norm d). Qed.

Lemma exec_all_same {A} (dft : vec A -> vec A) s1 s2 ex1 ex2 p1 p2 eq n (u : Z -> Z) (q : Z -> plan) buf :
  e_nside ex1 = n -> e_nside ex2 = n -> e_eq_start ex1 = e_eq_start ex2 ->
  (exists r, e_upper ex1 = (map u (zrange 0 (n - 1)) ++ r)%list) ->
  (exists r, e_upper ex2 = (map u (zrange 0 (n - 1)) ++ r)%list) ->
  (exists r, p1 = (map q (zrange 0 (n - 1)) ++ r)%list) ->
  (exists r, p2 = (map q (zrange 0 (n - 1)) ++ r)%list) ->
  exec_all s1 s2 dft ex1 p1 eq buf = exec_all s1 s2 dft ex2 p2 eq buf.
Proof.
  intros N1 N2 S [ru1 U1] [ru2 U2] [rp1 P1] [rp2 P2]. unfold exec_all. rewrite N1, N2, S.
  f_equal. apply foldM_ext. intros b i Hi. apply in_zrange in Hi.
  rewrite U1, U2, P1, P2, !nth_error_map_zrange by auto. reflexivity.
Qed.

Lemma good_same {A} d e1 e2 : good d e1 -> good d e2 -> same_behaviour A e1 e2.
Proof.
  intros G1 G2 dft s1 s2 buf. unfold good in *.
  destruct (callback_forward (d_shift d) (d_norm d)) as [fs fsh].
  destruct (callback_backward (d_norm d)) as [bs bsh].
  destruct G1 as (A1 & A2 & A3 & A4 & A5 & A6 & A7 & A8).
  destruct G2 as (B1 & B2 & B3 & B4 & B5 & B6 & B7 & B8).
  unfold exec_forward, exec_backward. rewrite A4, B4, A5, B5. split.
  - eapply exec_all_same; eauto; congruence.
  - eapply exec_all_same; eauto; congruence.
Qed.

Lemma fresh_good d : 1 <= d_nside d -> good d (fresh_executor d).
Proof. intros. apply initialize_good; auto. Qed.

(** *** cache invariant *)
Lemma list_set_same {X} (l : list X) n x : (n < List.length l)%nat -> nth_error (list_set l n x) n = Some x.
Proof. revert n; induction l; intros [|n] H; cbn in *; try lia; auto. apply IHl. lia. Qed.
Lemma list_set_other {X} (l : list X) n m x : n <> m -> nth_error (list_set l n x) m = nth_error l m.
Proof. revert n m; induction l; intros [|n] [|m] H; cbn; auto; try congruence. Qed.
Lemma list_set_length {X} (l : list X) n (x : X) : List.length (list_set l n x) = List.length l.
Proof. revert n; induction l; intros [|n]; cbn; auto. Qed.

Definition entries (w : world) : list (descriptor * nat) := (w_map32 w ++ w_map64 w)%list.
Definition cinv (w : world) : Prop :=
  (forall d id, In (d, id) (entries w) -> 1 <= d_nside d /\
     exists ex, nth_error (w_heap w) id = Some ex /\ good d ex) /\
  NoDup (map snd (entries w)) /\
  (forall d id, In (d, id) (w_map32 w) -> d_double d = false) /\
  (forall d id, In (d, id) (w_map64 w) -> d_double d = true).

Lemma in_map_of d w p : In p (map_of d w) -> In p (entries w).
Proof. unfold map_of, entries. rewrite in_app_iff. destruct (d_double d); auto. Qed.

Lemma cache_find_some d w id : cache_find d w = Some id ->
  exists d0, In (d0, id) (map_of d w) /\ desc_eqb d0 d = true.
Proof.
  unfold cache_find. destruct (find _ _) as [[d0 i]|] eqn:E; [|discriminate].
  cbn. intros [= <-]. apply find_some in E. exists d0. exact E.
Qed.

Lemma nodup_snd_inj {X Y} (l : list (X * Y)) a b y : NoDup (map snd l) ->
  In (a, y) l -> In (b, y) l -> a = b.
Proof.
  induction l as [|[x z] l IH]; intros Hnd Ha Hb; [destruct Ha|].
  cbn in Hnd. inversion Hnd; subst.
  destruct Ha as [Ea|Ha]; destruct Hb as [Eb|Hb].
  - congruence.
  - injection Ea as -> ->. exfalso. apply H1. apply in_map_iff. exists (b, y). auto.
  - injection Eb as -> ->. exfalso. apply H1. apply in_map_iff. exists (a, y). auto.
  - auto.
Qed.

Lemma cinv_grow w : cinv w ->
  cinv (mkWorld (w_heap w ++ [new_executor])%list (w_map32 w) (w_map64 w) (w_handles w)).
Proof.
  intros (I1 & I2 & I3 & I4). split; [|auto]. intros d id Hin. destruct (I1 d id Hin) as (Hn & ex & E & G).
  split; [auto|]. exists ex. split; [|auto]. cbn [w_heap].
  rewrite nth_error_app1; [auto|]. apply nth_error_Some. congruence.
Qed.

(** Initialising again the executor stored for [d] keeps the invariant. *)
Lemma cinv_reinit w id d d0 : cinv w -> 1 <= d_nside d -> In (d0, id) (entries w) ->
  desc_eqb d0 d = true -> cinv (init_at id d w).
Proof.
  intros (I1 & I2 & I3 & I4) Hn Hin He. unfold init_at.
  destruct (I1 _ _ Hin) as (Hn0 & ex & E & G). rewrite E.
  pose proof (initialize_good d ex Hn (or_intror (desc_eqb_good _ _ _ He G))) as Gi.
  destruct (initialize ex d) as [ex' k]. cbn [fst] in Gi.
  split; [|auto]. intros d' id' Hin'. cbn [w_heap entries w_map32 w_map64] in *.
  destruct (I1 _ _ Hin') as (Hn' & ex2 & E2 & G2). split; [auto|].
  destruct (Nat.eq_dec id id') as [<-|Hne].
  - exists ex'. rewrite list_set_same by (apply nth_error_Some; congruence). split; [auto|].
    replace d' with d0 by (eapply nodup_snd_inj; eauto).
    apply (desc_eqb_good d); [now rewrite desc_eqb_sym|auto].
  - exists ex2. rewrite list_set_other by auto. auto.
Qed.

Lemma get_exec_spec d w : cinv w -> 1 <= d_nside d ->
  let '(id, w1) := get_exec d w in
  cinv w1 /\ (exists d0, In (d0, id) (entries w1) /\ desc_eqb d0 d = true) /\
  exists ex, nth_error (w_heap w1) id = Some ex /\ good d ex.
Proof.
  intros Hw Hn. unfold get_exec. destruct (cache_find d w) as [id|] eqn:Ef.
  - destruct (cache_find_some _ _ _ Ef) as (d0 & Hin & He). apply in_map_of in Hin.
    pose proof (cinv_grow w Hw) as Hg. split; [exact Hg|]. split; [exists d0; auto|].
    destruct Hg as (I1 & _). destruct (I1 d0 id Hin) as (Hn0 & ex & E & G).
    exists ex. split; [exact E|]. now apply (desc_eqb_good d0).
  - set (id := List.length (w_heap w)).
    unfold init_at. cbn [w_heap].
    rewrite nth_error_app2 by (unfold id; lia). replace (id - List.length (w_heap w))%nat with 0%nat by (unfold id; lia).
    cbn [nth_error].
    pose proof (initialize_good d new_executor Hn (or_introl eq_refl)) as Gi.
    destruct (initialize new_executor d) as [ex' k]. cbn [fst] in Gi.
    cbn [w_heap w_map32 w_map64 w_handles].
    set (heap := list_set (w_heap w ++ [new_executor])%list id ex').
    assert (Hid : nth_error heap id = Some ex').
    { apply list_set_same. rewrite app_length. cbn. unfold id. lia. }
    assert (Hold : forall i ex, nth_error (w_heap w) i = Some ex -> nth_error heap i = Some ex).
    { intros i ex Hi. assert ((i < id)%nat) by (apply nth_error_Some; congruence).
      unfold heap. rewrite list_set_other by lia. rewrite nth_error_app1 by auto. auto. }
    destruct Hw as (I1 & I2 & I3 & I4).
    assert (Hlt : forall p, In p (entries w) -> (snd p < id)%nat).
    { intros [d' i] Hp. destruct (I1 _ _ Hp) as (_ & ex & E & _). apply nth_error_Some. cbn. congruence. }
    assert (New : forall m32 m64 h,
       (forall p, In p (m32 ++ m64)%list -> p = (d, id) \/ In p (entries w)) ->
       NoDup (map snd (m32 ++ m64)%list) ->
       (forall d id, In (d, id) m32 -> d_double d = false) ->
       (forall d id, In (d, id) m64 -> d_double d = true) ->
       cinv (mkWorld heap m32 m64 h)).
    { intros m32 m64 h H1 H2 H3 H4. split; [|split; [exact H2|split; auto]].
      intros d' i Hin. unfold entries in Hin. cbn [w_map32 w_map64 w_heap] in *.
      destruct (H1 _ Hin) as [[= -> ->]|Hin'].
      - split; [auto|]. exists ex'. auto.
      - destruct (I1 _ _ Hin') as (Hn' & ex & E & G). split; [auto|]. exists ex. auto. }
    assert (Fresh_id : ~ In id (map snd (entries w))).
    { intros Hc. apply in_map_iff in Hc. destruct Hc as (p & Ep & Hp). specialize (Hlt _ Hp). lia. }
    unfold entries in *.
    destruct (d_double d) eqn:Ed.
    + split; [|split].
      * apply New.
        -- intros p Hp. rewrite in_app_iff in *. cbn [In] in Hp. destruct Hp as [Hp|[Hp|Hp]]; auto.
        -- rewrite map_app in *. cbn [map snd].
           apply NoDup_Add with (a := id) (l := (map snd (w_map32 w) ++ map snd (w_map64 w))%list).
           ++ apply Add_app.
           ++ auto.
        -- auto.
        -- intros d' i [[= <- <-]|Hi]; eauto.
      * exists d. split; [|apply desc_eqb_refl]. cbn. rewrite in_app_iff. right; left; auto.
      * exists ex'. auto.
    + split; [|split].
      * apply New.
        -- intros p Hp. cbn [app In] in Hp. destruct Hp as [Hp|Hp]; auto.
        -- cbn [app map snd]. constructor; auto.
        -- intros d' i [[= <- <-]|Hi]; eauto.
        -- auto.
      * exists d. split; [|apply desc_eqb_refl]. cbn. left; auto.
      * exists ex'. auto.
Qed.

Lemma cinv_empty : cinv empty_world.
Proof. split; [intros d id []|]. split; [constructor|]. split; intros d id []. Qed.

Lemma cinv_after_call w c : cinv w -> call_ok c -> cinv (after_call w c).
Proof.
  intros Hw Hc. destruct c as [nside L r f n db|d]; cbn [after_call call_ok] in *.
  - unfold build. set (d := mkDesc nside L r f (build_norm f n) true db).
    pose proof (get_exec_spec d w Hw Hc) as G. destruct (get_exec d w) as [id w1].
    destruct G as (G1 & (d0 & G2 & G3) & _). cbn [snd]. eapply cinv_reinit; eauto.
  - pose proof (get_exec_spec d w Hw Hc) as G. destruct (get_exec d w) as [id w1]. apply G.
Qed.

Lemma cinv_after h : Forall call_ok h -> cinv (after h).
Proof.
  unfold after. assert (G : forall w, cinv w -> Forall call_ok h -> cinv (fold_left after_call h w)).
  { induction h as [|c h IH]; intros w Hw Hf; [auto|]. inversion Hf; subst. cbn [fold_left].
    apply IH; auto. now apply cinv_after_call. }
  apply G. apply cinv_empty.
Qed.

Lemma cache_history h d (A : Type) : Forall call_ok h -> 1 <= d_nside d ->
  exists id w ex, get_exec d (after h) = (id, w) /\ nth_error (w_heap w) id = Some ex /\
    same_behaviour A ex (fresh_executor d).
Proof.
  intros Hf Hn. pose proof (get_exec_spec d (after h) (cinv_after h Hf) Hn) as G.
  destruct (get_exec d (after h)) as [id w]. destruct G as (_ & _ & ex & E & G).
  exists id, w, ex. split; [reflexivity|]. split; [exact E|].
  apply (good_same d); [exact G|now apply fresh_good].
Qed.

(** After a descriptor has been built, running transforms for it creates no plans. *)
Lemma find_after_get d w : cinv w -> 1 <= d_nside d ->
  exists id, cache_find d (snd (get_exec d w)) = Some id.
Proof.
  intros Hw Hn. unfold get_exec. destruct (cache_find d w) as [id|] eqn:Ef.
  - exists id. cbn [snd]. unfold cache_find, map_of in *. cbn [w_map32 w_map64]. exact Ef.
  - unfold init_at. cbn [w_heap].
    destruct (nth_error (w_heap w ++ [new_executor])%list (List.length (w_heap w))) as [ex|];
      [destruct (initialize ex d) as [ex' k]|];
      cbn [snd w_heap w_map32 w_map64 w_handles];
      unfold cache_find, map_of; destruct (d_double d) eqn:Ed; cbn [w_map32 w_map64 find fst];
      rewrite ?Ed, desc_eqb_refl; cbn [option_map snd]; eauto.
Qed.

Lemma get_exec_hit_handles d w id : cache_find d w = Some id ->
  w_handles (snd (get_exec d w)) = w_handles w /\ cache_find d (snd (get_exec d w)) = Some id.
Proof.
  intros E. unfold get_exec. rewrite E. cbn [snd w_handles]. split; [auto|].
  unfold cache_find, map_of in *. exact E.
Qed.

Lemma find_init_at d d' id w : cache_find d (init_at id d' w) = cache_find d w.
Proof.
  unfold init_at. destruct (nth_error (w_heap w) id) as [ex|]; [|auto].
  destruct (initialize ex d'). reflexivity.
Qed.

Lemma transforms_no_plans h nside L r f n db k : Forall call_ok h -> 1 <= nside ->
  let w := after (h ++ [CallBuild nside L r f n db])%list in
  let d := mkDesc nside L r f (build_norm f n) true db in
  w_handles (fold_left after_call (repeat (CallTransform d) k) w) = w_handles w.
Proof.
  intros Hf Hn w d.
  assert (F : exists id, cache_find d w = Some id).
  { unfold w, after. rewrite fold_left_app. cbn [fold_left after_call]. fold (after h).
    unfold build. fold d. pose proof (find_after_get d (after h) (cinv_after h Hf) Hn) as [id Hid].
    destruct (get_exec d (after h)) as [i w1]. cbn [snd] in *. exists id. now rewrite find_init_at. }
  destruct F as [id F]. clearbody w. revert w F. induction k as [|k IH]; intros w F; [reflexivity|].
  cbn [repeat fold_left after_call].
  destruct (get_exec_hit_handles d w id F) as [H1 H2]. rewrite (IH _ H2). exact H1.
Qed.

(** ** whole pipelines *)
Section Pipelines.
  Context {A : Type} (add : A -> A -> A) (zero : A) (dft_fwd dft_inv : vec A -> vec A)
    (scale1 scale2 : Z -> A -> A).
  Hypothesis fwd_ext : forall x y, veq x y -> veq (dft_fwd x) (dft_fwd y).
  Hypothesis fwd_len : forall x, vlen (dft_fwd x) = vlen x.
  Hypothesis inv_ext : forall x y, veq x y -> veq (dft_inv x) (dft_inv y).
  Hypothesis inv_len : forall x, vlen (dft_inv x) = vlen x.

  Lemma exec_forward_good d ex buf : 1 <= d_nside d -> good d ex ->
    vlen buf = 12 * (d_nside d * d_nside d) ->
    exists out, exec_forward dft_fwd scale1 scale2 ex buf = Ok out /\ vlen out = vlen buf /\
      forall t, 0 <= t < 4 * d_nside d - 1 ->
        rings_done scale1 scale2 dft_fwd (d_nside d) (fst (callback_forward (d_shift d) (d_norm d)))
          (snd (callback_forward (d_shift d) (d_norm d))) buf out t.
  Proof using fwd_ext fwd_len.
    intros Hn G Hb. unfold good in G. destruct (callback_forward (d_shift d) (d_norm d)) as [fs fsh].
    destruct (callback_backward (d_norm d)) as [bs bsh].
    destruct G as (A1 & A2 & A3 & A4 & A5 & A6 & A7 & A8). cbn [fst snd].
    unfold exec_forward. eapply exec_all_spec; eauto.
  Qed.
  Lemma exec_backward_good d ex buf : 1 <= d_nside d -> good d ex ->
    vlen buf = 12 * (d_nside d * d_nside d) ->
    exists out, exec_backward dft_inv scale1 scale2 ex buf = Ok out /\ vlen out = vlen buf /\
      forall t, 0 <= t < 4 * d_nside d - 1 ->
        rings_done scale1 scale2 dft_inv (d_nside d) (fst (callback_backward (d_norm d)))
          (snd (callback_backward (d_norm d))) buf out t.
  Proof using inv_ext inv_len.
    intros Hn G Hb. unfold good in G. destruct (callback_forward (d_shift d) (d_norm d)) as [fs fsh].
    destruct (callback_backward (d_norm d)) as [bs bsh].
    destruct G as (A1 & A2 & A3 & A4 & A5 & A6 & A7 & A8). cbn [fst snd].
    unfold exec_backward. eapply exec_all_spec; eauto.
  Qed.

  Lemma cuda_forward_spec h d f out0 :
    Forall call_ok h -> 1 <= d_nside d -> 2 * d_nside d <= d_L d -> d_shift d = true ->
    vlen f = 12 * (d_nside d * d_nside d) -> vlen out0 = (4 * d_nside d - 1) * (2 * d_L d) ->
    (exists w' data' out, cuda_forward add zero dft_fwd scale1 scale2 d (after h) f out0 w' data' out) /\
    forall w' data' out, cuda_forward add zero dft_fwd scale1 scale2 d (after h) f out0 w' data' out ->
      vlen out = (4 * d_nside d - 1) * (2 * d_L d) /\
      forall t k, 0 <= t < 4 * d_nside d - 1 -> 0 <= k < 2 * d_L d ->
        vat out (t * (2 * d_L d) + k)
        = apply_scaling scale1 scale2 (fst (callback_forward true (d_norm d))) (ring_length (d_nside d) t)
            (vat (dft_fwd (ring_of f (d_nside d) t)) ((k - d_L d) mod ring_length (d_nside d) t)).
  Proof using fwd_ext fwd_len.
    intros Hf Hn HL Hs Hlf Hlo.
    pose proof (get_exec_spec d (after h) (cinv_after h Hf) Hn) as G.
    unfold cuda_forward. destruct (get_exec d (after h)) as [id w1].
    destruct G as (_ & _ & ex & E & G).
    destruct (exec_forward_good d ex f Hn G Hlf) as (o & Eo & Vo & Go).
    assert (Hd : vlen o = 12 * (d_nside d * d_nside d)) by lia.
    destruct (extension_kernel add zero (d_nside d) (d_L d) o out0 Hn HL Hd Hlo) as [K1 K2].
    split.
    - destruct K2 as (s & k & R & F). exists w1, o, (k_out k). split; [reflexivity|].
      exists ex. split; [exact E|]. split; [exact Eo|]. exists s, k. auto.
    - intros w' data' out (-> & ex2 & E2 & Eo2 & s & k & R & F & Ek).
      assert (ex2 = ex) by congruence. subst ex2.
      assert (data' = o) by congruence. subst data'.
      destruct (K1 s) as (k2 & R2 & O2). assert (k2 = k) by congruence. subst k2.
      destruct (O2 F) as [V2 G2]. rewrite Ek in *. split; [exact V2|].
      intros t j Ht Hj. rewrite G2 by auto.
      pose proof (ring_length_pos (d_nside d) t Hn Ht).
      rewrite (Go t Ht) by (apply Z.mod_pos_bound; lia).
      rewrite Hs. replace (snd (callback_forward true (d_norm d))) with true by (destruct (d_norm d); auto).
      cbn [unshift]. do 2 f_equal. rewrite Zminus_mod_idemp_l. f_equal. lia.
  Qed.

  Lemma cuda_backward_spec h d ftm out0 :
    Forall call_ok h -> 1 <= d_nside d -> 2 * d_nside d <= d_L d -> d_shift d = true ->
    vlen ftm = (4 * d_nside d - 1) * (2 * d_L d) -> vlen out0 = 12 * (d_nside d * d_nside d) ->
    (exists w' out, cuda_backward add zero dft_inv scale1 scale2 d (after h) ftm out0 w' out) /\
    forall w' out, cuda_backward add zero dft_inv scale1 scale2 d (after h) ftm out0 w' out ->
      vlen out = 12 * (d_nside d * d_nside d) /\
      forall t p, 0 <= t < 4 * d_nside d - 1 -> 0 <= p < ring_length (d_nside d) t ->
        vat out (rs (d_nside d) t + p)
        = apply_scaling scale1 scale2 (fst (callback_backward (d_norm d))) (ring_length (d_nside d) t)
            (vat (dft_inv (ring_spectrum add (flat_row ftm (d_L d) t) (ring_length (d_nside d) t) (d_L d))) p).
  Proof using inv_ext inv_len.
    intros Hf Hn HL Hs Hlf Hlo.
    pose proof (get_exec_spec d (after h) (cinv_after h Hf) Hn) as G.
    unfold cuda_backward. destruct (get_exec d (after h)) as [id w1].
    destruct G as (_ & _ & ex & E & G). rewrite Hs.
    destruct (folding_kernel add zero (d_nside d) (d_L d) true ftm out0 Hn HL Hlf Hlo) as [K1 K2].
    split.
    - destruct K2 as (s & k & R & F). destruct (K1 s) as (k2 & R2 & O2).
      assert (k2 = k) by congruence. subst k2. destruct (O2 F) as [V2 _].
      destruct (exec_backward_good d ex (k_out k) Hn G V2) as (o & Eo & Vo & Go).
      exists w1, o. split; [reflexivity|]. exists ex, (k_out k). split; [exact E|].
      split; [|exact Eo]. exists s, k. auto.
    - intros w' out (-> & ex2 & fo & E2 & (s & k & R & F & Ek) & Eo2).
      assert (ex2 = ex) by congruence. subst ex2.
      destruct (K1 s) as (k2 & R2 & O2). assert (k2 = k) by congruence. subst k2.
      destruct (O2 F) as [V2 G2]. rewrite Ek in *.
      destruct (exec_backward_good d ex fo Hn G V2) as (o & Eo & Vo & Go).
      assert (o = out) by congruence. subst o. split; [lia|].
      intros t p Ht Hp. rewrite (Go t Ht) by auto.
      pose proof (ring_length_pos (d_nside d) t Hn Ht).
      replace (snd (callback_backward (d_norm d))) with false by (destruct (d_norm d); auto).
      cbn [unshift]. f_equal. apply dft_at; auto.
      split; [reflexivity|]. cbn [vlen ring_of ring_spectrum vat]. intros i Hi. now apply G2.
  Qed.
End Pipelines.

From Coq Require Import ZifyBool Psatz.
From Verif Require Import Lib.Py Lib.PyFacts Lib.Vec Lib.VecFacts Model.Samples Model.HealpixFFT Model.Cuda
  Spec.SamplesSpec Spec.CudaSpec Proofs.SamplesProofs Proofs.HealpixFFTProofs Proofs.CudaProofs
  Proofs.CudaKernelProofs Proofs.CudaPlanProofs Proofs.CudaCacheProofs.
Open Scope Z_scope.

Lemma geometry_lemma nside t : 1 <= nside -> 0 <= t < 4 * nside - 1 ->
  nphi_ring t nside = Ok (fst (computeNphi nside t)) /\
  snd (computeNphi nside t) = ring_start (fun u => fst (computeNphi nside u)) t.
Proof.
  intros Hn Ht. rewrite computeNphi_spec, nphi_ring_spec by auto. split; [reflexivity|].
  cbn [snd]. unfold ring_start. f_equal. apply map_ext_in. intros u Hu. apply in_zrange in Hu.
  rewrite computeNphi_spec by lia. reflexivity.
Qed.

Lemma shift_lemma n dist b e :
  0 < n -> Z.even n = true -> n <= dist -> 0 <= b < 2 -> 0 <= e < n ->
  fft_shift (b * dist + e) n dist = b * dist + (e + n / 2) mod n /\
  forall r, 0 <= r -> fft_shift_eq (r * n + e) n = r * n + (e + n / 2) mod n.
Proof.
  intros. split; [apply fft_shift_spec; lia|]. intros. apply fft_shift_eq_spec; lia.
Qed.

Lemma folded_ext {A} (add : A -> A -> A) f g nphi L i : 0 <= nphi -> Z.even nphi = true -> nphi <= 2 * L ->
  0 <= i < nphi -> (forall j, 0 <= j < 2 * L -> f j = g j) ->
  folded add f nphi L i = folded add g nphi L i.
Proof.
  intros Hn He HL Hi H. pose proof (even_half nphi He). unfold folded.
  assert (E1 : neg_adds f nphi L = neg_adds g nphi L).
  { unfold neg_adds. apply map_ext_in. intros x Hx. apply in_zrange in Hx. f_equal. apply H. lia. }
  assert (E2 : pos_adds f nphi L = pos_adds g nphi L).
  { unfold pos_adds. apply map_ext_in. intros x Hx. apply in_zrange in Hx. f_equal. apply H. lia. }
  rewrite E1, E2. do 2 f_equal. apply H. lia.
Qed.

Lemma ring_length_le nside t : ring_length nside t <= 4 * nside.
Proof. unfold ring_length. lia. Qed.

Lemma is_flat_row {A} nside L (ftm : vec (vec A)) data t :
  is_flat (4 * nside - 1) (2 * L) ftm data -> 0 <= t < 4 * nside - 1 ->
  forall k, 0 <= k < 2 * L -> vat (flat_row data L t) k = vat (vat ftm t) k.
Proof. intros (H1 & H2 & H3) Ht k Hk. cbn. now apply H3. Qed.

Lemma folding_lemma (A : Type) (add : A -> A -> A) (zero : A)
  (nside L : Z) (shift : bool) (ftm : vec (vec A)) (data out0 : vec A) :
  1 <= nside -> 4 * nside <= 2 * L -> is_flat (4 * nside - 1) (2 * L) ftm data ->
  vlen out0 = 12 * nside * nside ->
  let n := launched (4 * nside - 1) in
  let start := klaunch zero n (folding_program nside L shift) out0 in
  (forall sched, exists k, krun add data sched start = Ok k /\
    (kfinished n k -> forall t, 0 <= t < 4 * nside - 1 ->
       exists row' slice slice_jax,
         spectral_folding add (vat ftm t) (ring_length nside t) L = Ok (row', slice) /\
         spectral_folding_jax add (vat ftm t) (ring_length nside t) L = Ok slice_jax /\
         veq slice slice_jax /\
         veq (pixels_of_ring nside t (k_out k)) (if shift then ifftshift slice else slice))) /\
  (exists sched k, krun add data sched start = Ok k /\ kfinished n k).
Proof.
  intros Hn HL Hflat Ho n start. pose proof Hflat as (F1 & F2 & F3).
  destruct (folding_kernel add zero nside L shift data out0 Hn ltac:(lia) F2 ltac:(lia)) as [K1 K2].
  split; [|exact K2].
  intros sched. destruct (K1 sched) as (k & R & O). exists k. split; [exact R|].
  intros Fin t Ht. destruct (O Fin) as [V G]. specialize (F3 t Ht). destruct F3 as [V3 _].
  pose proof (ring_length_pos nside t Hn Ht) as Hp. pose proof (ring_length_le nside t) as Hle.
  pose proof (nphi_half nside t) as Hev.
  destruct (spectral_folding_spec add (vat ftm t) (ring_length nside t) L ltac:(lia) Hev ltac:(lia) V3)
    as (fm' & sl & E1 & _ & Vs & Gs & _).
  destruct (spectral_folding_jax_spec add (vat ftm t) (ring_length nside t) L ltac:(lia) Hev ltac:(lia) V3)
    as (sj & E2 & Vj & Gj).
  exists fm', sl, sj. split; [exact E1|]. split; [exact E2|]. split.
  { split; [lia|]. intros i Hi. rewrite Gs, Gj by lia. reflexivity. }
  assert (FE : forall i, 0 <= i < ring_length nside t ->
     folded add (vat (flat_row data L t)) (ring_length nside t) L i = folded add (vat (vat ftm t)) (ring_length nside t) L i).
  { intros i Hi. apply folded_ext; auto; try lia. intros. eapply is_flat_row; eauto. }
  destruct shift.
  - split; [cbn [vlen ifftshift pixels_of_ring]; lia|].
    cbn [vlen pixels_of_ring vat ifftshift]. intros i Hi. rewrite (G t i Ht Hi).
    pose proof (Z.mod_pos_bound (i + ring_length nside t / 2) (ring_length nside t) ltac:(lia)).
    rewrite FE by auto. rewrite Vs. rewrite Gs by auto. reflexivity.
  - split; [cbn [vlen pixels_of_ring]; lia|].
    cbn [vlen pixels_of_ring vat]. intros i Hi. rewrite (G t i Ht Hi). rewrite FE, Gs by auto. reflexivity.
Qed.

Lemma extension_lemma (A : Type) (add : A -> A -> A) (zero : A)
  (nside L : Z) (data out0 : vec A) :
  1 <= nside -> 4 * nside <= 2 * L -> vlen data = 12 * nside * nside ->
  vlen out0 = (4 * nside - 1) * (2 * L) ->
  let n := launched (2 * L * (4 * nside - 1)) in
  let start := klaunch zero n (extension_program nside L) out0 in
  (forall sched, exists k, krun add data sched start = Ok k /\
    (kfinished n k -> vlen (k_out k) = (4 * nside - 1) * (2 * L) /\
       forall t, 0 <= t < 4 * nside - 1 ->
       exists row, spectral_periodic_extension zero (pixels_of_ring nside t data)
           (ring_length nside t) L = Ok row /\
         veq row (spectral_periodic_extension_jax (pixels_of_ring nside t data) L) /\
         forall j, 0 <= j < 2 * L -> vat (k_out k) (t * (2 * L) + j) = vat row j)) /\
  (exists sched k, krun add data sched start = Ok k /\ kfinished n k).
Proof.
  intros Hn HL Hd Ho n start.
  destruct (extension_kernel add zero nside L data out0 Hn ltac:(lia) ltac:(lia) Ho) as [K1 K2].
  split; [|exact K2].
  intros sched. destruct (K1 sched) as (k & R & O). exists k. split; [exact R|].
  intros Fin. destruct (O Fin) as [V G]. split; [exact V|]. intros t Ht.
  pose proof (ring_length_pos nside t Hn Ht) as Hp. pose proof (ring_length_le nside t) as Hle.
  destruct (extension_spec zero (pixels_of_ring nside t data) (ring_length nside t) L ltac:(lia) ltac:(lia) eq_refl)
    as (row & E & Vr & Gr).
  destruct (extension_jax_spec (pixels_of_ring nside t data) L) as [Vj Gj].
  { cbn [vlen pixels_of_ring]; lia. } { cbn [vlen pixels_of_ring]; lia. }
  exists row. split; [exact E|]. split.
  - split; [lia|]. intros i Hi. rewrite Gr, Gj by lia. reflexivity.
  - intros j Hj. rewrite (G t j Ht Hj), Gr by auto. reflexivity.
Qed.

(** build keeps the history form *)
Lemma build_after nside L r f n db h :
  build nside L r f n db (after h)
  = (mkDesc nside L r f (build_norm f n) true db, after (h ++ [CallBuild nside L r f n db])%list).
Proof.
  unfold after. rewrite fold_left_app. cbn [fold_left after_call]. unfold build.
  destruct (get_exec _ (fold_left after_call h empty_world)). reflexivity.
Qed.

Lemma Forall_snoc_call h c : Forall call_ok h -> call_ok c -> Forall call_ok (h ++ [c])%list.
Proof. intros. apply Forall_app. auto. Qed.

Lemma forward_lemma (A : Type) (add : A -> A -> A) (zero : A)
  (fft rfft : vec A -> vec A) (scale1 scale2 : Z -> A -> A) (history : list call)
  (nside L : Z) (reality double : bool) (f out0 : vec A) :
  length_preserving fft -> extensional fft -> Forall call_ok history ->
  1 <= nside -> 4 * nside <= 2 * L -> vlen f = 12 * nside * nside ->
  vlen out0 = (4 * nside - 1) * (2 * L) ->
  let '(d, w) := build nside L reality true false double (after history) in
  exists ftm, healpix_fft_numpy zero fft rfft f L nside false = Ok ftm /\
  (exists w' f' out, cuda_forward add zero fft scale1 scale2 d w f out0 w' f' out) /\
  forall w' f' out, cuda_forward add zero fft scale1 scale2 d w f out0 w' f' out ->
    is_flat (4 * nside - 1) (2 * L) ftm out.
Proof.
  intros Flen Fext Hh Hn HL Hf Ho. rewrite build_after.
  destruct (healpix_fft_numpy_spec zero fft rfft Flen f L nside Hn HL ltac:(lia)) as (ftm & E & V & G).
  exists ftm. split; [exact E|].
  assert (Hh' : Forall call_ok (history ++ [CallBuild nside L reality true false double])%list)
    by (apply Forall_snoc_call; auto).
  destruct (cuda_forward_spec add zero fft scale1 scale2 Fext Flen _
     (mkDesc nside L reality true (build_norm true false) true double) f out0 Hh' Hn
     ltac:(cbn [d_nside d_L]; lia) eq_refl ltac:(cbn [d_nside d_L]; lia) Ho) as [C1 C2].
  split; [exact C1|]. intros w' f' out R. destruct (C2 _ _ _ R) as [Vo Go]. cbn [d_nside d_L] in Vo.
  split; [exact V|]. split; [exact Vo|]. intros t Ht. destruct (G t Ht) as [Vt Gt].
  split; [exact Vt|]. intros k Hk. etransitivity; [exact (Go t k Ht Hk)|]. cbn [build_norm callback_forward fst d_norm d_nside d_L apply_scaling].
  symmetry. apply Gt. exact Hk.
Qed.

Lemma forward_normalised_lemma (A : Type) (add : A -> A -> A) (zero : A)
  (fft : vec A -> vec A) (scale1 scale2 : Z -> A -> A) (history : list call)
  (nside L : Z) (reality double : bool) (f out0 : vec A) :
  length_preserving fft -> extensional fft -> Forall call_ok history ->
  1 <= nside -> 4 * nside <= 2 * L -> vlen f = 12 * nside * nside ->
  vlen out0 = (4 * nside - 1) * (2 * L) ->
  let '(d, w) := build nside L reality true true double (after history) in
  forall w' f' out, cuda_forward add zero fft scale1 scale2 d w f out0 w' f' out ->
    forall t k, 0 <= t < 4 * nside - 1 -> 0 <= k < 2 * L ->
      vat out (t * (2 * L) + k)
      = scale1 (ring_length nside t)
          (vat (fft (pixels_of_ring nside t f)) ((k - L) mod ring_length nside t)).
Proof.
  intros Flen Fext Hh Hn HL Hf Ho. rewrite build_after.
  assert (Hh' : Forall call_ok (history ++ [CallBuild nside L reality true true double])%list)
    by (apply Forall_snoc_call; auto).
  destruct (cuda_forward_spec add zero fft scale1 scale2 Fext Flen _
     (mkDesc nside L reality true (build_norm true true) true double) f out0 Hh' Hn
     ltac:(cbn [d_nside d_L]; lia) eq_refl ltac:(cbn [d_nside d_L]; lia) Ho) as [C1 C2].
  intros w' f' out R t k Ht Hk. destruct (C2 _ _ _ R) as [Vo Go]. exact (Go t k Ht Hk).
Qed.

Lemma inverse_lemma (A : Type) (add : A -> A -> A) (zero : A)
  (ifft : vec A -> vec A) (irfft : vec A -> Z -> vec A) (scale1 scale2 : Z -> A -> A)
  (history : list call) (nside L : Z) (reality double : bool) (ftm : vec (vec A)) (data out0 : vec A) :
  length_preserving ifft -> extensional ifft -> Forall call_ok history ->
  1 <= nside -> 4 * nside <= 2 * L -> is_flat (4 * nside - 1) (2 * L) ftm data ->
  vlen out0 = 12 * nside * nside ->
  let '(d, w) := build nside L reality false false double (after history) in
  exists ftm' f, healpix_ifft_numpy zero add ifft irfft ftm L nside false = Ok (ftm', f) /\
  (exists w' out, cuda_backward add zero ifft scale1 scale2 d w data out0 w' out) /\
  forall w' out, cuda_backward add zero ifft scale1 scale2 d w data out0 w' out -> veq out f.
Proof.
  intros Flen Fext Hh Hn HL Hflat Ho. rewrite build_after. pose proof Hflat as (F1 & F2 & F3).
  destruct (healpix_ifft_numpy_spec zero add ifft irfft Flen Fext ftm L nside Hn ltac:(lia) F1
      (fun t Ht => proj1 (F3 t Ht))) as (ftm' & f & E & V & G & _).
  exists ftm', f. split; [exact E|].
  assert (Hh' : Forall call_ok (history ++ [CallBuild nside L reality false false double])%list)
    by (apply Forall_snoc_call; auto).
  destruct (cuda_backward_spec add zero ifft scale1 scale2 Fext Flen _
     (mkDesc nside L reality false (build_norm false false) true double) data out0 Hh' Hn
     ltac:(cbn [d_nside d_L]; lia) eq_refl F2 ltac:(cbn [d_nside d_L]; lia)) as [C1 C2].
  split; [exact C1|]. intros w' out R. destruct (C2 _ _ R) as [Vo Go]. cbn [d_nside d_L] in Vo.
  split; [lia|]. intros i Hi.
  assert (Hc : exists t p, 0 <= t < 4 * nside - 1 /\ 0 <= p < ring_length nside t /\
            i = ring_start (ring_length nside) t + p).
  { destruct (blocks_partition (ring_length nside) (4 * nside - 1) i) as (t & p & H & _); try lia.
    - intros j Hj. pose proof (ring_length_pos nside j Hn Hj). lia.
    - rewrite ring_start_total by lia. lia.
    - exists t, p. tauto. }
  destruct Hc as (t & p & Ht & Hp & ->).
  etransitivity; [exact (Go t p Ht Hp)|]. cbn [build_norm callback_backward fst d_norm d_nside d_L apply_scaling].
  rewrite (G t Ht p Hp).
  pose proof (ring_length_pos nside t Hn Ht). pose proof (ring_length_le nside t).
  apply (dft_at ifft Fext Flen); auto.
  split; [reflexivity|]. cbn [vlen ring_spectrum vat]. intros j Hj.
  apply folded_ext; try lia; [apply nphi_half|apply Z.mod_pos_bound; lia|].
  intros. eapply is_flat_row; eauto.
Qed.
Lemma inverse_normalised_lemma (A : Type) (add : A -> A -> A) (zero : A)
  (ifft : vec A -> vec A) (irfft : vec A -> Z -> vec A) (scale1 scale2 : Z -> A -> A)
  (history : list call) (nside L : Z) (reality double : bool) (ftm : vec (vec A)) (data out0 : vec A) :
  length_preserving ifft -> extensional ifft -> Forall call_ok history ->
  1 <= nside -> 4 * nside <= 2 * L -> is_flat (4 * nside - 1) (2 * L) ftm data ->
  vlen out0 = 12 * nside * nside ->
  let '(d, w) := build nside L reality false true double (after history) in
  exists ftm' f, healpix_ifft_numpy zero add ifft irfft ftm L nside false = Ok (ftm', f) /\
  (exists w' out, cuda_backward add zero ifft scale1 scale2 d w data out0 w' out) /\
  forall w' out, cuda_backward add zero ifft scale1 scale2 d w data out0 w' out ->
    vlen out = 12 * nside * nside /\ forall t p, 0 <= t < 4 * nside - 1 -> 0 <= p < ring_length nside t ->
      vat out (ring_start (ring_length nside) t + p)
      = scale1 (ring_length nside t) (vat f (ring_start (ring_length nside) t + p)).
Proof.
  intros Flen Fext Hh Hn HL Hflat Ho. rewrite build_after. pose proof Hflat as (F1 & F2 & F3).
  destruct (healpix_ifft_numpy_spec zero add ifft irfft Flen Fext ftm L nside Hn ltac:(lia) F1
      (fun t Ht => proj1 (F3 t Ht))) as (ftm' & f & E & V & G & _).
  exists ftm', f. split; [exact E|].
  assert (Hh' : Forall call_ok (history ++ [CallBuild nside L reality false true double])%list)
    by (apply Forall_snoc_call; auto).
  destruct (cuda_backward_spec add zero ifft scale1 scale2 Fext Flen _
     (mkDesc nside L reality false (build_norm false true) true double) data out0 Hh' Hn
     ltac:(cbn [d_nside d_L]; lia) eq_refl F2 ltac:(cbn [d_nside d_L]; lia)) as [C1 C2].
  split; [exact C1|]. intros w' out R. destruct (C2 _ _ R) as [Vo Go]. cbn [d_nside d_L] in Vo.
  split; [lia|]. intros t p Ht Hp.
  etransitivity; [exact (Go t p Ht Hp)|]. cbn [build_norm callback_backward fst d_norm d_nside d_L apply_scaling].
  rewrite (G t Ht p Hp).
  pose proof (ring_length_pos nside t Hn Ht). pose proof (ring_length_le nside t).
  f_equal. apply (dft_at ifft Fext Flen); auto.
  split; [reflexivity|]. cbn [vlen ring_spectrum vat]. intros j Hj.
  apply folded_ext; try lia; [apply nphi_half|apply Z.mod_pos_bound; lia|].
  intros. eapply is_flat_row; eauto.
Qed.

(** handles created by repeated builds *)
Lemma init_at_handles id d w ex : nth_error (w_heap w) id = Some ex ->
  w_handles (init_at id d w) = w_handles w + snd (initialize ex d).
Proof. intros E. unfold init_at. rewrite E. destruct (initialize ex d). reflexivity. Qed.
Lemma initialize_handles ex d : 1 <= d_nside d -> snd (initialize ex d) = 2 * d_nside d.
Proof.
  intros. unfold initialize. destruct (init_offsets (d_nside d)) as [[[up low] s] e].
  destruct (callback_forward _ _), (callback_backward _). cbn [snd].
  rewrite zrange_length. lia.
Qed.

Lemma rebuild_handles nside L r f n db k : 1 <= nside ->
  w_handles (after (repeat (CallBuild nside L r f n db) k))
  = if Nat.eqb k 0 then 0 else (Z.of_nat k + 1) * (2 * nside).
Proof.
  intros Hn. set (c := CallBuild nside L r f n db).
  set (d := mkDesc nside L r f (build_norm f n) true db).
  assert (P : forall k, w_handles (after (repeat c (S k))) = (Z.of_nat (S k) + 1) * (2 * nside) /\
     exists id, cache_find d (after (repeat c (S k))) = Some id).
  { clear k. induction k as [|k IH].
    - change (after (repeat c 1)) with (snd (build nside L r f n db empty_world)).
      unfold build. fold d.
      pose proof (get_exec_spec d empty_world cinv_empty Hn) as G.
      pose proof (find_after_get d empty_world cinv_empty Hn) as F.
      assert (Hh : w_handles (snd (get_exec d empty_world)) = 2 * nside).
      { assert (E0 : cache_find d empty_world = None)
          by (unfold cache_find, map_of; destruct (d_double d); reflexivity).
        unfold get_exec. rewrite E0. cbn [empty_world w_heap w_map32 w_map64 w_handles List.length app].
        cbn [snd]. set (w0 := mkWorld [new_executor] [] [] 0).
        transitivity (w_handles (init_at 0 d w0)).
        { destruct (d_double d); reflexivity. }
        rewrite (init_at_handles 0 d w0 new_executor eq_refl), initialize_handles by exact Hn.
        reflexivity. }
      destruct (get_exec d empty_world) as [id w]. cbn [snd] in *.
      destruct G as (_ & _ & ex & E & _).
      rewrite (init_at_handles id d w ex E), initialize_handles by exact Hn.
      split; [change (d_nside d) with nside; lia|]. destruct F as [i F]. exists i. now rewrite find_init_at.
    - destruct IH as [IH1 [id IH2]].
      replace (repeat c (S (S k))) with (repeat c (S k) ++ [c])%list by (now rewrite <- repeat_cons).
      unfold after. rewrite fold_left_app. fold (after (repeat c (S k))).
      set (w := after (repeat c (S k))) in *.
      cbn [fold_left after_call c]. unfold build. fold d.
      assert (Hw : cinv w).
      { apply cinv_after. apply Forall_forall. intros x Hx. apply repeat_spec in Hx. subst x. exact Hn. }
      pose proof (get_exec_spec d w Hw Hn) as G.
      destruct (get_exec_hit_handles d w id IH2) as [H1 H2].
      destruct (get_exec d w) as [i w1]. cbn [snd] in *. destruct G as (_ & _ & ex & E & _).
      rewrite (init_at_handles i d w1 ex E), initialize_handles by exact Hn.
      split; [change (d_nside d) with nside; lia|]. exists id. now rewrite find_init_at. }
  destruct k as [|k]; [reflexivity|]. cbn [Nat.eqb]. apply P.
Qed.

(** The coefficient rotation computes the D-matrix products; rotations of signals. *)
From Coq Require Import Reals ZifyBool Lra.
From Coquelicot Require Import Complex.
From Verif Require Import Lib.Py Lib.PyFacts Lib.Vec Lib.VecFacts Lib.Sums Lib.Cplx Lib.Arr Lib.ArrFacts Lib.MatFacts
  Model.Index Model.Samples Model.Grids Model.Quadrature Model.Spherical Model.Risbo Model.Rotation
  Spec.SamplesSpec Spec.WignerSpec Spec.SphereSpec Spec.GridSpec Spec.SphericalSpec Spec.QuadSpec Spec.RotationSpec
  Proofs.WignerDh Proofs.WignerCalc Proofs.WignerFourier Proofs.RisboProofs Proofs.RotationTheory Proofs.SphGrid Proofs.SphInverse Proofs.SphForward Proofs.SphForwardTop Proofs.SphRound Proofs.SphFacts.
Open Scope string_scope.
Open Scope Z_scope.

Lemma in_shape3 a b c i j k : in_shape [a; b; c] [i; j; k] <-> 0 <= i < a /\ 0 <= j < b /\ 0 <= k < c.
Proof. cbn. tauto. Qed.
Lemma sum_over_ok l f F : (forall n, In n l -> f n = Ok (F n)) -> sum_over l f = Ok (csum l F).
Proof.
  intros H. unfold sum_over.
  assert (G : forall a, foldM (fun acc n => let* x := f n in Ok (acc + x)%C) l a = Ok (a + csum l F)%C).
  { induction l as [|n l IH]; intros a; cbn [foldM suml fold_right]; [now rewrite Cplus_0_r|].
    rewrite H by now left. cbn [bind]. rewrite IH by (intros; apply H; now right). cbn [suml fold_right]. f_equal. unfold suml. ring. }
  rewrite G. f_equal. ring.
Qed.
Lemma vread_in {T} (v : vec T) i : 0 <= i < vlen v -> vread v i = Ok (vat v i).
Proof. intros H. unfold vread. now rewrite norm_index_in. Qed.

Definition rot_sum (alpha beta gamma : R) (c : Z -> Z -> C) (l m : Z) : C :=
  csum (zrange (- l) (l + 1)) (fun n => (wigner_D l m n alpha beta gamma * c l n)%C).
Lemma rotate_degree_ok entry alpha beta gamma flm L el out : 0 <= el < L -> shape flm = [L; 2 * L - 1] -> shape out = [L; 2 * L - 1] ->
  (forall m n, - el <= m <= el -> - el <= n <= el -> entry (m + L - 1) (n + L - 1) = Ok (wigner_d el m n beta)) ->
  exists a, rotate_degree entry (exp_array L alpha) (exp_array L gamma) flm L el out = Ok a /\ shape a = [L; 2 * L - 1] /\
    forall r m, get a [r; (m + L - 1)%Z] = (get out [r; (m + L - 1)%Z] + (if ((r =? el) && (Z.abs m <=? el))%Z then rot_sum alpha beta gamma (stored L flm) el m else RtoC 0))%C.
Proof.
  intros Hel Hf Ho He. unfold rotate_degree. replace (Z.min el (L - 1)) with el by lia.
  assert (A : acc Cplus (foldM (fun out m =>
    let* a := vread (exp_array L alpha) (m + L - 1) in
    let* v := sum_over (zrange (- el) (el + 1)) (fun n =>
      let* d := entry (m + L - 1) (n + L - 1) in
      let* g := vread (exp_array L gamma) (n + L - 1) in
      let* x := aread flm [el; n + L - 1] in
      Ok ((RtoC d * a) * (g * x))%C) in
    caplus out [el; L - 1 + m] v) (zrange (- el) (el + 1)) out) out
    (fun ix => csum (zrange (- el) (el + 1)) (fun m => one_at (RtoC 0) [el; L - 1 + m] (rot_sum alpha beta gamma (stored L flm) el m) ix))).
  { apply (acc_foldM (RtoC 0) (RtoC 1) Cplus Cmult Cminus Copp C_ring_theory). intros a' m Ha Hm. apply in_zrange in Hm.
    rewrite vread_in by (unfold exp_array; cbn [vlen]; lia). cbn [bind].
    rewrite (sum_over_ok _ _ (fun n => (wigner_D el m n alpha beta gamma * stored L flm el n)%C)).
    2: { intros n Hn. apply in_zrange in Hn. rewrite He by lia. cbn [bind]. rewrite vread_in by (unfold exp_array; cbn [vlen]; lia). cbn [bind].
         rewrite aread_in by (rewrite Hf; apply in_shape2; lia). cbn [bind]. f_equal. unfold wigner_D, stored, exp_array. cbn [vat].
         replace (- L + 1 + (m + L - 1)) with m by lia. replace (- L + 1 + (n + L - 1)) with n by lia. ring. }
    cbn [bind]. apply (aplus_acc (RtoC 0) (RtoC 1) Cplus Cmult Cminus Copp C_ring_theory). rewrite Ha, Ho. apply in_shape2; lia. }
  destruct A as (a & E & Sa & Ga). exists a. split; [exact E|]. split; [congruence|]. intros r m. rewrite Ga. f_equal.
  destruct ((r =? el) && (Z.abs m <=? el)) eqn:Q.
  - rewrite (cr_ext _ _ _ (fun k => if k =? m then rot_sum alpha beta gamma (stored L flm) el k else RtoC 0)).
    + rewrite cr_delta by lia. reflexivity.
    + intros k Hk. rewrite one_at2. assert (r = el) by lia. subst r. rewrite Z.eqb_refl. cbn [andb].
      destruct (Z.eqb_spec k m) as [->|]; [now replace (L - 1 + m =? m + L - 1) with true by lia|now replace (L - 1 + k =? m + L - 1) with false by lia].
  - apply cr_0. intros k Hk. rewrite one_at2. destruct ((el =? r) && (L - 1 + k =? m + L - 1)) eqn:Q2; [lia|reflexivity].
Qed.

Section Rot.
  Variables (flm : ndarray C) (L : Z) (alpha beta gamma : R).
  Hypothesis (HL : 1 <= L) (Hf : shape flm = [L; 2 * L - 1]).
  Let out_ok (k : Z) (out : ndarray C) : Prop := shape out = [L; 2 * L - 1] /\
    forall l m, 0 <= l < L -> - L < m < L -> get out [l; m + L - 1] = if l <? k then rotated alpha beta gamma (stored L flm) l m else RtoC 0.
  Let dl_ok (k : Z) (dl : ndarray R) : Prop := if k =? 0 then arr_eq dl (zeros 0%R [2 * L - 1; 2 * L - 1]) else holds L (k - 1) beta dl.
  Let out_step entry k out : 0 <= k < L -> out_ok k out ->
    (forall m n, - k <= m <= k -> - k <= n <= k -> entry (m + L - 1) (n + L - 1) = Ok (wigner_d k m n beta)) ->
    exists a, rotate_degree entry (exp_array L alpha) (exp_array L gamma) flm L k out = Ok a /\ out_ok (k + 1) a.
  Proof.
    intros Hk (So & Go) He. destruct (rotate_degree_ok entry alpha beta gamma flm L k out Hk Hf So He) as (a & E & Sa & Ga).
    exists a. split; [exact E|]. split; [exact Sa|]. intros l m Hl Hm. rewrite Ga, Go by auto. unfold rotated. fold (rot_sum alpha beta gamma (stored L flm) l m).
    destruct (Z.eqb_spec l k) as [->|]; cbn [andb].
    - replace (k <? k) with false by lia. replace (k <? k + 1) with true by lia. destruct (Z.abs m <=? k); ring.
    - replace (l <? k + 1) with (l <? k) by lia. ring.
  Qed.
  Let out_0 : out_ok 0 (zeros (RtoC 0) (shape flm)).
  Proof. split; [exact Hf|]. intros l m Hl Hm. now replace (l <? 0) with false by lia. Qed.

  Lemma rotate_none : exists a, rotate_flms flm L alpha beta gamma None = Ok a /\ holds_coefficients L a (rotated alpha beta gamma (stored L flm)).
  Proof using HL Hf.
    unfold rotate_flms.
    destruct (foldM_inv (fun k '(dl, out) => dl_ok k dl /\ out_ok k out)
      (fun '(dl, out) el => let* dl := risbo_jax dl beta L el in
          let* out := rotate_degree (fun r c => aread dl [r; c]) (exp_array L alpha) (exp_array L gamma) flm L el out in Ok (dl, out))
      0 L (zeros 0%R [2 * L - 1; 2 * L - 1], zeros (RtoC 0) (shape flm))) as ((dl & out) & E & _ & Ho); [lia| | |].
    - split; [apply arr_eq_refl|exact out_0].
    - intros k (dl & out) Hk (Hd & Ho). destruct (jax_step_ok L beta k dl Hk Hd) as (d & Ed & Hd').
      destruct (out_step (fun r c => aread d [r; c]) k out Hk Ho) as (a & Ea & Ha).
      { intros m n Hm Hn. destruct Hd' as (S1 & G1). rewrite aread_in by (rewrite S1; apply in_shape2; lia). now rewrite G1 by lia. }
      exists (d, a). rewrite Ed. cbn [bind]. rewrite Ea. split; [reflexivity|]. split; [|exact Ha]. unfold dl_ok. replace (k + 1 =? 0) with false by lia.
      now replace (k + 1 - 1) with k by lia.
    - rewrite E. exists out. split; [reflexivity|]. destruct Ho as (So & Go). split; [exact So|]. intros l m Hl Hm. unfold stored. rewrite Go by auto.
      now replace (l <? L) with true by lia.
  Qed.
  Lemma dls_ok : exists d, generate_rotate_dls L beta = Ok d /\ shape d = [L; 2 * L - 1; 2 * L - 1] /\
    forall l m n, 0 <= l < L -> - L < m < L -> - L < n < L -> get d [l; m + L - 1; n + L - 1] = wigner_d l m n beta.
  Proof using HL.
    clear Hf out_0 out_step out_ok. unfold generate_rotate_dls.
    destruct (foldM_inv (fun k '(d, dl) => dl_ok k dl /\ shape d = [L; 2 * L - 1; 2 * L - 1] /\
        forall l m n, 0 <= l < L -> - L < m < L -> - L < n < L -> get d [l; m + L - 1; n + L - 1] = if l <? k then wigner_d l m n beta else 0%R)
      (fun '(dl, dl_iter) el => let* dl_iter := risbo_jax dl_iter beta L el in let* dl := plane_add dl el dl_iter in Ok (dl, dl_iter))
      0 L (zeros 0%R [L; 2 * L - 1; 2 * L - 1], zeros 0%R [2 * L - 1; 2 * L - 1])) as ((d & dl) & E & _ & Sd & Gd); [lia| | |].
    - split; [apply arr_eq_refl|]. split; [reflexivity|]. intros l m n Hl Hm Hn. now replace (l <? 0) with false by lia.
    - intros k (d & dl) Hk (Hd & Sd & Gd). destruct (jax_step_ok L beta k dl Hk Hd) as (e & Ee & He). rewrite Ee. cbn [bind]. unfold plane_add, dim0.
      rewrite Sd. cbn [nth tl]. rewrite norm_index_in by lia. destruct He as (S1 & G1). rewrite S1. 
      replace (shape_is [2 * L - 1; 2 * L - 1] [2 * L - 1; 2 * L - 1]) with true by (unfold shape_is; destruct list_eq_dec; congruence).
      cbn [bind]. eexists (_, _). split; [reflexivity|]. split; [|split].
      + unfold dl_ok. replace (k + 1 =? 0) with false by lia. replace (k + 1 - 1) with k by lia. split; auto.
      + reflexivity.
      + intros l m n Hl Hm Hn. cbn [get nth tl]. rewrite Gd, G1 by lia. destruct (Z.eqb_spec l k) as [->|].
        * replace (k <? k) with false by lia. replace (k <? k + 1) with true by lia. ring.
        * now replace (l <? k + 1) with (l <? k) by lia.
    - rewrite E. exists d. split; [reflexivity|]. split; [exact Sd|]. intros l m n Hl Hm Hn. rewrite Gd by auto. now replace (l <? L) with true by lia.
  Qed.
  Lemma rotate_some d : shape d = [L; 2 * L - 1; 2 * L - 1] ->
    (forall l m n, 0 <= l < L -> - l <= m <= l -> - l <= n <= l -> get d [l; m + L - 1; n + L - 1] = wigner_d l m n beta) ->
    forall beta', exists a, rotate_flms flm L alpha beta' gamma (Some d) = Ok a /\ holds_coefficients L a (rotated alpha beta gamma (stored L flm)).
  Proof using HL Hf.
    intros Sd Gd beta'. unfold rotate_flms.
    destruct (foldM_inv out_ok (fun out el => rotate_degree (fun r c => aread d [el; r; c]) (exp_array L alpha) (exp_array L gamma) flm L el out)
      0 L (zeros (RtoC 0) (shape flm))) as (out & E & So & Go); [lia|exact out_0| |].
    - intros k out Hk Ho. apply out_step; auto. intros m n Hm Hn. rewrite aread_in by (rewrite Sd; apply in_shape3; lia). now rewrite Gd by lia.
    - exists out. split; [exact E|]. split; [exact So|]. intros l m Hl Hm. unfold stored. rewrite Go by auto. now replace (l <? L) with true by lia.
  Qed.
End Rot.

(** ** rotation of the signal *)
Lemma synth_rotated L c alpha beta gamma theta phi theta' phi' :
  direction theta phi = euler alpha beta gamma (direction theta' phi') ->
  synth L 0 (rotated alpha beta gamma c) theta phi = synth L 0 c theta' phi'.
Proof.
  intros HD. unfold synth. apply cr_ext. intros l Hl.
  rewrite (cr_ext (- l) (l + 1) _ (fun m => csum (zrange (- l) (l + 1)) (fun n => (c l n * (wigner_D l m n alpha beta gamma * sYlm 0 l m theta phi))%C))).
  2: { intros m Hm. unfold rotated. replace (Z.abs m <=? l) with true by lia. rewrite <- cs_scal_r. apply cr_ext. intros n Hn. ring. }
  rewrite cs_swap. apply cr_ext. intros n Hn. rewrite cs_scal_l. f_equal.
  unfold sYlm. cbn [Z.opp]. rewrite (wigner_dh l n) by lia. 
  assert (H := harm_rotate l (l + n) alpha beta gamma theta phi theta' phi' ltac:(lia) ltac:(lia) HD). unfold harm in H.
  replace (l + n - l) with n in H by lia. fold (D (2 * l) (l + n) (l + 0) theta'). rewrite Z.add_0_r.
  rewrite RtoC_mult, <- Cmult_assoc, <- H, <- cs_scal_l, <- (cr_perm (- l) (l + 1) 0 (2 * l + 1) (fun m => l + m)) by lia.
  apply cr_ext. intros m Hm. unfold wigner_D, DD. rewrite !wigner_dh by lia. fold (D (2 * l) (l + m) (l + n) beta) (D (2 * l) (l + m) (l + 0) theta).
  rewrite Z.add_0_r. replace (l + m - l) with m by lia. replace (l + n - l) with n by lia. rewrite !RtoC_mult. ring.
Qed.

(** the coefficients of a signal are determined by its values *)
Lemma synth_unique L spin c c' : 1 <= L -> (forall theta phi, synth L spin c theta phi = synth L spin c' theta phi) ->
  forall el m, 0 <= el < L -> - L < m < L -> restricted 0 spin c el m = restricted 0 spin c' el m.
Proof.
  intros HL HS el m Hel Hm. pose (gl := mkGL (fun _ => vconst 0 0%R) (fun _ => vconst 0 0%R)).
  assert (S : setting "dh" DH L 0 None) by (repeat split; auto; discriminate).
  destruct (weights_ok gl "dh" DH L 0 None) as (w & Ew & _); [apply S|auto|discriminate|discriminate|].
  destruct (weights_exact gl "dh" DH L 0 None w S ltac:(discriminate) ltac:(discriminate) Ew) as (n & th & _ & HW).
  rewrite <- (fsum_round DH L spin 0 n th w (fun t p => synth L spin c (th t) (equi_longitude DH L p)) c) by (auto; discriminate || lia).
  rewrite <- (fsum_round DH L spin 0 n th w (fun t p => synth L spin c (th t) (equi_longitude DH L p)) c') by (auto; discriminate || lia).
  reflexivity.
Qed.

(** Properties of the generated test signals (C39, C35). *)
From Coq Require Import ZArith List Lia Reals Bool String.
From Coquelicot Require Import Complex.
From Verif Require Import Lib.Py Lib.PyFacts Lib.Vec Lib.Cplx Lib.Sums Lib.Arr Model.Index Model.Samples Model.Grids Model.SignalGen Model.Spherical Model.Wigner
  Model.Quadrature Spec.SamplesSpec Spec.WignerSpec Spec.SphereSpec Spec.GridSpec Spec.HealpixFFTSpec Spec.QuadSpec Spec.SphericalSpec Spec.SO3Spec Spec.SignalSpec Proofs.SignalGenProofs Properties.SphericalProps Properties.WignerProps.
Import ListNotations.
Open Scope Z_scope.

(** The index arrays are the documented list [(el, m) for el in range(min_el, L) for m in range(1, el + 1)]. *)
Theorem C39_indices L min_el : 0 <= L -> 0 <= min_el -> complex_el_and_m_indices L min_el = positive_orders min_el L.
Proof. exact (indices_eq L min_el). Qed.
Print Assumptions C39_indices.

(** generate_flm, entry by entry: which draws each coefficient is made of, and the draws left. *)
Theorem C39_flm r L Lo spin reality : 1 <= L -> Z.max Lo (Z.abs spin) <= L ->
  let lo := Z.max Lo (Z.abs spin) in
  exists flm, generate_flm r L Lo spin reality = Ok (flm, mkRng (draws r) (used r + flm_draws lo L reality)) /\
    holds_coefficients L flm (flm_value (draws r) (used r) reality lo L).
Proof. exact (generate_flm_ok r L Lo spin reality). Qed.
Print Assumptions C39_flm.

(** Below the lower band-limit and the spin, and for |m| > el, the coefficients are 0; with reality they
    are those of a real signal, real for m = 0; without, too, the coefficients with m = 0 are real. *)
Theorem C39_flm_admissible r L Lo spin reality flm r' : 1 <= L -> Z.max Lo (Z.abs spin) <= L ->
  generate_flm r L Lo spin reality = Ok (flm, r') ->
  shape flm = [L; 2 * L - 1] /\
  (forall el m, 0 <= el < L -> - L < m < L -> ~ admissible Lo spin L el m -> stored L flm el m = RtoC 0) /\
  (reality = true -> hermitian L (stored L flm)) /\
  (forall el, 0 <= el < L -> Im (stored L flm el 0) = 0%R).
Proof.
  intros HL Hlo E. destruct (C39_flm r L Lo spin reality HL Hlo) as (a & Ea & Sa & Ha). rewrite E in Ea. injection Ea as -> _.
  split; [exact Sa|]. split; [|split].
  - intros el m Hel Hm Hn. rewrite Ha by auto. apply flm_value_zero. unfold admissible in Hn. lia.
  - intros -> el m Hel Hm. rewrite !Ha by lia. now apply (flm_value_hermitian (draws r) (used r) (Z.max Lo (Z.abs spin)) L).
  - intros el Hel. rewrite Ha by lia. unfold flm_value. rewrite andb_false_r. unfold flm_source. cbn [Z.abs Z.eqb].
    now destruct ((el <? Z.max Lo (Z.abs spin)) || (el <? 0)).
Qed.
Print Assumptions C39_flm_admissible.

(** Each draw goes to one coefficient, and the draws used are exactly in the range consumed. *)
Theorem C39_flm_independent lo L reality el m el' m' i : 0 <= lo <= L -> el < L -> el' < L ->
  (reality = true -> 0 <= m /\ 0 <= m') ->
  uses (flm_source lo L el m) i ->
  0 <= i < flm_draws lo L reality /\ (uses (flm_source lo L el' m') i -> el' = el /\ m' = m).
Proof.
  intros Hlo Hel Hel' Hr H. split; [apply (flm_uses_range lo L reality el m); auto; tauto|].
  intros H'. destruct (flm_uses_once lo L el m el' m' i); auto.
Qed.
Print Assumptions C39_flm_independent.

(** A lower limit above the band-limit is rejected. *)
Theorem C39_rejects r L Lo spin reality : L < Z.max Lo (Z.abs spin) -> generate_flm r L Lo spin reality = Err ValueError.
Proof.
  intros H. unfold generate_flm, standard_normal. destruct (L <? 1); [reflexivity|]. cbn [bind].
  destruct (Z.ltb_spec (L - Z.max Lo (Z.abs spin)) 0); [reflexivity|lia].
Qed.
Print Assumptions C39_rejects.

(** generate_flmn, entry by entry. *)
Theorem C39_flmn r L N Lo reality : 1 <= L -> 1 <= N -> Z.max Lo (N - 1) <= L ->
  exists flmn, generate_flmn r L N Lo reality = Ok (flmn, mkRng (draws r) (used r + flmn_draws reality L N Lo)) /\
    holds_coefficients3 L N flmn (flmn_value (draws r) (used r) reality L N Lo).
Proof. exact (generate_flmn_ok r L N Lo reality). Qed.
Print Assumptions C39_flmn.

Theorem C39_flmn_zero r L N Lo reality flmn r' n l m : 1 <= L -> 1 <= N -> Z.max Lo (N - 1) <= L ->
  generate_flmn r L N Lo reality = Ok (flmn, r') -> - N < n < N -> 0 <= l < L -> - L < m < L ->
  l < Lo \/ l < Z.abs n \/ l < Z.abs m -> stored3 L N flmn n l m = RtoC 0.
Proof.
  intros HL HN Hlo E Hn Hl Hm H. destruct (C39_flmn r L N Lo reality HL HN Hlo) as (a & Ea & Sa & Ha). rewrite E in Ea. injection Ea as -> _.
  rewrite Ha by auto. apply flmn_value_out. unfold low3. lia.
Qed.
Print Assumptions C39_flmn_zero.

(** With reality the coefficients are those of a real signal on the rotation group. *)
Theorem C35_generated r L N Lo flmn r' : 1 <= L -> 1 <= N -> Z.max Lo (N - 1) <= L ->
  generate_flmn r L N Lo true = Ok (flmn, r') -> hermitian3 L N (stored3 L N flmn).
Proof.
  intros HL HN Hlo E. destruct (C39_flmn r L N Lo true HL HN Hlo) as (a & Ea & Sa & Ha). rewrite E in Ea. injection Ea as -> _.
  intros n l m Hn Hl Hm. rewrite !Ha by lia. now apply (flmn_value_hermitian (draws r) (used r) L N Lo).
Qed.
Print Assumptions C35_generated.

Theorem C39_flmn_independent reality L N Lo n el m n' el' m' i : Z.max Lo (N - 1) <= L -> - N < n < N -> - N < n' < N -> el < L -> el' < L ->
  (reality = true -> primary3 n m = true /\ primary3 n' m' = true) ->
  uses (flmn_source reality L N Lo n el m) i ->
  0 <= i < flmn_draws reality L N Lo /\ (uses (flmn_source reality L N Lo n' el' m') i -> n' = n /\ el' = el /\ m' = m).
Proof.
  intros HL Hn Hn' Hel Hel' Hr H. split.
  - assert (B := flmn_uses_block reality L N Lo n el m i HL Hn Hel ltac:(tauto) H). unfold flmn_draws.
    assert (A := plane_start_mono reality L N Lo (n + 1) N ltac:(lia) ltac:(lia) HL).
    assert (A' := plane_start_mono reality L N Lo (- N + 1) n ltac:(lia) ltac:(lia) HL).
    assert (plane_start reality L N Lo (- N + 1) = 0) by (unfold plane_start; rewrite zrange_nil by lia; reflexivity). lia.
  - intros H'. destruct (flmn_uses_once reality L N Lo n el m n' el' m' i) as (A & B & C); auto.
Qed.
Print Assumptions C39_flmn_independent.

Theorem C39_rejects_flmn r L N Lo : L < Z.max Lo (N - 1) -> generate_flmn r L N Lo false = Err ValueError.
Proof.
  intros H. unfold generate_flmn. destruct (L <? 1) eqn:E1; [reflexivity|]. destruct (Z.ltb_spec N 1); [reflexivity|]. cbn [orb bind].
  rewrite zrange_cons by lia. cbn [foldM]. unfold generate_plane. unfold complex_normal at 1, standard_normal at 1.
  destruct (Z.ltb_spec (L - Z.max Lo (Z.abs (- N + 1))) 0); [reflexivity|lia].
Qed.
Print Assumptions C39_rejects_flmn.

(** A generated signal survives the reference transforms unchanged. *)
Theorem C39_round_trip gl s r L Lo spin reality minv mfwd o :
  s = MW \/ s = MWSS -> 1 <= L <= 20000 -> 0 <= Lo < L -> Z.abs spin <= L ->
  (sum_method minv \/ fft_method minv) -> (sum_method mfwd \/ fft_method mfwd) ->
  exists flm r' f flm', generate_flm r L Lo spin reality = Ok (flm, r') /\
    inverse_ gl flm L spin (scheme_name s) minv o reality Lo = Ok f /\
    forward_ gl f L spin (scheme_name s) mfwd o reality Lo = Ok flm' /\ arr_eq flm' flm.
Proof.
  intros Hs HL HLo Hsp Hi Hf. destruct (C39_flm r L Lo spin reality ltac:(lia) ltac:(lia)) as (flm & E & _).
  destruct (C39_flm_admissible r L Lo spin reality flm _ ltac:(lia) ltac:(lia) E) as (S & Hz & Hh & _).
  destruct (C24_identity gl s (scheme_name s) flm L spin minv mfwd o reality Lo) as (f & flm' & H1 & H2 & H3); auto.
  - now destruct s.
  - tauto.
  - eexists _, _, f, flm'. eauto.
Qed.
Print Assumptions C39_round_trip.

Theorem C39_wigner_round_trip gl s r L N Lo nside o reality :
  setting (scheme_name s) s L nside o -> s <> HEALPIX -> 1 <= N <= L -> 0 <= Lo < L ->
  (s = GL -> gauss_legendre L (gl_nodes gl L) (gl_weights gl L)) -> small_grid (vat (gl_nodes gl L)) s L nside ->
  exists flmn r' f flmn', generate_flmn r L N Lo reality = Ok (flmn, r') /\
    wigner_inverse gl flmn L N Lo (scheme_name s) reality o = Ok f /\
    wigner_forward gl f L N Lo (scheme_name s) reality o = Ok flmn' /\ arr_eq flmn' flmn.
Proof.
  intros S Hs HN HLo Hg Ha. destruct (C39_flmn r L N Lo reality ltac:(lia) ltac:(lia) ltac:(lia)) as (flmn & E & Sh & _).
  destruct (C34_identity gl s flmn L N Lo nside o reality) as (f & flmn' & H1 & H2 & H3); auto; try lia.
  - intros ->. eapply C35_generated; [| | |exact E]; lia.
  - intros n l m Hn Hl Hm H. eapply C39_flmn_zero; [| | |exact E| | | |exact H]; lia.
  - eexists _, _, f, flmn'. eauto.
Qed.
Print Assumptions C39_wigner_round_trip.

(** Not vacuous: a stream of draws, the coefficients of degree 1 it gives, and the places of the draws. *)
Definition stream : rng := mkRng (fun i => IZR i) 10.
Example C39_ex : exists flm r', generate_flm stream 2 0 0 true = Ok (flm, r') /\
  stored 2 flm 0 0 = RtoC 10 /\ stored 2 flm 1 0 = RtoC 11 /\ stored 2 flm 1 1 = (12%R, 13%R) /\ stored 2 flm 1 (-1) = ((-12)%R, 13%R) /\ used r' = 14.
Proof.
  destruct (C39_flm stream 2 0 0 true ltac:(lia) ltac:(cbn; lia)) as (flm & E & _ & H). exists flm. eexists. split; [exact E|].
  rewrite !H by lia. cbn. repeat split. apply C_eq; cbn; ring.
Qed.
Example C39_indices_ex : complex_el_and_m_indices 4 2 = [(2, 1); (2, 2); (3, 1); (3, 2); (3, 3)].
Proof. reflexivity. Qed.
Example C39_independent_ex : uses (flm_source 0 3 2 (-1)) 10 /\ uses (flm_source 0 3 2 (-1)) 13.
Proof. cbn. auto. Qed.
Example C39_flmn_ex : exists flmn r', generate_flmn stream 2 2 0 true = Ok (flmn, r') /\
  stored3 2 2 flmn 1 1 0 <> RtoC 0 /\ stored3 2 2 flmn (-1) 1 0 = (- Cconj (stored3 2 2 flmn 1 1 0))%C.
Proof.
  destruct (C39_flmn stream 2 2 0 true ltac:(lia) ltac:(lia) ltac:(cbn; lia)) as (flmn & E & _ & H). exists flmn. eexists. split; [exact E|].
  rewrite !H by lia. split.
  - cbn. intros Q. injection Q as Q _. apply eq_IZR in Q. discriminate.
  - cbn. apply C_eq; cbn; ring.
Qed.

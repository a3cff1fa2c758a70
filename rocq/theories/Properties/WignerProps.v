(** Properties of the reference Wigner transforms s2fft/base_transforms/wigner.py. *)
From Coq Require Import Reals Lra.
From Coquelicot Require Import Complex.
From Verif Require Import Lib.Py Lib.Vec Lib.Sums Lib.Cplx Lib.Arr Model.Grids Model.Quadrature Model.Spherical Model.Wigner
  Spec.SamplesSpec Spec.WignerSpec Spec.SphereSpec Spec.GridSpec Spec.HealpixFFTSpec Spec.QuadSpec Spec.SphericalSpec Spec.SO3Spec
  Proofs.SphAngles Proofs.WignerInverse Proofs.WignerRound Proofs.WignerReal Properties.QuadProps Properties.SphericalProps.
Open Scope string_scope.
Open Scope Z_scope.

(** ** C34: synthesis, analysis, round trip *)
Theorem C34_synthesis gl s flmn L N Lo nside o reality :
  setting (scheme_name s) s L nside o -> 1 <= N -> 0 <= Lo < L -> shape flmn = [2 * N - 1; L; 2 * L - 1] ->
  (s = GL -> vlen (gl_nodes gl L) = L) -> (s = HEALPIX -> 2 * nside <= L) -> rings_away (vat (gl_nodes gl L)) s L nside ->
  (reality = true -> forall l, 0 <= l < L -> is_real (stored3 L N flmn 0 l 0)) ->
  exists f, wigner_inverse gl flmn L N Lo (scheme_name s) reality o = Ok f /\
    so3_holds (vat (gl_nodes gl L)) s L N nside f (so3_synth L N (used3 reality Lo (stored3 L N flmn))).
Proof. intros. now apply wigner_inverse_lemma. Qed.
Print Assumptions C34_synthesis.

Theorem C34_analysis gl s f L N Lo nside o reality c :
  setting (scheme_name s) s L nside o -> s <> HEALPIX -> 1 <= N -> 0 <= Lo < L ->
  (s = GL -> gauss_legendre L (gl_nodes gl L) (gl_weights gl L)) -> small_grid (vat (gl_nodes gl L)) s L nside ->
  (reality = true -> hermitian3 L N c) ->
  so3_holds (vat (gl_nodes gl L)) s L N nside f (so3_synth L N c) ->
  exists flmn, wigner_forward gl f L N Lo (scheme_name s) reality o = Ok flmn /\ holds_coefficients3 L N flmn (restricted3 Lo c).
Proof.
  intros S Hs HN HLo Hg Ha Hr HF. apply (wigner_recover gl s L N Lo nside o); auto.
  - intros E. destruct (Hg E) as (H1 & H2 & _). auto.
  - now apply small_forward.
  - now apply small_away.
Qed.
Print Assumptions C34_analysis.

Theorem C34_round_trip gl s flmn L N Lo nside o reality :
  setting (scheme_name s) s L nside o -> s <> HEALPIX -> 1 <= N -> 0 <= Lo < L ->
  (s = GL -> gauss_legendre L (gl_nodes gl L) (gl_weights gl L)) -> small_grid (vat (gl_nodes gl L)) s L nside ->
  shape flmn = [2 * N - 1; L; 2 * L - 1] -> (reality = true -> hermitian3 L N (stored3 L N flmn)) ->
  exists f flmn', wigner_inverse gl flmn L N Lo (scheme_name s) reality o = Ok f /\
    wigner_forward gl f L N Lo (scheme_name s) reality o = Ok flmn' /\
    holds_coefficients3 L N flmn' (restricted3 Lo (stored3 L N flmn)).
Proof.
  intros S Hs HN HLo Hg Ha Hf Hr. apply (wigner_roundtrip gl s L N Lo nside o); auto.
  - intros E. destruct (Hg E) as (H1 & H2 & _). auto.
  - now apply small_forward.
  - now apply small_away.
Qed.
Print Assumptions C34_round_trip.

(** For coefficients supported on Lo <= l, |n| <= l, |m| <= l the round trip is the identity. *)
Theorem C34_identity gl s flmn L N Lo nside o reality :
  setting (scheme_name s) s L nside o -> s <> HEALPIX -> 1 <= N -> 0 <= Lo < L ->
  (s = GL -> gauss_legendre L (gl_nodes gl L) (gl_weights gl L)) -> small_grid (vat (gl_nodes gl L)) s L nside ->
  shape flmn = [2 * N - 1; L; 2 * L - 1] -> (reality = true -> hermitian3 L N (stored3 L N flmn)) ->
  (forall n l m, - N < n < N -> 0 <= l < L -> - L < m < L -> l < Lo \/ l < Z.abs n \/ l < Z.abs m -> stored3 L N flmn n l m = RtoC 0) ->
  exists f flmn', wigner_inverse gl flmn L N Lo (scheme_name s) reality o = Ok f /\
    wigner_forward gl f L N Lo (scheme_name s) reality o = Ok flmn' /\ arr_eq flmn' flmn.
Proof.
  intros S Hs HN HLo Hg Ha Hf Hr H0.
  destruct (C34_round_trip gl s flmn L N Lo nside o reality) as (f & a & E & E' & HC); auto. exists f, a. split; [exact E|]. split; [exact E'|].
  apply (holds_same3 L N _ _ _ HC). split; [exact Hf|]. intros n l m H1 H2 H3. unfold restricted3.
  destruct (Z.leb_spec (Z.max Lo (Z.abs n)) l); [destruct (Z.leb_spec (Z.abs m) l)|]; cbn [andb]; auto; apply H0; auto; lia.
Qed.
Print Assumptions C34_identity.

(** Coefficients outside of the support are not used. *)
Theorem C34_mask gl s flmn flmn' L N Lo nside o :
  setting (scheme_name s) s L nside o -> 1 <= N -> 0 <= Lo < L ->
  shape flmn = [2 * N - 1; L; 2 * L - 1] -> shape flmn' = [2 * N - 1; L; 2 * L - 1] ->
  (s = GL -> vlen (gl_nodes gl L) = L) -> (s = HEALPIX -> 2 * nside <= L) -> rings_away (vat (gl_nodes gl L)) s L nside ->
  (forall n l m, - N < n < N -> Z.max Lo (Z.abs n) <= l < L -> - l <= m <= l -> stored3 L N flmn n l m = stored3 L N flmn' n l m) ->
  exists f f', wigner_inverse gl flmn L N Lo (scheme_name s) false o = Ok f /\
    wigner_inverse gl flmn' L N Lo (scheme_name s) false o = Ok f' /\ arr_eq f f'.
Proof.
  intros S HN HLo Hf Hf' Hg Hh Ha H. apply (wigner_inverse_same gl s flmn flmn' L N Lo Lo nside o false false); auto; try discriminate.
  intros n l m Hn Hl Hm. unfold used3. destruct (Z.ltb_spec l Lo); [reflexivity|]. apply H; lia.
Qed.
Print Assumptions C34_mask.

Theorem C34_rejects gl s flmn f L N Lo nside o reality :
  (shape flmn <> [2 * N - 1; L; 2 * L - 1] -> wigner_inverse gl flmn L N Lo (scheme_name s) reality o = Err AssertionError) /\
  (setting (scheme_name s) s L nside o -> shape f <> 2 * N - 1 :: map_shape s L nside ->
   wigner_forward gl f L N Lo (scheme_name s) reality o = Err AssertionError).
Proof. split; [apply wigner_inverse_rejects|apply wigner_forward_rejects]. Qed.
Print Assumptions C34_rejects.

(** Coefficients of a real signal, band-limits L = 3, N = 2. *)
Definition flmn3 : ndarray C := mkArr [3; 3; 5] (fun ix =>
  let n := nth 0 ix 0 - 1 in let l := nth 1 ix 0 in let m := nth 2 ix 0 - 2 in
  if (Z.abs n <=? l) && (Z.abs m <=? l) then
    (RtoC (sgn (Z.min m 0 + Z.min n 0)) * (RtoC (IZR (l + 1 + (m + n) ^ 2)) + RtoC (IZR (m + n)) * Ci))%C
  else RtoC 0).
Example C34_ex : setting "mw" MW 3 0 None /\ MW <> HEALPIX /\ 1 <= 2 /\ 0 <= 0 < 3 /\ small_grid (fun _ => 0%R) MW 3 0 /\
  shape flmn3 = [2 * 2 - 1; 3; 2 * 3 - 1] /\ hermitian3 3 2 (stored3 3 2 flmn3) /\
  (forall n l m, - 2 < n < 2 -> 0 <= l < 3 -> - 3 < m < 3 -> l < 0 \/ l < Z.abs n \/ l < Z.abs m -> stored3 3 2 flmn3 n l m = RtoC 0) /\
  stored3 3 2 flmn3 1 1 0 <> RtoC 0.
Proof.
  split; [repeat split; auto; try lia; discriminate|]. split; [discriminate|]. split; [lia|]. split; [lia|]. split; [cbn; lia|].
  split; [reflexivity|]. split; [|split].
  - intros n l m Hn Hl Hm. unfold stored3, flmn3. cbn [get nth]. 
    replace (- n + 2 - 1 - 1) with (- n) by lia. replace (n + 2 - 1 - 1) with n by lia.
    replace (- m + 3 - 1 - 2) with (- m) by lia. replace (m + 3 - 1 - 2) with m by lia.
    rewrite !Z.abs_opp. destruct (Z.leb_spec (Z.abs n) l); [|lia]. destruct (Z.leb_spec (Z.abs m) l); [|lia]. cbn [andb].
    replace (- m + - n) with (- (m + n)) by lia.
    replace ((- (m + n)) ^ 2) with ((m + n) ^ 2) by ring. rewrite opp_IZR.
    replace (sgn (Z.min (- m) 0 + Z.min (- n) 0)) with (sgn (m + n) * sgn (Z.min m 0 + Z.min n 0))%R.
    + set (s1 := sgn (m + n)). set (s2 := sgn (Z.min m 0 + Z.min n 0)). unfold Cconj, Cmult, Cplus, RtoC, Ci. cbn. f_equal; ring.
    + rewrite <- sgn_add. rewrite <- (sgn_opp (Z.min (- m) 0 + Z.min (- n) 0)).
      replace (- (Z.min (- m) 0 + Z.min (- n) 0)) with (m + n + (Z.min m 0 + Z.min n 0) - 2 * (Z.min m 0 + Z.min n 0)) by lia.
      now rewrite (sgn_sub _ (2 * _)), sgn_double, Rmult_1_r.
  - intros n l m H1 H2 H3 H4. unfold stored3, flmn3. cbn [get nth].
    replace (n + 2 - 1 - 1) with n by lia. replace (m + 3 - 1 - 2) with m by lia.
    destruct (Z.leb_spec (Z.abs n) l); [destruct (Z.leb_spec (Z.abs m) l)|]; cbn [andb]; auto; lia.
  - unfold stored3, flmn3. cbn. intros E. injection E. lra.
Qed.

(** ** C35: real signals *)
Theorem C35_forward gl s f L N Lo nside o :
  setting (scheme_name s) s L nside o -> 1 <= N -> 0 <= Lo < L -> rule_sizes s L (gl_nodes gl L) (gl_weights gl L) ->
  small_grid (vat (gl_nodes gl L)) s L nside -> (s = HEALPIX -> 2 * nside <= L) ->
  shape f = 2 * N - 1 :: map_shape s L nside -> so3_real_map (vat (gl_nodes gl L)) s L N nside f ->
  exists flmn flmn', wigner_forward gl f L N Lo (scheme_name s) true o = Ok flmn /\ wigner_forward gl f L N Lo (scheme_name s) false o = Ok flmn' /\
    arr_eq flmn flmn' /\ hermitian3 L N (stored3 L N flmn).
Proof.
  intros S HN HLo Hg Ha Hh Hf HR. apply (wigner_forward_real gl s L N Lo nside o f); auto; [now apply small_forward|now apply small_away].
Qed.
Print Assumptions C35_forward.

Theorem C35_inverse gl s flmn L N Lo nside o :
  setting (scheme_name s) s L nside o -> 1 <= N -> 0 <= Lo < L -> shape flmn = [2 * N - 1; L; 2 * L - 1] ->
  (s = GL -> vlen (gl_nodes gl L) = L) -> (s = HEALPIX -> 2 * nside <= L) -> rings_away (vat (gl_nodes gl L)) s L nside ->
  hermitian3 L N (stored3 L N flmn) ->
  exists f f', wigner_inverse gl flmn L N Lo (scheme_name s) true o = Ok f /\
    wigner_inverse gl flmn L N Lo (scheme_name s) false o = Ok f' /\ arr_eq f f' /\ forall ix, in_shape (shape f) ix -> is_real (get f ix).
Proof. apply wigner_inverse_real. Qed.
Print Assumptions C35_inverse.
Example C35_ex : setting "healpix" HEALPIX 4 2 (Some 2) /\ small_grid (fun _ => 0%R) HEALPIX 4 2 /\ 2 * 2 <= 4 /\
  so3_real_map (fun _ => 0%R) HEALPIX 4 3 2 (mkArr (2 * 3 - 1 :: map_shape HEALPIX 4 2) (fun ix => RtoC (IZR (nth 0 ix 0 + nth 1 ix 0)))).
Proof. split; [repeat split; auto; lia|]. split; [cbn; lia|]. split; [lia|]. intros ix _. reflexivity. Qed.
Example C35_mw_ex : exists f, so3_real_map (fun _ => 0%R) MW 3 2 0 f /\ shape f = 2 * 2 - 1 :: map_shape MW 3 0.
Proof.
  destruct (C34_synthesis gl2 MW flmn3 3 2 0 0 None true) as (f & _ & HF); try (repeat split; auto; try lia; discriminate); try lia; try discriminate; try reflexivity.
  - apply small_away. cbn. lia.
  - intros _ l Hl. apply (herm3_real 3 2); [lia|apply C34_ex|lia].
  - exists f. split; [|exact (proj1 HF)]. eexists. split; [exact HF|]. split.
    + exists (fun n th ph => part3 3 n (used3 true 0 (stored3 3 2 flmn3) n) ph th). split.
      * intros n Hn. rewrite <- (Z.opp_involutive n) at 1. apply band_limited_opp. apply part3_band_limited.
      * intros a b g. apply so3_synth_parts.
    + intros a b g. apply so3_synth_real. intros n l m Hn Hl Hm. rewrite !(used3_herm 3 2 _ _ _ _ _ true) by (try apply C34_ex; lia).
      unfold used3. destruct (Z.ltb_spec l 0); [lia|]. now apply C34_ex.
Qed.

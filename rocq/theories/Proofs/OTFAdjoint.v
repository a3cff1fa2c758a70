(** The two latitudinal sums are transposes of each other. *)
From Coq Require Import Reals Lra Lia ZifyBool.
From Coquelicot Require Import Complex.
From Verif Require Import Lib.Py Lib.PyFacts Lib.Sums Lib.Cplx Lib.Vec Lib.Arr Spec.WignerSpec Spec.SamplesSpec Spec.OTFSpec Proofs.TurokProofs.
Open Scope Z_scope.

Lemma steps_transpose L Lo spin mo nt (x : Z -> R) (flm gtm : ndarray C) (re : bool) : 2 <= L -> 0 <= Lo <= L - 2 -> Z.abs spin < L -> mo = 0 \/ mo = 1 ->
  spin_zero L spin flm ->
  csum (zrange 0 nt) (fun t => csum (zrange 0 (2 * L - 1 + mo)) (fun c => get gtm [t; c] *
    (if (c <? mo)%Z then RtoC 0 else if re && (c - mo - (L - 1) <? 0)%Z then RtoC 0 else latitude_sum L Lo spin flm (x t) (c - mo - (L - 1))%Z))%C) =
  csum (zrange (Z.abs spin) L) (fun el => csum (zrange 0 (2 * L - 1)) (fun c =>
    (if (el <? Lo)%Z then RtoC 0 else if re && (c - (L - 1) <? 0)%Z then RtoC 0 else angle_sum L mo spin nt gtm x el (c - (L - 1))%Z) * get flm [el; c])%C).
Proof.
  intros HL HLo Hs Hmo Hz.
  (* the common double sum *)
  set (T := fun el c t => if (el <? Lo) || (re && (c - (L - 1) <? 0)) then RtoC 0
    else (get gtm [t; c + mo]%Z * (RtoC (wigner_d el (c - (L - 1))%Z (- spin)%Z (x t)) * get flm [el; c]))%C).
  transitivity (csum (zrange 0 nt) (fun t => csum (zrange 0 (2 * L - 1)) (fun c => csum (zrange 0 L) (fun el => T el c t)))).
  - apply cr_ext. intros t Ht.
    assert (E : forall f, (mo = 1 -> f 0 = RtoC 0) -> csum (zrange 0 (2 * L - 1 + mo)) f = csum (zrange 0 (2 * L - 1)) (fun c => f (c + mo)%Z)).
    { intros f H. destruct Hmo as [->| ->].
      - rewrite Z.add_0_r. apply cr_ext. intros. now rewrite Z.add_0_r.
      - rewrite cr_cons by lia. rewrite H by reflexivity. rewrite (cr_shift 0 (2 * L - 1) 1 f). change (0 + 1) with 1. apply Cplus_0_l. }
    rewrite E; [|intros ->; cbn; ring]. apply cr_ext. intros c Hc. replace (c + mo <? mo) with false by lia.
    replace (c + mo - mo - (L - 1)) with (c - (L - 1)) by lia. destruct (re && (c - (L - 1) <? 0)) eqn:Er.
    + rewrite cr_0; [ring|]. intros el Hel. unfold T. rewrite Er, orb_true_r. reflexivity.
    + unfold latitude_sum. rewrite (cr_shrink 0 L (Z.max Lo (Z.abs (c - (L - 1)))) L); [|lia|lia|lia|].
      * rewrite <- cs_scal_l. apply cr_ext. intros el Hel. unfold T. rewrite Er. replace (el <? Lo) with false by lia. cbn [orb].
        replace (c - (L - 1) + L - 1)%Z with c by lia. reflexivity.
      * intros el H1 H2. unfold T. rewrite Er. destruct (Z.ltb_spec el Lo); [reflexivity|]. cbn [orb]. rewrite wig_out by lia. ring.
  - symmetry. rewrite <- (cr_shrink 0 L (Z.abs spin) L); [|lia|lia|lia|].
    + rewrite cs_swap. etransitivity; [|apply cs_swap]. apply cr_ext. intros c Hc. rewrite cs_swap. apply cr_ext. intros el Hel.
      unfold T. destruct (el <? Lo); cbn [orb]; [rewrite cr_0; [ring|auto]|]. destruct (re && (c - (L - 1) <? 0)); [rewrite cr_0; [ring|auto]|].
      unfold angle_sum. rewrite <- cs_scal_r. apply cr_ext. intros t Ht. replace (c - (L - 1) + L - 1 + mo)%Z with (c + mo)%Z by lia. ring.
    + intros el H1 H2. apply cr_0. intros c Hc. replace (get flm [el; c]) with (RtoC 0); [ring|]. symmetry.
      replace c with (c - (L - 1) + L - 1) by lia. apply Hz; lia.
Qed.

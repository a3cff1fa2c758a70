(** The latitudinal steps with the option spmd. *)
From Coq Require Import Reals Lra Lia.
From Coquelicot Require Import Complex.
From Verif Require Import Lib.Py Lib.PyFacts Lib.Vec Lib.Sums Lib.Cplx Lib.Arr Lib.Ext Lib.MatFacts Lib.VecFacts Model.Index Model.Samples Model.Grids
  Model.FFT Model.HealpixFFT Model.Turok Model.Resampling Model.Quadrature Model.Spherical Model.Precompute Model.Refine
  Model.PriceMcEwen Model.OTF Model.OTFSpherical Model.Spmd Spec.SpmdSpec.
Open Scope string_scope.
Open Scope Z_scope.

(** ** Computations that fail together *)
Definition rel {A B} (R : A -> B -> Prop) (x : result A) (y : result B) : Prop :=
  match x, y with Ok a, Ok b => R a b | Err e, Err e' => e = e' | _, _ => False end.
Lemma rel_bind {A B A' B'} (R : A -> B -> Prop) (R' : A' -> B' -> Prop) x y f g :
  rel R x y -> (forall a b, R a b -> rel R' (f a) (g b)) -> rel R' (bind x f) (bind y g).
Proof. destruct x, y; cbn; intros H K; try contradiction; auto. Qed.
Lemma rel_foldM {A B X} (R : A -> B -> Prop) (f : A -> X -> result A) (g : B -> X -> result B) l :
  (forall a b x, R a b -> rel R (f a x) (g b x)) -> forall a b, R a b -> rel R (foldM f l a) (foldM g l b).
Proof.
  intros H. induction l as [|x l IH]; intros a b Hab; cbn [foldM]; [exact Hab|].
  specialize (H a b x Hab). destruct (f a x), (g b x); cbn in H; try contradiction; cbn; auto.
Qed.
Lemma rel_refl {A} (R : A -> A -> Prop) x : (forall a, R a a) -> rel R x x.
Proof. destruct x; cbn; auto. Qed.
Lemma rel_weaken {A B} (R R' : A -> B -> Prop) x y : (forall a b, R a b -> R' a b) -> rel R x y -> rel R' x y.
Proof. destruct x, y; cbn; auto. Qed.

(** ** A half of the recursion is its head followed by its loop *)
Lemma half_split {A} emit one pre beta L L0 mm i (acc : A) :
  pm_half emit one pre beta L L0 mm i acc
  = let* st := pm_head emit pre beta L L0 mm i acc in pm_loop emit one pre (pm_lamb beta L L0 mm i) L L0 i st.
Proof.
  unfold pm_half, pm_half_to, pm_head. destruct (vread (pm_cpi pre) 0); [cbn [bind]|reflexivity].
  destruct (vread (pm_vsign pre) _); [cbn [bind]|reflexivity].
  change (fun j k => emul (emul (Fin 1) (Fin (a0 k))) (eexp (pm_lrenorm pre i j k))) with (pm_factor (fun _ _ => Fin 1) a0 (pm_lrenorm pre i)).
  destruct (emit acc _ _ _ _); [cbn [bind]|reflexivity].
  destruct (vread (pm_vsign pre) _); [cbn [bind]|reflexivity].
  match goal with |- bind ?x _ = bind (bind ?y _) _ => change y with x; destruct x; [cbn [bind]|reflexivity] end.
  unfold pm_loop. f_equal.
Qed.

(** ** Arrays of one extent with the same entries *)
Definition mrel (n m : Z) (a b : ndarray ecx) : Prop := exists F, is_mat a n m F /\ is_mat b n m F.
Lemma mrel_refl n m a : shape a = [n; m] -> mrel n m a a.
Proof. intros H. exists (at2 a). split; now apply is_mat_self. Qed.
Lemma mrel_eq n m a b : mrel n m a b -> arr_eq a b.
Proof. intros (F & H1 & H2). eapply is_mat_eq; eauto. Qed.
Lemma mrel_trans n m a b c : mrel n m a b -> mrel n m b c -> mrel n m a c.
Proof.
  intros (F & H1 & H2) (G & H3 & H4). exists F. split; [exact H1|]. eapply is_mat_ext; [exact H4|]. intros r k Hr Hk.
  rewrite <- (proj2 H2), <- (proj2 H3) by auto. reflexivity.
Qed.
Lemma rel_trans n m x y z : rel (mrel n m) x y -> rel (mrel n m) y z -> rel (mrel n m) x z.
Proof. destruct x, y, z; cbn; intros; try contradiction; try congruence. eapply mrel_trans; eauto. Qed.

Lemma inv_emit_rel flm nt nl mo n m a b idx lo rlo P : mrel n m a b ->
  rel (mrel n m) (inv_emit flm nt nl mo a idx lo rlo P) (inv_emit flm nt nl mo b idx lo rlo P).
Proof.
  intros (F & H1 & H2). unfold inv_emit. destruct (norm_index (dim1 flm) idx); [|reflexivity].
  destruct (blen _ _); cbn [bind]; [|reflexivity]. unfold col_set.
  rewrite (is_mat_dim1 _ _ _ _ H1), (is_mat_dim1 _ _ _ _ H2), (is_mat_dim0 _ _ _ _ H1), (is_mat_dim0 _ _ _ _ H2).
  destruct (norm_index m _); [|reflexivity]. destruct (_ =? n); [|reflexivity]. cbn [rel].
  eexists. split; [apply is_mat_mat|]. eapply is_mat_ext; [apply is_mat_mat|]. intros r c Hr Hc. cbn beta.
  rewrite (proj2 H1), (proj2 H2) by auto. reflexivity.
Qed.
Lemma fwd_emit_rel ftm nt nl mo n m a b idx lo rlo P : mrel n m a b ->
  rel (mrel n m) (fwd_emit ftm nt nl mo a idx lo rlo P) (fwd_emit ftm nt nl mo b idx lo rlo P).
Proof.
  intros (F & H1 & H2). unfold fwd_emit.
  rewrite (is_mat_dim1 _ _ _ _ H1), (is_mat_dim1 _ _ _ _ H2), (is_mat_dim0 _ _ _ _ H1), (is_mat_dim0 _ _ _ _ H2).
  destruct (norm_index (dim1 ftm) _); [|reflexivity]. destruct (norm_index m idx); [|reflexivity].
  destruct (negb _); [reflexivity|]. destruct (_ || _); [|reflexivity]. cbn [rel].
  eexists. split; [apply is_mat_mat|]. eapply is_mat_ext; [apply is_mat_mat|]. intros r c Hr Hc. cbn beta.
  rewrite (proj2 H1), (proj2 H2) by auto. reflexivity.
Qed.

(** The accumulator changes, the planes do not *)
Definition srel {A B} (R : A -> B -> Prop) (x : pm_state A) (y : pm_state B) : Prop :=
  match x, y with (a, d, i0, i1, lr), (b, d', i0', i1', lr') => R a b /\ d = d' /\ i0 = i0' /\ i1 = i1' /\ lr = lr' end.
Section Sim.
  Context {A B : Type} (R : A -> B -> Prop) (ea : A -> Z -> Z -> Z -> plane -> result A) (eb : B -> Z -> Z -> Z -> plane -> result B).
  Hypothesis HE : forall a b idx lo rlo P, R a b -> rel R (ea a idx lo rlo P) (eb b idx lo rlo P).
  Variables (one : Z -> Z -> pm_pre -> Z -> Z -> Z -> bool) (pre : pm_pre) (beta : vec Rdefinitions.R) (L L0 mm i : Z).

  Lemma head_rel a b : R a b -> rel (srel R) (pm_head ea pre beta L L0 mm i a) (pm_head eb pre beta L L0 mm i b).
  Proof.
    intros H. unfold pm_head. destruct (vread (pm_cpi pre) 0); [cbn [bind]|reflexivity].
    destruct (vread (pm_vsign pre) _); [cbn [bind]|reflexivity]. eapply rel_bind; [apply HE, H|]. intros a2 b2 H2.
    destruct (vread (pm_vsign pre) _); [cbn [bind]|reflexivity]. eapply rel_bind; [apply HE, H2|]. intros a4 b4 H4.
    cbn. auto.
  Qed.
  Lemma body_rel lamb x y m : srel R x y -> rel (srel R) (pm_body ea one pre lamb L L0 i x m) (pm_body eb one pre lamb L L0 i y m).
  Proof.
    destruct x as [[[[a d] i0] i1] lr], y as [[[[b d'] i0'] i1'] lr']. intros (H & <- & <- & <- & <-). unfold pm_body.
    destruct (vread (pm_cpi pre) _); [cbn [bind]|reflexivity]. destruct (vread (pm_cp2 pre) _); [cbn [bind]|reflexivity].
    destruct (vread (pm_vsign pre) _); [cbn [bind]|reflexivity]. eapply rel_bind; [apply HE, H|]. intros a4 b4 H4. cbn. auto 6.
  Qed.
  Lemma loop_rel lamb x y : srel R x y -> rel R (pm_loop ea one pre lamb L L0 i x) (pm_loop eb one pre lamb L L0 i y).
  Proof.
    intros H. unfold pm_loop. eapply rel_bind; [apply rel_foldM; [|exact H]; intros; now apply body_rel|].
    intros [[[[a d] i0] i1] lr] [[[[b d'] i0'] i1'] lr'] (H' & _). exact H'.
  Qed.
  Lemma half_rel a b : R a b -> rel R (pm_half ea one pre beta L L0 mm i a) (pm_half eb one pre beta L L0 mm i b).
  Proof. intros H. rewrite !half_split. eapply rel_bind; [apply head_rel, H|]. intros. now apply loop_rel. Qed.
End Sim.

(** ** One device of the inverse step *)
Section Device.
  Variables (flm : ndarray C) (nt M nl mo d ops : Z) (pre : pm_pre) (beta : vec R) (L L0 mm i : Z).
  Definition block_state (st : pm_state (ndarray ecx)) : pm_state (ndarray ecx) :=
    let '(a, dl, i0, i1, lr) := st in
    (block_rows d ops a, block_plane d ops dl, block_plane d ops i0, block_plane d ops i1, block_plane d ops lr).
  Definition brel (a b : ndarray ecx) : Prop := b = block_rows d ops a /\ shape a = [nt; M].
  Lemma emit_block a idx lo rlo P : shape a = [nt; M] ->
    rel brel (inv_emit flm nt nl mo a idx lo rlo P) (inv_emit flm ops nl mo (block_rows d ops a) idx lo rlo (block_plane d ops P)).
  Proof.
    intros H. unfold inv_emit. destruct (norm_index (dim1 flm) idx); [|reflexivity]. destruct (blen _ _); cbn [bind]; [|reflexivity].
    unfold col_set. change (dim1 (block_rows d ops a)) with (dim1 a). destruct (norm_index (dim1 a) _); [|reflexivity].
    cbn [vlen]. replace (nt =? dim0 a) with true by (unfold dim0; rewrite H; cbn [nth]; now rewrite Z.eqb_refl).
    change (ops =? dim0 (block_rows d ops a)) with (ops =? ops). rewrite Z.eqb_refl. split; [reflexivity|].
    unfold dim0, dim1. rewrite H. reflexivity.
  Qed.
  Definition bstate (x y : pm_state (ndarray ecx)) : Prop := y = block_state x /\ let '(a, _, _, _, _) := x in shape a = [nt; M].
  Lemma body_block x y m : bstate x y ->
    rel bstate (pm_body (inv_emit flm nt nl mo) one_by_position pre (pm_lamb beta L L0 mm i) L L0 i x m)
      (pm_body (inv_emit flm ops nl mo) one_by_position (block_pre d ops pre) (pm_lamb (block_angles d ops beta) L L0 mm i) L L0 i y m).
  Proof.
    destruct x as [[[[a dl] i0] i1] lr]. intros (-> & H). unfold pm_body, block_state. cbn [pm_cpi pm_cp2 pm_vsign block_pre].
    destruct (vread (pm_cpi pre) _); [cbn [bind]|reflexivity]. destruct (vread (pm_cp2 pre) _); [cbn [bind]|reflexivity].
    destruct (vread (pm_vsign pre) _); [cbn [bind]|reflexivity].
    eapply rel_bind; [apply emit_block, H|]. intros a' b' (-> & H'). split; [reflexivity|exact H'].
  Qed.
  Lemma loop_block st : (let '(a, _, _, _, _) := st in shape a = [nt; M]) ->
    rel brel (pm_loop (inv_emit flm nt nl mo) one_by_position pre (pm_lamb beta L L0 mm i) L L0 i st)
      (pm_loop (inv_emit flm ops nl mo) one_by_position (block_pre d ops pre) (pm_lamb (block_angles d ops beta) L L0 mm i) L L0 i (block_state st)).
  Proof.
    intros H. unfold pm_loop. eapply rel_bind; [apply (rel_foldM bstate); [intros; now apply body_block|split; [reflexivity|exact H]]|].
    intros [[[[a dl] i0] i1] lr] y (-> & H'). split; [reflexivity|exact H'].
  Qed.
End Device.

(** ** All devices *)
Lemma devices_ok {T} ndev (run : Z -> result T) (v : Z -> T) : 0 <= ndev -> (forall d, 0 <= d < ndev -> run d = Ok (v d)) ->
  on_devices ndev run = Ok (map v (zrange 0 ndev)).
Proof.
  intros Hn H. unfold on_devices.
  destruct (foldM_inv (fun k acc => acc = map v (zrange 0 k)) (fun acc d => let* x := run d in Ok (acc ++ [x])%list) 0 ndev [] Hn) as (s & -> & ->); [reflexivity| |reflexivity].
  intros d s Hd ->. rewrite H by lia. cbn [bind]. eexists. split; [reflexivity|]. rewrite zrange_snoc, map_app by lia. reflexivity.
Qed.
Lemma devices_err {T} ndev (run : Z -> result T) e : 1 <= ndev -> run 0 = Err e -> on_devices ndev run = Err e.
Proof. intros Hn H. unfold on_devices. rewrite zrange_cons by lia. cbn [foldM]. rewrite H. reflexivity. Qed.
Lemma nth_devices {T} ndev (v : Z -> T) d x : 0 <= d < ndev -> nth (Z.to_nat d) (map v (zrange 0 ndev)) x = v d.
Proof.
  intros Hd. rewrite (nth_indep _ x (v 0)) by (rewrite map_length, zrange_length; lia).
  rewrite (map_nth v). f_equal. unfold zrange. rewrite (nth_indep _ 0 (0 + Z.of_nat 0)) by (rewrite map_length, seq_length; lia).
  rewrite (map_nth (fun k => 0 + Z.of_nat k)), seq_nth by lia. lia.
Qed.

Lemma join_blocks nt M ops ndev a : 1 <= ndev -> ndev * ops = nt -> shape a = [nt; M] ->
  mrel nt M (join_rows nt M ops (map (fun d => block_rows d ops a) (zrange 0 ndev))) a.
Proof.
  intros Hn Ho Ha. exists (at2 a). split; [|now apply is_mat_self]. unfold join_rows. eapply is_mat_ext; [apply is_mat_mat|].
  intros r c Hr Hc. cbn beta. assert (0 < ops) by nia.
  pose proof (Z.div_mod r ops ltac:(lia)). pose proof (Z.mod_pos_bound r ops ltac:(lia)).
  assert (0 <= r / ops < ndev) by nia.
  rewrite nth_devices by auto. unfold block_rows, mat, at2 at 1. cbn [get nth]. f_equal. lia.
Qed.

Section Half.
  Variables (ndev : Z) (flm : ndarray C) (mo M : Z) (pre : pm_pre) (beta : vec R) (L L0 mm i : Z).
  Let nt := vlen beta.
  Hypothesis Hn : 1 <= ndev.

  Lemma inverse_half_ok a : (ndev | nt) -> shape a = [nt; M] ->
    rel (mrel nt M) (inverse_half_spmd ndev flm mo pre beta L L0 mm i a) (pm_half (inv_emit flm nt (L - L0) mo) one_by_position pre beta L L0 mm i a).
  Proof.
    intros (q & Hq) Ha. rewrite half_split. unfold inverse_half_spmd. fold nt.
    assert (HH : rel (srel (fun x y => x = y /\ shape x = [nt; M])) (pm_head (inv_emit flm nt (L - L0) mo) pre beta L L0 mm i a) (pm_head (inv_emit flm nt (L - L0) mo) pre beta L L0 mm i a)).
    { apply head_rel; [|auto]. intros x y idx lo rlo P (<- & Hx).
      pose proof (inv_emit_rel flm nt (L - L0) mo nt M x x idx lo rlo P (mrel_refl _ _ _ Hx)) as K.
      destruct (inv_emit flm nt (L - L0) mo x idx lo rlo P); cbn in K |- *; [|reflexivity]. split; [reflexivity|]. destruct K as (F & K & _). apply K. }
    destruct (pm_head _ _ _ _ _ _ _ _) as [[[[[b dl] i0] i1] lr]|e]; cbn [bind]; [|reflexivity].
    destruct HH as ((_ & Hb) & _).
    assert (Eo : nt / ndev = q) by (rewrite Hq; apply Z.div_mul; lia). rewrite Eo.
    replace (ndev * q =? nt) with true by (symmetry; apply Z.eqb_eq; lia). cbn [negb].
    assert (LB := fun d => loop_block flm nt M (L - L0) mo d q pre beta L L0 mm i (b, dl, i0, i1, lr) Hb).
    unfold block_state in LB.
    destruct (pm_loop (inv_emit flm nt (L - L0) mo) one_by_position pre (pm_lamb beta L L0 mm i) L L0 i (b, dl, i0, i1, lr)) as [r|e] eqn:E.
    - rewrite (devices_ok ndev _ (fun d => block_rows d q r)); [|lia|].
      + cbn [bind rel]. replace (dim1 b) with M by (unfold dim1; now rewrite Hb).
        apply join_blocks; auto; try lia. specialize (LB 0). destruct (pm_loop _ _ _ _ _ _ _ _) in LB; [|contradiction]. apply LB.
      + intros d Hd. specialize (LB d). destruct (pm_loop _ _ _ _ _ _ _ _) in LB |- *; [|contradiction]. now rewrite (proj1 LB).
    - rewrite (devices_err ndev _ e); [reflexivity|exact Hn|]. specialize (LB 0). destruct (pm_loop _ _ _ _ _ _ _ _) in LB |- *; [contradiction|]. cbn in LB. now rewrite LB.
  Qed.
  Lemma inverse_half_rejects a : ~ (ndev | nt) -> exists e, inverse_half_spmd ndev flm mo pre beta L L0 mm i a = Err e.
  Proof.
    intros H. unfold inverse_half_spmd. fold nt. destruct (pm_head _ _ _ _ _ _ _ _) as [[[[[b dl] i0] i1] lr]|e]; cbn [bind]; [|eauto].
    destruct (Z.eqb_spec (ndev * (nt / ndev)) nt) as [Q|Q]; cbn [negb]; [|eauto]. exfalso. apply H. exists (nt / ndev). lia.
  Qed.
End Half.

Lemma pole_set_rel n m a b r c v : mrel n m a b -> rel (mrel n m) (pole_set a r c v) (pole_set b r c v).
Proof.
  intros (F & H1 & H2). unfold pole_set.
  rewrite (is_mat_dim1 _ _ _ _ H1), (is_mat_dim1 _ _ _ _ H2), (is_mat_dim0 _ _ _ _ H1), (is_mat_dim0 _ _ _ _ H2).
  destruct (norm_index n r); [|reflexivity]. destruct (norm_index m c); [|reflexivity]. cbn [rel].
  eexists. split; [apply is_mat_mat|]. eapply is_mat_ext; [apply is_mat_mat|]. intros r' c' Hr Hc. cbn beta.
  rewrite (proj2 H1), (proj2 H2) by auto. reflexivity.
Qed.
Lemma set_poles_rel n m a b flm L spin sampling L0 : mrel n m a b ->
  rel (mrel n m) (set_poles a flm L spin sampling L0) (set_poles b flm L spin sampling L0).
Proof.
  intros H. unfold set_poles. eapply rel_bind.
  - destruct (str_in _ _); [|exact H]. destruct (south_pole _ _ _ _); cbn [bind]; [|reflexivity]. apply pole_set_rel, H.
  - intros a' b' H'. destruct (streq _ _); [|exact H']. destruct (north_pole _ _ _ _); cbn [bind]; [|reflexivity]. apply pole_set_rel, H'.
Qed.

Lemma inverse_step_rel ndev th flm beta L spin nside sampling reality p L0 : 1 <= ndev -> (ndev | vlen beta) ->
  let M := if str_in (lower sampling) ["mwss"; "healpix"] then 2 * L else 2 * L - 1 in
  rel (mrel (vlen beta) M) (inverse_step_spmd ndev th flm beta L spin nside sampling reality p L0)
    (inverse_latitudinal_step_jax th flm beta L spin nside sampling reality p L0).
Proof.
  intros Hn Hd M. unfold inverse_step_spmd, inverse_latitudinal_step_jax. fold M.
  destruct (match p with None => _ | Some q => _ end) as [pre|e]; cbn [bind]; [|reflexivity].
  destruct (pre_fits _ _ _ _); cbn [bind]; [|reflexivity].
  set (z := zeros (fin (RtoC 0)) [vlen beta; M]). assert (Hz : shape z = [vlen beta; M]) by reflexivity. clearbody z.
  unfold pm_halves.
  match goal with |- rel _ (bind ?x (fun f => bind (?h f) _)) (bind (bind ?y ?g) ?k) =>
    assert (HA : rel (mrel (vlen beta) M) (bind x h) (bind y g)) end.
  { eapply rel_bind with (R := mrel (vlen beta) M).
    - destruct reality; [now apply mrel_refl|]. now apply inverse_half_ok.
    - intros x y Hab. eapply rel_trans; [apply inverse_half_ok; auto; destruct Hab as (F & Q & _); apply Q|].
      apply half_rel; [|exact Hab]. intros. now apply inv_emit_rel. }
  match goal with |- rel _ (bind ?x (fun f => bind (?h f) ?k)) (bind ?y ?k') =>
    assert (EB : bind x (fun f => bind (h f) k) = bind (bind x h) k) by (destruct x; reflexivity); rewrite EB end.
  eapply rel_bind; [exact HA|]. intros. now apply set_poles_rel.
Qed.
Lemma inverse_step_type_error ndev th flm beta L spin nside sampling reality p L0 a : 1 <= ndev -> ~ (ndev | vlen beta) ->
  inverse_latitudinal_step_jax th flm beta L spin nside sampling reality p L0 = Ok a ->
  inverse_step_spmd ndev th flm beta L spin nside sampling reality p L0 = Err TypeError.
Proof.
  intros Hn Hd E. unfold inverse_step_spmd. unfold inverse_latitudinal_step_jax in E.
  destruct (match p with None => _ | Some q => _ end) as [pre|e]; cbn [bind] in E |- *; [|discriminate].
  destruct (pre_fits _ _ _ _); cbn [bind] in E |- *; [|discriminate].
  assert (K : forall mo i x y, pm_half (inv_emit flm (vlen beta) (L - L0) mo) one_by_position pre beta L L0 (- spin) i x = Ok y ->
    inverse_half_spmd ndev flm mo pre beta L L0 (- spin) i x = Err TypeError).
  { intros mo i x y. rewrite half_split. unfold inverse_half_spmd. destruct (pm_head _ _ _ _ _ _ _ _) as [[[[[b dl] i0] i1] lr]|e]; cbn [bind]; [|discriminate].
    intros _. destruct (Z.eqb_spec (ndev * (vlen beta / ndev)) (vlen beta)) as [Q|Q]; cbn [negb]; [|reflexivity].
    exfalso. apply Hd. exists (vlen beta / ndev). lia. }
  unfold pm_halves in E. destruct reality.
  - cbn [bind] in E |- *. destruct (pm_half _ _ _ _ _ _ _ 1 _) eqn:E1 in E; [|discriminate]. now rewrite (K _ _ _ _ E1).
  - destruct (pm_half _ _ _ _ _ _ _ 0 _) eqn:E1 in E; [|discriminate]. now rewrite (K _ _ _ _ E1).
Qed.

(** ** Forward on one device *)
Section One.
  Variables (ftm : ndarray C) (nt mo L L0 mm i : Z) (pre : pm_pre) (lamb : Z -> plane) (f0 : ndarray ecx).
  Hypothesis HL : 0 <= L0 <= L.
  Let nl := L - L0.
  Let M := 2 * L - 1.
  Definition frel (a b : ndarray ecx) : Prop :=
    shape a = [L; M] /\ is_mat b nl M (fun r c => at2 a (L0 + r) c) /\
    forall r c, 0 <= r < L0 -> 0 <= c < M -> at2 a r c = at2 f0 r c.
  Lemma emit_one a b idx P : frel a b ->
    rel frel (fwd_emit ftm nt nl mo a idx 0 L0 P) (fwd_emit ftm nt nl mo b idx 0 (L0 - L0) P).
  Proof.
    intros (Ha & Hb & Hl). unfold fwd_emit. rewrite Z.sub_diag.
    assert (D0 : dim0 a = L) by (unfold dim0; now rewrite Ha). assert (D1 : dim1 a = M) by (unfold dim1; now rewrite Ha).
    rewrite (is_mat_dim1 _ _ _ _ Hb), (is_mat_dim0 _ _ _ _ Hb), D0, D1.
    destruct (norm_index (dim1 ftm) _); [|reflexivity]. destruct (norm_index M idx) as [c|]; [|reflexivity].
    destruct (negb _); [reflexivity|]. unfold nl in *. rewrite (slice_len_in (L - L0) 0 (L - L0)), (slice_len_in L L0 L) by lia.
    rewrite (slice_lo_in L L0), (slice_lo_in (L - L0) 0) by lia. replace (L - L0 - 0) with (L - L0) by lia.
    rewrite Z.eqb_refl. cbn [orb rel]. split; [reflexivity|]. split.
    - eapply is_mat_ext; [apply is_mat_mat|]. intros r c' Hr Hc. cbn beta.
      change (at2 (mat L M ?G) (L0 + r) c') with (G (L0 + r) c'). cbn beta. rewrite <- !andb_assoc.
      replace ((L0 <=? L0 + r) && (L0 + r <? L0 + (L - L0))) with true by lia. replace ((0 <=? r) && (r <? 0 + (L - L0))) with true by lia.
      rewrite !andb_true_r. replace (r - 0) with r by lia. replace (L0 + r - L0) with r by lia. rewrite (proj2 Hb) by auto. reflexivity.
    - intros r c' Hr Hc. change (at2 (mat L M ?G) r c') with (G r c'). cbn beta. replace (L0 <=? r) with false by lia. rewrite andb_false_r. cbn [andb]. apply Hl; auto.
  Qed.
  Definition fstate (x y : pm_state (ndarray ecx)) : Prop := srel frel x y.
  Lemma vread_one {T} (v : vec (Z -> T)) k : vread (column_vec 0 nl v) k = vread v k.
  Proof. destruct v; reflexivity. Qed.
  Lemma loop_one x y : srel frel x y ->
    rel frel (pm_loop (fwd_emit ftm nt nl mo) one_by_index pre lamb L L0 i x)
      (pm_loop (fun acc idx lo rlo P => fwd_emit ftm nt nl mo acc idx lo (rlo - L0) P) one_by_index (column_pre 0 nl pre) lamb L L0 i y).
  Proof.
    intros H. unfold pm_loop. eapply rel_bind; [apply (rel_foldM (srel frel)); [|exact H]|].
    - clear x y H. intros [[[[a dl] i0] i1] lr] [[[[b dl'] i0'] i1'] lr'] m (H & <- & <- & <- & <-). unfold pm_body. cbn [pm_cpi pm_cp2 pm_vsign column_pre].
      rewrite !vread_one.
      destruct (vread (pm_cpi pre) _); [cbn [bind]|reflexivity]. destruct (vread (pm_cp2 pre) _); [cbn [bind]|reflexivity].
      destruct (vread (pm_vsign pre) _); [cbn [bind]|reflexivity].
      eapply rel_bind; [apply emit_one, H|]. intros a' b' H'. cbn. repeat (split; [auto|]). reflexivity.
    - intros [[[[a d] i0] i1] lr] [[[[b d'] i0'] i1'] lr'] (H' & _). exact H'.
  Qed.
End One.

Lemma forward_half_ok ftm mo pre beta L L0 mm i a : 0 <= L0 < L -> shape a = [L; 2 * L - 1] ->
  rel (mrel L (2 * L - 1)) (forward_half_spmd 1 ftm mo pre beta L L0 mm i a)
    (pm_half (fwd_emit ftm (vlen beta) (L - L0) mo) one_by_index pre beta L L0 mm i a).
Proof.
  intros HL Ha. rewrite half_split. unfold forward_half_spmd.
  assert (HH : rel (srel (fun x y => x = y /\ shape x = [L; 2 * L - 1])) (pm_head (fwd_emit ftm (vlen beta) (L - L0) mo) pre beta L L0 mm i a) (pm_head (fwd_emit ftm (vlen beta) (L - L0) mo) pre beta L L0 mm i a)).
  { apply head_rel; [|auto]. intros x y idx lo rlo P (<- & Hx).
    pose proof (fwd_emit_rel ftm (vlen beta) (L - L0) mo L (2 * L - 1) x x idx lo rlo P (mrel_refl _ _ _ Hx)) as K.
    destruct (fwd_emit ftm (vlen beta) (L - L0) mo x idx lo rlo P); cbn in K |- *; [|reflexivity]. split; [reflexivity|]. destruct K as (F & K & _). apply K. }
  destruct (pm_head _ _ _ _ _ _ _ _) as [[[[[b dl] i0] i1] lr]|e]; cbn [bind]; [|reflexivity].
  destruct HH as ((_ & Hb) & _). rewrite Z.div_1_r, Z.mul_1_l, Z.eqb_refl. cbn [negb].
  unfold trace_block, blen. rewrite Z.eqb_refl. cbn [bind]. rewrite Z.eqb_refl. cbn [orb bind].
  set (b1 := mat (L - L0) (dim1 b) (fun r c => at2 b (L0 + 0 * (L - L0) + r) c)).
  assert (LO := loop_one ftm (vlen beta) mo L L0 i pre (pm_lamb beta L L0 mm i) b ltac:(lia) (b, dl, i0, i1, lr) (b1, dl, i0, i1, lr)).
  assert (H0 : frel L L0 b b b1).
  { split; [exact Hb|]. split; [|auto]. unfold b1. replace (dim1 b) with (2 * L - 1) by (unfold dim1; now rewrite Hb).
    eapply is_mat_ext; [apply is_mat_mat|]. intros r c Hr Hc. cbn beta. f_equal; lia. }
  specialize (LO (conj H0 (conj eq_refl (conj eq_refl (conj eq_refl eq_refl))))).
  unfold on_devices. change (zrange 0 1) with [0]. cbn [foldM]. fold b1.
  change (column_plane 0 (L - L0) dl) with dl. change (column_plane 0 (L - L0) i0) with i0. change (column_plane 0 (L - L0) i1) with i1. change (column_plane 0 (L - L0) lr) with lr.
  match type of LO with rel _ ?u ?v => destruct u as [r|e]; destruct v as [r'|e']; cbn [rel] in LO; try contradiction end; cbn [bind app rel].
  - destruct LO as (Hr & Hr' & Hl). exists (at2 r). split; [|now apply is_mat_self]. unfold set_from, dim0, dim1. rewrite Hb. cbn [nth].
    eapply is_mat_ext; [apply is_mat_mat|]. intros q c Hq Hc. cbn beta. destruct (Z.leb_spec L0 q); [|symmetry; now apply Hl].
    unfold join_rows, at2 at 1, mat. cbn [get nth]. rewrite Z.div_small, Z.mod_small by lia. cbn [Z.to_nat nth].
    rewrite (proj2 Hr') by lia. f_equal; lia.
  - now f_equal.
Qed.

Lemma pole_add_rel n m a b c L0 v : mrel n m a b -> rel (mrel n m) (pole_add a c L0 v) (pole_add b c L0 v).
Proof.
  intros (F & H1 & H2). unfold pole_add.
  rewrite (is_mat_dim1 _ _ _ _ H1), (is_mat_dim1 _ _ _ _ H2), (is_mat_dim0 _ _ _ _ H1), (is_mat_dim0 _ _ _ _ H2).
  destruct (norm_index m c); [|reflexivity]. cbn [rel].
  eexists. split; [apply is_mat_mat|]. eapply is_mat_ext; [apply is_mat_mat|]. intros r' c' Hr Hc. cbn beta.
  rewrite (proj2 H1), (proj2 H2) by auto. reflexivity.
Qed.

Lemma forward_step_one th ftm beta L spin nside sampling reality p L0 : 0 <= L0 < L ->
  rel (mrel L (2 * L - 1)) (forward_step_spmd 1 th ftm beta L spin nside sampling reality p L0)
    (forward_latitudinal_step_jax th ftm beta L spin nside sampling reality p L0).
Proof.
  intros HL. unfold forward_step_spmd, forward_latitudinal_step_jax.
  destruct (if streq (lower sampling) "mwss" then _ else _) as [ft be].
  destruct (match p with None => _ | Some q => _ end) as [pre|e]; cbn [bind]; [|reflexivity].
  destruct (pre_fits _ _ _ _); cbn [bind]; [|reflexivity].
  set (z := zeros (fin (RtoC 0)) (flm_shape L)). assert (Hz : shape z = [L; 2 * L - 1]) by reflexivity. clearbody z.
  unfold pm_halves.
  match goal with |- rel _ (bind ?x (fun f => bind (?h f) _)) (bind (bind ?y ?g) ?k) =>
    assert (HA : rel (mrel L (2 * L - 1)) (bind x h) (bind y g)) end.
  { eapply rel_bind with (R := mrel L (2 * L - 1)).
    - destruct reality; [now apply mrel_refl|]. now apply forward_half_ok.
    - intros x y Hab. eapply rel_trans; [apply forward_half_ok; auto; destruct Hab as (F & Q & _); apply Q|].
      apply half_rel; [|exact Hab]. intros. now apply fwd_emit_rel. }
  match goal with |- rel _ (bind ?x (fun f => bind (?h f) ?k)) (bind ?y ?k') =>
    assert (EB : bind x (fun f => bind (h f) k) = bind (bind x h) k) by (destruct x; reflexivity); rewrite EB end.
  eapply rel_bind; [exact HA|]. intros x y Hxy. eapply rel_bind with (R := mrel L (2 * L - 1)).
  - destruct (str_in _ _); [|exact Hxy]. unfold add_south. destruct (aread _ _); cbn [bind]; [|reflexivity]. now apply pole_add_rel.
  - intros x' y' Hxy'. destruct (streq _ _); [|exact Hxy']. unfold add_north. destruct (aread _ _); cbn [bind]; [|reflexivity]. now apply pole_add_rel.
Qed.

(** ** Forward on several devices *)
Lemma forward_half_fails ndev ftm mo pre beta L L0 mm i a : 2 <= ndev -> L0 < L ->
  exists e, forward_half_spmd ndev ftm mo pre beta L L0 mm i a = Err e.
Proof.
  intros Hn HL. unfold forward_half_spmd. destruct (pm_head _ _ _ _ _ _ _ _) as [[[[[b dl] i0] i1] lr]|e]; cbn [bind]; [|eauto].
  destruct (Z.eqb_spec (ndev * ((L - L0) / ndev)) (L - L0)) as [Q|Q]; cbn [negb]; [|eauto].
  set (ops := (L - L0) / ndev) in *. clearbody ops. assert (ops < L - L0 /\ 1 <= ops) by nia.
  unfold trace_block, blen. rewrite (proj2 (Z.eqb_neq ops (L - L0))) by lia. destruct (Z.eqb_spec ops 1).
  - cbn [bind]. replace (L - L0 =? ops) with false by lia. replace (L - L0 =? 1) with false by lia. cbn [orb bind]. eauto.
  - replace (L - L0 =? 1) with false by lia. cbn [bind]. eauto.
Qed.
Lemma forward_step_fails ndev th ftm beta L spin nside sampling reality p L0 : 2 <= ndev -> L0 < L ->
  exists e, forward_step_spmd ndev th ftm beta L spin nside sampling reality p L0 = Err e.
Proof.
  intros Hn HL. unfold forward_step_spmd.
  destruct (if streq (lower sampling) "mwss" then _ else _) as [ft be].
  destruct (match p with None => _ | Some q => _ end) as [pre|e]; cbn [bind]; [|eauto].
  destruct (pre_fits _ _ _ _); cbn [bind]; [|eauto].
  destruct reality; cbn [bind].
  - edestruct (forward_half_fails ndev) as (e & ->); [auto|auto|]. cbn [bind]. eauto.
  - edestruct (forward_half_fails ndev) as (e & ->); [auto|auto|]. cbn [bind]. eauto.
Qed.
Lemma forward_jax_fails ndev gl th f L spin nside sampling reality p L0 : 2 <= ndev -> L0 < L ->
  exists e, forward_jax_spmd ndev gl th f L spin nside sampling reality p L0 = Err e.
Proof.
  intros Hn HL. unfold forward_jax_spmd. destruct (otf_prepare _ _ _ _ _ _ _) as [[[f' sm] ths]|e]; cbn [bind]; [|eauto].
  destruct (quad_weights_transform _ _ _ _ _); cbn [bind]; [|eauto]. destruct (otf_analysis _ _ _ _ _ _); cbn [bind]; [|eauto].
  destruct (weigh _ _); cbn [bind]; [|eauto]. destruct (shift_rings _ _ _ _ _ _ _); cbn [bind]; [|eauto].
  edestruct (forward_step_fails ndev) as (e & ->); [auto|auto|]. cbn [bind]. eauto.
Qed.
Lemma otf_forward_fails ndev gl th f L spin nside sampling reality p L0 iter : 2 <= ndev -> L0 < L ->
  exists e, otf_forward_spmd ndev gl th f L spin nside sampling reality p L0 iter = Err e.
Proof.
  intros Hn HL. unfold otf_forward_spmd. destruct (8 <=? spin); [eauto|].
  destruct (forward_jax_fails ndev gl th f L spin nside sampling reality p L0 Hn HL) as (e & E).
  destruct (_ <? _); [|eauto]. unfold refine. rewrite E. cbn [bind]. eauto.
Qed.

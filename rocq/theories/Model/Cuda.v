(** Model of the CUDA extension: ring geometry and kernels (lib/src/s2fft_kernels.cu), store
    callbacks (lib/src/s2fft_callbacks.cu), plan creation and execution (lib/src/s2fft.cu), plan
    cache (lib/src/plan_cache.cc) and entry points (lib/src/extensions.cc).

    C++ % on int is Z.rem (truncated), / is Z.quot. Integers are unbounded here, except in
    [computeNphi32], which checks every intermediate result against the range of int.
    cuFFT itself is a parameter: [dft_fwd], [dft_inv] transform one contiguous ring. *)
From Verif Require Import Lib.Py Lib.Vec.
Open Scope Z_scope.

(** lib/src/s2fft_kernels.cu:10-38 computeNphi: (nphi, offset_ring) *)
Definition computeNphi (nside ring_index : Z) : Z * Z :=
  let total_pixels := 12 * nside * nside in
  let total_rings := 4 * nside - 1 in
  let upper_pixels := nside * (nside - 1) * 2 in
  if ring_index <? nside - 1 then
    (4 * (ring_index + 1), ring_index * (ring_index + 1) * 2)
  else if ring_index >? 3 * nside - 1 then
    let nphi := 4 * (total_rings - ring_index) in
    let nphi := if nphi =? 0 then 4 else nphi in
    let reverse_ring_index := total_rings - ring_index in
    (nphi, total_pixels - reverse_ring_index * (reverse_ring_index + 1) * 2)
  else (4 * nside, upper_pixels + (ring_index - nside + 1) * 4 * nside).

(** The same with 32-bit signed int: None when an intermediate result overflows (undefined
    behaviour in C++). *)
Definition int32 (z : Z) : option Z :=
  if (- 2 ^ 31 <=? z) && (z <? 2 ^ 31) then Some z else None.
Definition obind {X Y} (o : option X) (k : X -> option Y) : option Y :=
  match o with Some x => k x | None => None end.
Notation "'let?' x := o 'in' k" := (obind o (fun x => k))
  (at level 200, x name, o at level 100, k at level 200).
Definition iadd a b : option Z := int32 (a + b).
Definition isub a b : option Z := int32 (a - b).
Definition imul a b : option Z := int32 (a * b).

(** lib/src/s2fft_kernels.cu:10-38, int arithmetic in source order *)
Definition computeNphi32 (nside ring_index : Z) : option (Z * Z) :=
  let? t1 := imul 12 nside in let? total_pixels := imul t1 nside in
  let? t2 := imul 4 nside in let? total_rings := isub t2 1 in
  let? t3 := isub nside 1 in let? t4 := imul nside t3 in let? upper_pixels := imul t4 2 in
  if ring_index <? t3 then
    let? r1 := iadd ring_index 1 in let? nphi := imul 4 r1 in
    let? o1 := imul ring_index r1 in let? o := imul o1 2 in Some (nphi, o)
  else
    let? t5 := imul 3 nside in let? t6 := isub t5 1 in
    if ring_index >? t6 then
      let? d := isub total_rings ring_index in let? nphi := imul 4 d in
      let nphi := if nphi =? 0 then 4 else nphi in
      let? d1 := iadd d 1 in let? o1 := imul d d1 in let? o2 := imul o1 2 in
      let? o := isub total_pixels o2 in Some (nphi, o)
    else
      let? o1 := isub ring_index nside in let? o2 := iadd o1 1 in let? o3 := imul o2 4 in
      let? o4 := imul o3 nside in let? o := iadd upper_pixels o4 in Some (t2, o).

(** C++ remainder followed by the "< 0" fix-up (lines 79-80, 90-91, 189-190, 204-205). *)
Definition crem (a n : Z) : Z :=
  let r := Z.rem a n in if r <? 0 then n + r else r.

(** ** Threads *)
(** Memory instructions of a thread: [data] is read-only, [output] is shared by all threads.
    The two components x and y of an entry are handled alike and are one value here. *)
Inductive instr :=
| LoadData (i : Z)   (* r1 := data[i] *)
| LoadOut0 (i : Z)   (* r0 := output[i] *)
| LoadOut1 (i : Z)   (* r1 := output[i] *)
| AddRegs            (* r0 := r0 + r1 *)
| Store0 (i : Z)     (* output[i] := r0 *)
| Store1 (i : Z).    (* output[i] := r1 *)

Definition copy (dst src : Z) : list instr := [LoadData src; Store1 dst].
Definition add_to (dst src : Z) : list instr := [LoadOut0 dst; LoadData src; AddRegs; Store0 dst].
Definition swap (a b : Z) : list instr := [LoadOut0 a; LoadOut1 b; Store1 a; Store0 b].

(** lib/src/s2fft_kernels.cu:46-109 spectral_folding, one thread per ring *)
Definition folding_program (nside L : Z) (shift : bool) (tid : Z) : list instr :=
  if tid >=? 4 * nside - 1 then [] else
  let '(nphi, ring_offset) := computeNphi nside tid in
  let ftm_offset := tid * (2 * L) in
  let slice_start := L - Z.quot nphi 2 in
  let slice_end := slice_start + nphi in
  (flat_map (fun i => copy (i + ring_offset) (i + ftm_offset + slice_start)) (zrange 0 nphi)
  ++ flat_map (fun i => add_to (crem (- (1 + i)) nphi + ring_offset)
                              (slice_start - (1 + i) + ftm_offset)) (zrange 0 slice_start)
  ++ flat_map (fun i => add_to (crem i nphi + ring_offset) (slice_end + i + ftm_offset))
       (zrange 0 (L - Z.quot nphi 2))
  ++ if shift then
       flat_map (fun i => swap (i + ring_offset) (i + ring_offset + Z.quot nphi 2))
         (zrange 0 (Z.quot nphi 2))
     else [])%list.

(** lib/src/s2fft_kernels.cu:165-209 spectral_extension, one thread per (ring, order) *)
Definition extension_program (nside L tid : Z) : list instr :=
  let ftm_size := 2 * L in
  if tid >=? (4 * nside - 1) * ftm_size then [] else
  let ring_index := Z.quot tid (2 * L) in
  let '(nphi, offset_ring) := computeNphi nside ring_index in
  let offset := Z.rem tid (2 * L) in
  if offset <? L - Z.quot nphi 2 then
    copy tid (crem (- (L - Z.quot nphi 2 - offset)) nphi + offset_ring)
  else if (offset >=? L - Z.quot nphi 2) && (offset <? L + Z.quot nphi 2) then
    copy tid (offset - (L - Z.quot nphi 2) + offset_ring)
  else
    copy tid (crem (L - Z.quot (nphi + 1) 2 - (ftm_size - offset)) nphi + offset_ring).

(** Launch sizes: lines 214-216 and 227-229; grid_size * block_size threads. *)
Definition launched (elements : Z) : Z := Z.quot (elements + 128 - 1) 128 * 128.

Section Machine.
  Context {A : Type} (add : A -> A -> A) (zero : A).

  (** Pointer access: no negative indices, out of bounds is an error. *)
  Definition cread (v : vec A) (i : Z) : result A :=
    if (0 <=? i) && (i <? vlen v) then Ok (vat v i) else Err IndexError.
  Definition cwrite (v : vec A) (i : Z) (x : A) : result (vec A) :=
    if (0 <=? i) && (i <? vlen v) then Ok (mkVec (vlen v) (vupd (vat v) i x)) else Err IndexError.

  Definition regs : Type := A * A.

  (** One instruction of one thread. *)
  Definition exec_instr (data : vec A) (c : instr) (s : regs * vec A) : result (regs * vec A) :=
    let '((r0, r1), out) := s in
    match c with
    | LoadData i => let* x := cread data i in Ok ((r0, x), out)
    | LoadOut0 i => let* x := cread out i in Ok ((x, r1), out)
    | LoadOut1 i => let* x := cread out i in Ok ((r0, x), out)
    | AddRegs => Ok ((add r0 r1, r1), out)
    | Store0 i => let* out := cwrite out i r0 in Ok ((r0, r1), out)
    | Store1 i => let* out := cwrite out i r1 in Ok ((r0, r1), out)
    end.

  (** A kernel in flight: remaining program and registers of each thread, shared output. *)
  Record kernel := mkKernel { k_prog : Z -> list instr; k_regs : Z -> regs; k_out : vec A }.

  (** Thread [t] executes its next instruction (nothing if it has finished). *)
  Definition kstep (data : vec A) (k : kernel) (t : Z) : result kernel :=
    match k_prog k t with
    | [] => Ok k
    | c :: rest =>
        let* s := exec_instr data c (k_regs k t, k_out k) in
        let '(r, out) := s in
        Ok (mkKernel (vupd (k_prog k) t rest) (vupd (k_regs k) t r) out)
    end.

  (** A schedule is any list of thread numbers; the hardware chooses it. *)
  Definition krun (data : vec A) (sched : list Z) (k : kernel) : result kernel :=
    foldM (kstep data) sched k.
  (** <<<grid_size, block_size>>> with [n] threads in total *)
  Definition clip (n : Z) (prog : Z -> list instr) (t : Z) : list instr :=
    if (0 <=? t) && (t <? n) then prog t else [].
  Definition klaunch (n : Z) (prog : Z -> list instr) (out : vec A) : kernel :=
    mkKernel (clip n prog) (fun _ => (zero, zero)) out.
  Definition kfinished (n : Z) (k : kernel) : Prop := forall t, 0 <= t < n -> k_prog k t = [].
End Machine.
Arguments mkKernel {A}.
Arguments k_prog {A}.
Arguments k_regs {A}.
Arguments k_out {A}.

(** ** Plans and executors *)
(** lib/include/s2fft_callbacks.h:15 *)
Inductive fft_norm := FORWARD | BACKWARD | ORTHO | NONE.
Definition fft_norm_eqb (a b : fft_norm) : bool :=
  match a, b with
  | FORWARD, FORWARD | BACKWARD, BACKWARD | ORTHO, ORTHO | NONE, NONE => true
  | _, _ => false
  end.

(** lib/include/s2fft.h:30-60 s2fftDescriptor *)
Record descriptor := mkDesc {
  d_nside : Z; d_L : Z; d_reality : bool; d_forward : bool;
  d_norm : fft_norm; d_shift : bool; d_double : bool }.
(** lib/include/s2fft.h:55-59 operator== (does not compare [forward]; the hash of lines
    99-108 ignores it too) *)
Definition desc_eqb (a b : descriptor) : bool :=
  (d_nside a =? d_nside b) && (d_L a =? d_L b) && Bool.eqb (d_reality a) (d_reality b)
  && fft_norm_eqb (d_norm a) (d_norm b) && Bool.eqb (d_shift a) (d_shift b)
  && Bool.eqb (d_double a) (d_double b).

(** lib/src/s2fft_callbacks.cu:13-24 fft_shift and 26-37 fft_shift_eq *)
Definition fft_shift (offset n dist : Z) : Z :=
  let first := if offset <? dist then 0 else dist in
  Z.rem (offset - first + Z.quot n 2) n + first.
Definition fft_shift_eq (offset n : Z) : Z :=
  let first := Z.quot offset n * n in
  Z.rem (first + Z.rem offset n + Z.quot n 2) n + first.

(** What a store callback does with the scale of an element. *)
Inductive scaling := ScaleNone | ScaleN | ScaleSqrtN.
(** A cuFFT plan: [pl_batch] transforms of length [pl_n], consecutive ones [pl_dist] apart, with
    a store callback that rescales and permutes ([pl_eq] selects fft_shift_eq). *)
Record plan := mkPlan {
  pl_n : Z; pl_dist : Z; pl_batch : Z; pl_eq : bool; pl_shift : bool; pl_scale : scaling }.

(** lib/src/s2fft_callbacks.cu:245-310 setCallback: (scale, shift) of the forward and of the
    backward plan; the double and float branches install the same callback. *)
Definition callback_forward (shift : bool) (norm : fft_norm) : scaling * bool :=
  match norm with
  | ORTHO => (ScaleSqrtN, shift)
  | BACKWARD => (ScaleNone, shift)
  | FORWARD => (ScaleN, shift)
  | NONE => (ScaleNone, shift)
  end.
Definition callback_backward (norm : fft_norm) : scaling * bool :=
  match norm with
  | ORTHO => (ScaleSqrtN, false)
  | BACKWARD => (ScaleN, false)
  | FORWARD => (ScaleNone, false)
  | NONE => (ScaleNone, false)
  end.

(** lib/include/s2fft.h:63-92 s2fftExec: members (those never read are left out); the equator
    plans are unset before Initialize. *)
Record executor := mkExec {
  e_nside : Z;
  e_polar : list plan; e_inv_polar : list plan;
  e_equator : option plan; e_inv_equator : option plan;
  e_eq_start : Z; e_eq_num : Z;
  e_upper : list Z; e_lower : list Z }.
Definition new_executor : executor := mkExec 0 [] [] None None 0 0 [] [].

(** lib/src/s2fft.cu:33-40: ring offsets pushed by one Initialize, and the indices after the
    loop. *)
Definition init_offsets (nside : Z) : list Z * list Z * Z * Z :=
  fold_left (fun st i =>
      let '(up, low, s, e) := st in
      let nphi := 4 * (i + 1) in
      ((up ++ [s])%list, (low ++ [e - nphi])%list, s + nphi, e - nphi))
    (zrange 0 (nside - 1)) ([], [], 0, 12 * nside * nside).

(** lib/src/s2fft.cu:20-116 Initialize. The vectors of an executor that was initialised before
    are extended (push_back), not cleared; lines 48-49 read entries 0..nside-2 of the vectors.
    Created plan handles are counted, none is ever destroyed. Returns the executor and the
    number of handles created. *)
Definition initialize (ex : executor) (d : descriptor) : executor * Z :=
  let nside := d_nside d in
  let '(up, low, s, e) := init_offsets nside in
  let upper := (e_upper ex ++ up)%list in
  let lower := (e_lower ex ++ low)%list in
  let num := Z.quot (e - s) (4 * nside) in
  let '(fs, fsh) := callback_forward (d_shift d) (d_norm d) in
  let '(bs, bsh) := callback_backward (d_norm d) in
  let polar i sc sh :=
    mkPlan (4 * (i + 1)) (nth (Z.to_nat i) lower 0 - nth (Z.to_nat i) upper 0) 2 false sh sc in
  let idx := zrange 0 (nside - 1) in
  (mkExec nside
     (e_polar ex ++ map (fun i => polar i fs fsh) idx)%list
     (e_inv_polar ex ++ map (fun i => polar i bs bsh) idx)%list
     (Some (mkPlan (4 * nside) (4 * nside) num true fsh fs))
     (Some (mkPlan (4 * nside) (4 * nside) num true bsh bs))
     s num upper lower,
   2 * Z.of_nat (List.length idx) + 2).

Section Exec.
  Context {A : Type} (add : A -> A -> A) (zero : A).
  (** cuFFT on one ring of samples, unnormalised; [scale1 n] multiplies by 1/n, [scale2 n] by
      1/sqrt n (lib/src/s2fft_callbacks.cu:39-51; the rounding of the factor to float is not
      modelled). *)
  Context (dft_fwd dft_inv : vec A -> vec A) (scale1 scale2 : Z -> A -> A).

  Definition apply_scaling (s : scaling) (n : Z) (x : A) : A :=
    match s with ScaleNone => x | ScaleN => scale1 n x | ScaleSqrtN => scale2 n x end.

  (** The position the store callback writes to (lines 55-130 of s2fft_callbacks.cu). *)
  Definition store_index (p : plan) (offset : Z) : Z :=
    if pl_shift p then
      if pl_eq p then fft_shift_eq offset (pl_n p) else fft_shift offset (pl_n p) (pl_dist p)
    else offset.

  (** cufftXtExec(plan, data+base, data+base): every batch element is transformed (all inputs
      are read before outputs are stored) and stored through the callback. *)
  Definition exec_plan (dft : vec A -> vec A) (p : plan) (base : Z) (buf : vec A)
    : result (vec A) :=
    foldM (fun out b =>
        let ring := dft (mkVec (pl_n p) (fun e => vat buf (base + b * pl_dist p + e))) in
        foldM (fun out e =>
            cwrite out (base + store_index p (b * pl_dist p + e))
              (apply_scaling (pl_scale p) (pl_n p) (vat ring e)))
          (zrange 0 (pl_n p)) out)
      (zrange 0 (pl_batch p)) buf.

  (** lib/src/s2fft.cu:119-152 Forward / Backward *)
  Definition exec_all (dft : vec A -> vec A) (ex : executor) (polar : list plan)
    (equator : option plan) (buf : vec A) : result (vec A) :=
    let* buf := foldM (fun buf i =>
        match nth_error polar (Z.to_nat i), nth_error (e_upper ex) (Z.to_nat i) with
        | Some p, Some off => exec_plan dft p off buf
        | _, _ => Err IndexError
        end) (zrange 0 (e_nside ex - 1)) buf in
    match equator with
    | Some p => exec_plan dft p (e_eq_start ex) buf
    | None => Err IndexError
    end.
  Definition exec_forward (ex : executor) (buf : vec A) : result (vec A) :=
    exec_all dft_fwd ex (e_polar ex) (e_equator ex) buf.
  Definition exec_backward (ex : executor) (buf : vec A) : result (vec A) :=
    exec_all dft_inv ex (e_inv_polar ex) (e_inv_equator ex) buf.

  (** Process state: executors allocated so far (shared pointers are positions in this list),
      the two descriptor maps and the number of plan handles created. *)
  Record world := mkWorld {
    w_heap : list executor;
    w_map32 : list (descriptor * nat); w_map64 : list (descriptor * nat);
    w_handles : Z }.
  Definition empty_world : world := mkWorld [] [] [] 0.

  Definition map_of (d : descriptor) (w : world) : list (descriptor * nat) :=
    if d_double d then w_map64 w else w_map32 w.
  (** std::unordered_map::find with operator== *)
  Definition cache_find (d : descriptor) (w : world) : option nat :=
    option_map snd (find (fun p => desc_eqb (fst p) d) (map_of d w)).
  Fixpoint list_set {X} (l : list X) (n : nat) (x : X) : list X :=
    match l, n with
    | [], _ => []
    | _ :: l, O => x :: l
    | y :: l, S n => y :: list_set l n x
    end.

  (** Initialize on the executor at address [id]. *)
  Definition init_at (id : nat) (d : descriptor) (w : world) : world :=
    match nth_error (w_heap w) id with
    | None => w
    | Some ex =>
        let '(ex', k) := initialize ex d in
        mkWorld (list_set (w_heap w) id ex') (w_map32 w) (w_map64 w) (w_handles w + k)
    end.

  (** make_shared followed by GetS2FFTExec (lib/src/plan_cache.cc:12-50): the executor found in
      the map for this precision, or the new one, initialised and stored. Initialize always
      returns S_OK. *)
  Definition get_exec (d : descriptor) (w : world) : nat * world :=
    match cache_find d w with
    | Some id => (id, mkWorld (w_heap w ++ [new_executor])%list (w_map32 w) (w_map64 w) (w_handles w))
    | None =>
        let id := List.length (w_heap w) in
        let w := init_at id d
          (mkWorld (w_heap w ++ [new_executor])%list (w_map32 w) (w_map64 w) (w_handles w)) in
        (id, if d_double d
             then mkWorld (w_heap w) (w_map32 w) ((d, id) :: w_map64 w) (w_handles w)
             else mkWorld (w_heap w) ((d, id) :: w_map32 w) (w_map64 w) (w_handles w))
    end.

  (** lib/src/extensions.cc:119-150 build_healpix_fft_descriptor *)
  Definition build_norm (forward normalize : bool) : fft_norm :=
    match forward, normalize with
    | true, true => FORWARD
    | false, true => BACKWARD
    | true, false => BACKWARD
    | false, false => FORWARD
    end.
  Definition build (nside L : Z) (reality forward normalize double : bool) (w : world)
    : descriptor * world :=
    let d := mkDesc nside L reality forward (build_norm forward normalize) true double in
    let '(id, w) := get_exec d w in
    (d, init_at id d w).

  (** A kernel launch runs under some schedule until all launched threads have finished; the
      scheduler is the relation [runs_to]. *)
  Definition runs_to (prog : Z -> list instr) (n : Z) (data out0 out : vec A) : Prop :=
    exists sched k, krun add data sched (klaunch zero n prog out0) = Ok k /\ kfinished n k /\
      k_out k = out.

  (** lib/src/extensions.cc:24-90 healpix_forward / healpix_backward, as relations between the
      buffers and the world before and after. [out0] is the uninitialised output buffer. *)
  Definition cuda_forward (d : descriptor) (w : world) (data out0 : vec A)
    (w' : world) (data' out : vec A) : Prop :=
    let '(id, w1) := get_exec d w in
    w' = w1 /\
    exists ex, nth_error (w_heap w1) id = Some ex /\
      exec_forward ex data = Ok data' /\
      runs_to (extension_program (d_nside d) (d_L d))
        (launched (2 * d_L d * (4 * d_nside d - 1))) data' out0 out.
  Definition cuda_backward (d : descriptor) (w : world) (data out0 : vec A)
    (w' : world) (out : vec A) : Prop :=
    let '(id, w1) := get_exec d w in
    w' = w1 /\
    exists ex folded, nth_error (w_heap w1) id = Some ex /\
      runs_to (folding_program (d_nside d) (d_L d) (d_shift d))
        (launched (4 * d_nside d - 1)) data out0 folded /\
      exec_backward ex folded = Ok out.
End Exec.

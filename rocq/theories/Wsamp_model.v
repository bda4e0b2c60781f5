(** Model of ml4gw/transforms/waveforms.py. *)
From Coq Require Import String.
From Verif Require Import Base Tensor Rutil Slicing_model Gw_model.
Local Open Scope R_scope.

(** v[idx] for a 1D tensor of integers idx: rows of v, negative numbers counting from the end; IndexError when out of range *)
Definition index_rows {A} (v : tensor A) (idx : tensor Z) : res (tensor A) :=
  match shape v with
  | [] => Err IndexError
  | n :: rest =>
    if forallb (fun i => (- Z.of_nat n <=? elt idx i) && (elt idx i <? Z.of_nat n))%Z (all_idx (shape idx))
    then Ok (mk (shape idx ++ rest) (fun i => match i with
           | a :: i' => let k := elt idx [a] in elt v (Z.to_nat (if (k <? 0)%Z then k + Z.of_nat n else k)%Z :: i')
           | [] => elt v i end))
    else Err IndexError
  end.

Record wsampler (A : Type) := mkws { ws_pols : list (string * tensor A); ws_params : option (tensor A); ws_num : option nat }.
Arguments mkws {A}. Arguments ws_pols {A}. Arguments ws_params {A}. Arguments ws_num {A}.
(** waveforms.py 18-36, the loop over the polarizations ([Tensor(tensor)] of a float32 tensor is that tensor) *)
Fixpoint ws_loop {A} (pols : list (string * tensor A)) (num : option nat) : res (option nat) :=
  match pols with
  | [] => Ok num
  | (_, t) :: pols' =>
    match num with
    | Some n => let* l := py_len t in if negb (l =? n)%nat then Err ValueError else ws_loop pols' num             (* 23-27 *)
    | None => match shape t with [] => Err IndexError | d :: _ => ws_loop pols' (Some d) end                     (* 28-29 *)
    end
  end.
(** waveforms.py 12-40, [WaveformSampler.__init__]; the keyword polarizations are an ordered list *)
Definition ws_create {A} (params : option (tensor A)) (pols : list (string * tensor A)) : res (wsampler A) :=
  let* num := ws_loop pols None in
  match params with
  | None => Ok (mkws pols params num)
  | Some p => let* l := py_len p in                                                                               (* 33-37 *)
              match num with
              | Some n => if (l =? n)%nat then Ok (mkws pols params num) else Err ValueError
              | None => Err ValueError                                                                            (* len != None *)
              end
  end.
(** waveforms.py 41-59, [forward]; [rng] is the entropy of torch.randint *)
Definition ws_forward {A} (s : wsampler A) (N : Z) (rng : list nat -> Z) : res (list (string * tensor A) * option (tensor A)) :=
  match ws_num s with
  | None => Err TypeError                                                                                         (* N > None *)
  | Some n =>
    let* idx := if (Z.of_nat n <? N)%Z then Err ValueError                                                        (* 43-47 *)
                else if (N =? -1)%Z then Ok (mk [n] (fun i => Z.of_nat (nth 0 i 0%nat)))                          (* 50-52 *)
                else randint_z 0 (Z.of_nat n) [N] rng in                                                          (* 54 *)
    let* w := sequence (map (fun kv => let* r := index_rows (snd kv) idx in Ok (fst kv, r)) (ws_pols s)) in       (* 56 *)
    match ws_params s with                                                                                        (* 57-59 *)
    | Some p => let* q := index_rows p idx in Ok (w, Some q)
    | None => Ok (w, None)
    end
  end.

(** waveforms.py 62-88, [WaveformProjector]: the detector geometry is looked up once, at construction *)
Record projector := mkproj { pj_sr : R; pj_D : tensor R; pj_V : tensor R }.
Definition proj_create (ifos : list string) (sample_rate : R) : res projector :=
  let* (D, V) := get_ifo_geometry ifos in Ok (mkproj sample_rate D V).
Definition proj_forward (m : projector) (dec psi phi : tensor R) (pols : list (string * tensor R)) : res (tensor R) :=
  compute_observed_strain dec psi phi (pj_D m) (pj_V m) (pj_sr m) pols.

# DESIGN: a Rocq (Coq 8.16.1) model of ML4GW/ml4gw

## 1. Approach

* The code is modelled as Gallina functions, branch by branch, with exceptions as values
  (`res A := Ok a | Err e`, `Base.v`).  Each definition cites the file and lines of `/repo` it models
  and says where it simplifies.
* Tensors are functional: a shape (`list nat`) and an element function on index lists (`Tensor.v`).
  Reading outside the shape gives `None`.  The torch primitives used (reshape/view, transpose, unfold,
  split, cat, pad, take, take_along_dim, broadcasting, in-place masked writes, randint, ...) are
  modelled by their documented semantics.
* Python integers are `Z` (`//` and `%` are `Z.div` / `Z.modulo`, `int(x)` truncates towards zero),
  sizes are `nat`.
* Randomness is an arbitrary entropy function or an arbitrary permutation: theorems quantify over all
  of them, so they hold for every draw.
* Floating point is idealised as `R` (no rounding, no overflow, no NaN); dtype and device are ignored.
  Where float32 rounding changes the observable behaviour (sequential indices of InMemoryDataset, the
  float32 buffers of SnrRescaler and FixedWhiten) the rounding is a parameter of the model.
* Stateful objects (Snapshotter, OnlineAverager, FittableTransform, Decimator schedule, datasets) are
  transition functions; theorems are inductions over any history.
* Where a documented behaviour is false of the code, a theorem whose name ends in `_refuted` gives a
  witness and the true characterisation is proved next to it and is what `properties.jsonl` states.

File layout: `X_model.v` the code; `X_spec.v` (where needed) the independent specification;
`X_proofs.v` lemmas; `X_props.v` / `X_main.v` / `X_final.v` property theorems with non-vacuity examples.
`Base`, `Tensor`, `Bcast`, `Rutil` (finite sums), `Dft` (discrete Fourier transform), `Linsolve`
(Gaussian elimination), `Gauss` (the Gaussian integral), `Bern` (Bernstein-coefficient certificates for
polynomial inequalities, checked by computation inside Coq) are shared libraries.

## 2. Trusted base

1. Coq 8.16.1's kernel (including `vm_compute`, used for Bernstein certificates and computed examples).
2. The axioms `Print Assumptions` lists.  `AXIOMS.md` (generated by `tools/axioms.py`) lists them for
   every theorem of `MANIFEST.json`.  Only four occur, all of Coq's standard library:
   `ClassicalDedekindReals.sig_forall_dec`, `ClassicalDedekindReals.sig_not_dec`,
   `FunctionalExtensionality.functional_extensionality_dep` (all three come with the standard library's
   real numbers) and `Classical_Prop.classic` (used by the standard library's and Coquelicot's real
   analysis).  The list, tensor and integer theories are closed under the global context.
   Coquelicot and Flocq (only its rounding theory over `R`, in F64_*) are used as libraries; they add no axioms.
   No axiom, `Parameter`, `Variable` outside a section, `Admitted` or disabled check is added.
3. That the model says what the code does: the code was read, not run.  In particular
   * the documented semantics of the torch / numpy primitives that are modelled,
   * parts replaced by arbitrary parameters (theorems hold for all of them): torchaudio's `Spectrogram`
     (C50), the arithmetic of convolutions and learned layers (C17-C20, C59, C61), scipy's filter
     design (C58, C73, C74), window functions (arbitrary non-negative/positive where needed, Hann and
     boxcar explicitly), approximants of the generator (any row-wise function, plus TaylorF2, IMRPhenomD and IMRPhenomPv2),
     the parameter samplers and waveform files of WaveformSampler, HDF5 file contents,
   * real instead of floating-point arithmetic (except C79 in IEEE binary64, C107 to C109 in binary32, and the float32 rounding parameters).

## 3. What is modelled, file by file

| /repo/ml4gw | model | not modelled |
|---|---|---|
| utils/slicing.py | Slicing_model | tensors of more than 3 axes where the code rejects them |
| dataloading/in_memory_dataset.py, chunked_dataset.py | Data_model; as generators with any interleaving: Sched_model | device moves |
| dataloading/hdf5_dataset.py | Hdf5_model; law of the draws: Hlaw_model, Law_model | h5py itself (files are arrays), warning text |
| nn/streaming/* | Streaming_model | |
| nn/autoencoder/* | Autoenc_model; match_size on any number of axes: Msize_props | weights of the convolutions (arbitrary) |
| nn/norm.py, augmentations.py | Norm_model | |
| nn/resnet/* | Resnet_model (layers as parameters), Resnet3_props and Resnet4_props (the concrete convolutions, norms and pools) | weight values (arbitrary) |
| nn/ssm/s4d.py | S4_model | optimiser attributes |
| distributions.py | Dist_model, Dist2_model | type checks of torch.distributions arguments; astropy-style cosmology beyond the tabulated integrals |
| gw.py, utils/interferometer.py, constants.py | Gw_model | |
| spectral.py | Spectral_model; whitening with infinities and NaN: Zero_model | |
| transforms/transform.py, scaler.py, snr_rescaler.py, whitening.py, spectral.py | Fit_model; save and load of state: Ckpt_model | |
| transforms/pearson.py, decimator.py, integrator.py, heterodyne.py | Trans_model | |
| transforms/waveforms.py | Wsamp_model | |
| transforms/qtransform.py | Qt_model, Qsp_model | torch's bicubic/bilinear kernels are modelled; the spline branch in Qsp_model, on top of Spline_model |
| transforms/spectrogram.py | Mspec_model (torchaudio's Spectrogram a parameter), Stft_model (torchaudio's Spectrogram) | keywords window_fn, center, pad_mode, onesided other than the defaults; power=None |
| transforms/spline_interpolation.py | Spline_model | |
| transforms/iirfilter.py | Iir_model | scipy's design (coefficients arbitrary) |
| waveforms/conversion.py | Conv_model | |
| waveforms/adhoc/*, cbc/utils.py, cbc/coefficients.py | Wave_model | |
| waveforms/cbc/taylorf2.py | Tf2_model | f_ref as a tensor |
| waveforms/cbc/phenom_d.py, phenom_d_data.py | Phd_model, Phd_fits, Phd_data | NaN for parameters outside the physical range |
| waveforms/cbc/phenom_p.py | Php_model, Php_fits | inputs of unequal batch size |
| waveforms/generator.py | Gen_model | inputs of unequal batch size; scipy's design |
| transforms/integrator.py: LeakyIntegrator on float32 tensors | Leak32_model (all roundings) | overflow, NaN |
| nn/streaming/online_average.py on float32 tensors | Oavg32_model (all roundings) | overflow, NaN |
| transforms/integrator.py: TophatIntegrator on float32 tensors | Toph32_model (all roundings) | overflow, NaN, FFT/Winograd/TF32 convolutions |
| `int(duration * sample_rate)`, `int(fduration * sample_rate / 2)`, `int(cutoff / df)`, everywhere | F64_model | overflow; float32 tensors |
| types.py, __init__.py | - | type annotations and re-exports only |

## 4. Per property

Each line: what is modelled; how it is proved.  Theorem names are in `MANIFEST.json`.

* **C01** unfold_windows. im2col unfold, reshape, transposes; mixed-radix index lemmas; exact success condition.
* **C02-C05** slice_kernels / sample_kernels. All branches with their errors; interval arithmetic on the drawn starts; C05 gives for every reachable start an entropy producing it. The documented containment of the centre (C04) is refuted at the boundary.
* **C06-C08** InMemoryDataset. Epoch as list of batches of indices; permutation and NoDup arguments; X and y use the same indices. float32 index rounding refutes exact indices above 2^24.
* **C09** ChunkedTimeSeriesDataset. Iteration over a list of chunks with the state taken from the first one; witness for non-uniform chunks.
* **C10-C12** Hdf5TimeSeriesDataset. Partition by file name, writes as function updates, each cell written exactly once; worker split by div/mod arithmetic; argument decision table.
* **C13, C14** Snapshotter. History induction: output = sliding windows of the stream; re-batching as corollary.
* **C15, C16** OnlineAverager. History induction with real sums; offset 0 refuted.
* **C17-C20, C61** Autoencoders. Decoder as list recursion with optional states and Python negative indexing; exact pairing of states, cropping branch of match_size, interleaving of ConcatSkipConnect; ConvolutionalAutoencoder's activation-class call.
* **C21, C22** GroupNorm1D(/2D getter). Real sums over groups; textbook formula.
* **C23** augmentations. Mask model, involutions.
* **C24-C27** distributions. Inverse-CDF identities with stdlib trigonometry; integrals by the fundamental theorem (Coquelicot); trapezoid tables and monotone interpolation for UniformComovingVolume.
* **C28-C32, C62** gw.py. Trigonometric identities on 3x3 tensors; integer delays as circular permutations; DFT shift lemma and Parseval for SNR; geometry tables.
* **C33, C34, C63** spectral.py. Shape decision table; Welch estimate; Parseval for all lengths; quantile/median characterisation; fast version equal to the exact one iff the window's edge terms vanish (Hann, boxcar), else difference characterised.
* **C35, C36, C64-C67** whitening and fittable transforms. The filter as an explicit impulse response, linearity, locality, unit variance for white noise with the given PSD; padding 0 refuted.
* **C37-C39** FittableTransform, ChannelWiseScaler, SnrRescaler. State machine with history induction; real identities; permutations.
* **C40-C44** transforms. Cauchy-Schwarz for Pearson with equality case; decimator schedules; causal moving average; clamped leaky recursion; unit-modulus heterodyne with length arithmetic.
* **C45** WaveformSampler / WaveformProjector. Row indexing with arbitrary draws.
* **C46-C49** Q transform. Tile counts, window support, energies and normalisation (Parseval); grouping of tiles in planes; interpolation ranges (bilinear convex, bicubic refuted); maximum-energy search; QScan selection as argmax over planes.
* **C50** MultiResolutionSpectrogram. Keyword expansion, padding masks, resampling index arithmetic; set-order refutation.
* **C51** splines. Cox-de Boor recursion by induction on the degree (support, partition of unity, polynomial reproduction), knot construction, linear solve by Gaussian elimination; the unregularised collocation matrix is nonsingular for every degree (Schoenberg-Whitney, by counting sign changes of successive derivatives between the runs of live coefficients), positive smoothing by positive definiteness; the derivative formula gives smoothness at the knots.
* **C52, C53** conversions. Rpower algebra; rotation group algebra.
* **C54, C55** ad-hoc waveforms. Real algebra; hrss by Gaussian integrals.
* **C56** TaylorF2. Derivative of the phase by Coquelicot; PN coefficients against the published non-spinning ones; amplitude and polarisations. Spin coefficients against the published ones (Tf2b_props).
* **C57** IMRPhenomD. All fits as polynomials; ranges of final spin, radiated energy and ringdown frequencies over the whole physical range by Bernstein certificates; C1 matching of phase and amplitude at the joins; strain normalisation. The closed-form ingredients are compared with the published ones (Pub_props, Pub3_props): amplitude and phase coefficients exactly, fitted tables to the printed digits.
* **C58, C74** TimeDomainCBCWaveformGenerator. See Gen_row (bounds on start frequency and duration), Gen_props (grid, taper, phase shift, end tapers), Gen_main (forward).
* **C59** ResNet 1D/2D. Construction decision table, convolution length arithmetic by induction over stages and blocks, residual compatibility, zero-init.
* **C60, C69** S4D layer and model. FFT convolution = causal convolution with zero-order-hold kernel; decay; residual stack.
* **C68** conditioning bounds (cbc/utils.py). Real algebra with numeric constants.
* **C70-C72** IMRPhenomPv2. In-plane spin and final-spin ranges, J-frame geometry, closed form of the Wigner/spherical-harmonic twist, intensity sum rule and bound, aligned limit against IMRPhenomD, covariance; several documented behaviours refuted (phase at coalescence ignored, tc in seconds, unused modes). The angle coefficients in the mass ratio, against a separate statement (Pub2_props).
* **C76** Generator with its approximants (Gen_appr). Homogeneity of the frequency-domain strain in distance, phase and inclination, carried through taper, inverse transform, roll, padding and filtfilt by linearity; no model of its own.
* **C77** Argument checking and log-densities at every value (Dist2_model). Extended numbers (finite, infinities, NaN) and the classes of torch.distributions the three distributions inherit from; case analysis over the position of the value, substitution to the Gaussian integral for the log-normal mass.
* **C78** Labels of the two bodies (Conv_model, Tf2_model, Phd_model; no new model code). Exchange of the components by uniqueness of the masses; TaylorF2 by its exchange symmetry; IMRPhenomD by congruence of everything that depends on the parameters for equal spins, and for the difference by expanding both inspiral amplitudes in t = (M f)^(1/3): they agree to order t^2 and differ at order t^3.
* **C79** Sample counts and cut-off bins in double precision (F64_model). The products and quotients that other models take as exact reals, with the rounding of IEEE binary64 (Flocq, unbounded exponent above); monotonicity of rounding, representability of (half-)integers, the relative error bound, and exact computation of the roundings for the witnesses.
* **C80** Streaming pipeline (Streaming_model; the composition is defined in Pipe_props). The two stream theorems of C13 and C15, composed by showing that the interleaved run is the run of the first followed by the run of the second.
* **C81** Sampling law (Prob.v: finite distributions; Hlaw_model). The draws of files (without replacement, renormalised) and of starts as distributions; probabilities of events by summing over the support. The documented uniformity is refuted.
* **C82** Low-frequency agreement of approximants (Lowf_props, models of C56 and C57). Explicit O(f^(1/3)) bounds for the amplitude factor and the phase difference, then the chord inequality on the unit circle.
* **C83** IIR frequency response (Iirfreq_props, model of C73). Decay of the impulse response by induction over the poles; the partial sums at exp(-i omega) converge geometrically to B/A (finite identity A*S = B plus a tail, no completeness needed); both passes combined.
* **C84** Spectral density of a sinusoid (Tone_props, models of C34/C42/C67). Orthogonality of the roots of unity; the segment spectrum in closed form; the aggregate of equal values; composed with the module theorems of C67.
* **C85** Heterodyne applied to TaylorF2 (Dechirp_props, models of C44 and C56). The leading term of the series in terms of the chirp mass; composed with the module theorem of C44; a bound of the corrections.
* **C86** SpectralDensity on noise (Noise_props, on Spectral_model and Fit_model). Expectations over finite distributions; the quadratic form of a bin; mean removal accounted for exactly.
* **C87** whiten on noise (Noise2_props, on Spectral_model). The DFT of circularly stationary noise is uncorrelated; composed with whiten_spec.
* **C88** ChunkedTimeSeriesDataset as a stream (Chunk2_props, model of C11). The generator as the list of its batches and the exception ending it; agreement with the list model; index arithmetic for chunks of another length.
* **C89** ResNet batch independence (Resnet2_props, Resnet3_props; model of C59). A relation between batches holding the same element, preserved by every layer; instantiated with concrete convolution, pooling, head and GroupNorm1D (model of C21).
* **C90** Laws of the random operations (Law_model, Law_lib, Law_props, Law2_props). The models of C03-C06, C09, C23, C39, C45 are run on random entropy (finite distributions, Prob): independent uniform words for randint, multiples of 1/N for rand, successive uniform draws for randperm. Independence lemma for product events (field_prob), counting residues of a word, counting multiples of 1/N below prob; positions in a chunk are made observable by reading a chunk whose samples are their own positions, and chunk_labelled transfers this to every chunk.
* **C91** Distribution functions of the samplers (Cdf_props). The models of C24, C26, C27, C28 run on random grid values: a sampler that inverts a strictly increasing F puts a sample below x exactly when the draw is below F(x) (inverse_has_cdf), the probability of which is counted (rand_below); independence by field_prob.
* **C92** MultiResolutionSpectrogram with torchaudio (Stft_model, Stft_props, Stft2_props). The spectrogram parameter of C50 is instantiated with a model of torchaudio's Spectrogram / torch.stft; keyword dictionaries through kwargs_spec and mrs_construction, values through mrs_forward_spec; Cauchy-Schwarz for the energy bound; expectations as in C86, tones as in C84.
* **C93** Energy of a whitened series = squared SNR (Wsnr_props). Parseval for the half spectrum (Dft) applied to the filtered series of the whiten model (C35), compared term by term with the sum in the SNR model (C31); existence of finite truncated spectra from the flat case.
* **C94** Q-tiles of white noise and of a sinusoid (Qnoise_props). The tile's band sum (Qt2_props.qtile_energy) is a linear form in the samples; its mean square by Parseval is the sum of the squared bisquare window, which a Riemann-sum bound compares with the integral 256/315 H; for a sinusoid one bin only contributes.
* **C95** SNR of projected waveforms (Injsnr_props). Composition of the projector (C45), the antenna bound (C62), the SNR (C31/C32) and the generator's scaling laws (C76): the squared SNR is a quadratic form, bounded by Cauchy-Schwarz (the form of the orthogonal combination is not negative); reweighting versus regenerating at another distance by linearity.
* **C96** Decimator and spectra (Alias_props). C41 says which samples are kept; orthogonality of the roots of unity over the M images gives the folding formula; with a band limit only one image is left, and inverting the transform gives uniqueness.
* **C97** Units (Units_props). The exact formulas of C34-C36, C65-C67 and C33 are homogeneous: the inverse amplitude spectrum scales by 1/|c|, the filter is linear and removes the mean, interpolation and broadcasting of the PSD commute with a factor.
* **C98** Augmentations and whitening (Augcomm_props). Every whitening operator filters each series with a real gain of its own (C34-C36), and a zero-phase filter commutes with negation, time reversal and sums; moduli of spectra do not see a sign or a reversal. The refutation is a 4-sample impulse.
* **C99** Histories and checkpoints (Ckpt_model, Ckpt_props). A state machine per transform over fit/load/call; invariants by induction on the history (names and shapes of the buffers, constructor arguments, values representable in the buffer dtype), from which refit, failed fit and checkpoint statements follow; the rounding to the buffer dtype is any idempotent function fixing 0.
* **C100** Default normalisation of ResNets (Resnet4_props). The last stage's closing norms act on maps of one sample, where instance normalisation returns its bias; an agreement relation between two runs that share nothing but the network is pushed through the last stage and the head. Amplitude: convolution is linear and GroupNorm1D of a scaled map is GroupNorm1D with another eps.
* **C101** Unbatched S4 inputs (S4_model for every rank, S4u_props). The layer proof is redone with the broadcasting of one- and two-axis inputs; the pooling of the model acts on axis 1, which is the channel axis of an unbatched feature map, and layer norm makes the channel mean 0.
* **C102** Batch dependence of the generator (Gen_batch on top of Gen_main, Gen_appr). Locality from the row-by-row form of C58 and uniqueness of the frame; the counterexample is a very heavy companion (its duration bound exceeds 6 / f_isco) and an approximant that is non-zero at one frequency which only the finer grid contains; definiteness of the forward-backward filter (C24) keeps the difference visible.
* **C103** Covariance of the Q-transform (Qcov_props on top of the closed form of the row energies, C47). Gain from linearity of the DFT and homogeneity of the median and the mean; delay and reversal turn into permutations of a row's instants (modulation of the bins, conjugation), under which median and mean are invariant; the scan because a common positive factor preserves the order of the planes' maxima.
* **C104** Batch dependence of the Q-scan (Qscanb_props on top of C47, C103). Locality of one plane from the closed form of the rows; the scan by comparing the planes' maxima of the scaled batch; the counterexample from the exact response of a row to a sinusoid (C94): the 40 Hz one lies outside the band of the plane that the 49 Hz one selects.
* **C105** Whitening with zero or negative PSD bins (Zero_model, Zero_props). The truncation of the inverse spectrum once more on numbers with infinities and NaN (the type of C53), the two FFTs being any functions that are exact on finite rows and propagate non-finite entries; the zero of the Hann window turns an infinite sample into NaN, the NaN reaches every bin and nan_to_num makes it 0. Agreement with the real-number model (C35) on positive spectra is a theorem; a witness shows that such FFTs exist.
* **C106** Interleaved iterators (Sched_model, Sched_props). The generators of the two in-memory data sets as state machines (not started, suspended, finished) advanced one next() at a time, a schedule being any list of iterator numbers; chunk_it either has a cursor per iterator or one shared cursor. An invariant per iterator relates its state to the list of steps of the corresponding epoch (C06, C88); the sharing theorem exhibits the owner of every chunk.
* **C107** LeakyIntegrator in float32 (Leak32_model, Leak32_props). Every operation rounded with Flocq's binary32 rounding; the cumulative sum is any value of an inductive relation over summation trees with permuted leaves and per-node precision. Exactness by integrality; the error bound by induction over trees and Lipschitz continuity of the running minimum; the failures by computing two roundings.
* **C108** OnlineAverager in float32 (Oavg32_model, Oavg32_props). The model of C15 with its arithmetic as parameters (with exact arithmetic it is that model, oa_run_g_exact); float32 arithmetic constrains the parameters. An invariant bounds the error of every state entry by the number of calls that touched it, which is at most ceil((num_updates-1)/batch_size)+1 when the sample leaves the state.
* **C109** TophatIntegrator in float32 (Toph32_model, Toph32_props). The model of C42 with the dot product and the window entry as parameters (with exact ones it is that model, tophat_g_exact); a float32 convolution may use any summation tree and fuse any product. Induction over the tree bounds the error of a dot product; the rounding of the window entry and of the result are added. Not modelled: FFT and Winograd convolutions, TensorFloat-32.
* **C110** RateEvolution with vanishing rates (Dist_model, Rate_props). The model of C27 without the assumption that the rate is positive: tables that may be flat, a sum of non-negative terms with one positive, and a case split over the cell for log_prob in extended numbers.
* **C111** Constants and scaling (Conv_model, Wave_model, Const_props, Pi_props, Gamma_props). The literals of constants.py as exact rationals; inequalities between them by lra; pi by the partial sums of an arctangent formula of the standard library in rational arithmetic; Euler's constant (Gamma_props) bracketed between two Euler-Maclaurin corrections of H_n - ln n, monotone because their steps have one-signed derivatives, evaluated at n = 2^10 in fixed-point arithmetic; scaling laws from the closed forms of C68.
* **C112** Mass scaling (Tf2_model, Phd_model, Php_model, Gen_model, Mscale_props). Every mass enters through mass ratios, M f and one factor M^2; the row times and frequencies of the generator scale by C111, so the frame, tapers and shift keep their sample indices; C76's specification of the generator gives the samples.
* **C113** Storage and aliasing (Heap_model, Heap_props). A heap of buffers, tensors as references with an index map; the in-place functions, slicing and the two streaming modules as heap transformers that refine the value models. A session interleaves calls with arbitrary writes by the consumer; induction over it, with the invariant that no cell the consumer may write is a cell of the state. Trusted: that torch.cat, take, take_along_dim, unfold, sum, pad and zeros return new storage and that slicing, split and [None] return views.
* **C114** State dicts of the remaining modules (Sdict_model, Sdict_props), on the model of Module.load_state_dict in Fit_model (load). A module is its buffers plus its plain attributes; `…_state` lists the buffers, `…_load` is the torch load. Each theorem computes the loaded module from both configurations; SplineInterpolate1D is refined from Spline_model by a version whose buffers are tensors, and the history theorem is by induction over the calls. Trusted: register_buffer with None is absent from the state dict; a shape mismatch does not stop the remaining buffers from being copied.
* **C115** Locality and causality (Rowwise_props, no model of its own). One relational definition, `local`, quantifying over pairs of batches of any accepted shape, and `causal`, over pairs of recordings of any length; each transform from its value theorem (C21, C34, C38, C41-C44, C50, C51, C60, C63, C65, C66, C69, C73, C92); composition and selection theorems from the definitions alone.
* **C116** Misshapen updates (Misupd_props on Streaming_model, the model of C13-C16). Snapshotter: one-call lemma for any length from unfold_windows_correct / unfold_windows_succeeds_iff, induction over the history as in C13; the starting samples of all snapshots as a list computed from the lengths alone, alignment by induction. OnlineAverager: one-call lemma with the broadcasting in-place addition, error lemma for every other 3D shape, and a simulation between a history and its expanded one, from which C15 gives the values.
* **C117** Sky averages (Skyavg_props on Gw_model). Polarisation tensors at psi = 0 as polynomials in the sines and cosines of theta and phi (proved equal to the model through the specification of C28), a checked table of trigonometric moments with antiderivatives, the 81 tensor entries computed on integers, the psi average from the rotation law of C28; built-in detectors through the arm vectors of C62.
* **C118** Mean squared SNR over the sky (Skysnr_props). C95 gives the squared SNR as a quadratic form in the antenna factors, C117 its moments; linearity of the mean and the sum over detectors.
* **C119** Expectations under the samplers (Skysamp_props, Expect_props on Dist_model). Change of variables in the Riemann integral with the distribution function of C24/C26 as substitution; continuity of asin on the whole line (it is constant outside [-1, 1]) for the end points of Cosine.
* **C120** Inclination and orientation averages (Incl_props). The row-wise transfer lemma of C76 with different factors for the two polarisations; C118 with the detector factors chosen before the waveform, C119 for the mean over the sampled inclination.
* **C121** Batch independence of the autoencoders (Aeconv_model, Aeloc_props). A logical relation (same outcome, item p of one batch equal to item q of the other) preserved by encode, decode's loop, match_size, broadcasting addition, splitting, interleaving and concatenation; Conv1d, ConvTranspose1d and BatchNorm1d with their arithmetic.
* **C122** Channel groups (Aegrp_props). The logical relation of C121 for `agree in group u`; grouped convolutions read one group, BatchNorm1d one channel; the concatenating skip connection doubles the decoder's input channels but the deepest decoder gets no state.
* **C123** Strided convolutional autoencoders (Aestr_props). The lengths through encoders and decoders, the pairing of C18 and the cropping branch of match_size (C19): the third decoder's output is emptied, and the next decoder fails on it or the final match_size pads it with zeros.
* **C75** Q transform with the spline method. Qsp_model composes Qt_model with Spline_model; groups of equal-length rows by sorting, existence of every spline from Schoenberg-Whitney, number of frequencies by separating consecutive geometric midpoints on the frequency grid.
* **C73** IIRFilter. Difference equation by strong induction; forward-backward filter = F^T F, hence symmetric and positive.

## 5. Testing the theorems

`tools/mutate.py` applies one textual edit to a model file in a scratch copy, rebuilds everything that
depends on it and records which theorems fail; `seeded/LOG.jsonl` has one line per attempt, with the
theorems tightened when an edit that breaks the English claim was not caught.

{"id": "C01", "title": "unfold_windows returns exactly the strided windows, in order, and the exact tail", "statement": "For a 1D, 2D or 3D tensor x with time length T and window_size>=1, stride>=1: unfold_windows(x) succeeds iff T >= window_size; the result has shape (1+(T-window_size)//stride, *x.shape[:-1], window_size) and entry [i,...,j] equals x[...,i*stride+j]. With drop_last=False the second result is the tail of x after the last window's end, with a leading axis of size 1; windows and tail together cover every sample of x when stride <= window_size.", "quantifier": "all tensors (ndim 1..3, any sizes and contents), all positive window sizes and strides", "why_tests_cant": "the im2col + reshape + double transpose bookkeeping has to be right for every shape, not just the shapes in a test", "anchors": ["ml4gw/utils/slicing.py:unfold_windows"]}
{"id": "C02", "title": "slice_kernels copies exactly the requested windows or raises", "statement": "For each supported (x.ndim, idx.ndim) pair, if every start lies in range then the result has the documented shape and entry [b,(c,)j] equals x[(c,)start+j] for the start given for that batch element (and channel, for 2D idx); a start whose window leaves [0,T) raises IndexError/RuntimeError rather than returning data (apart from torch.take's negative wrap-around in the 1D case); unsupported dimension pairs and mismatched lengths raise ValueError.", "quantifier": "all tensors, index tensors and kernel sizes", "why_tests_cant": "index arithmetic over every shape and every index value", "anchors": ["ml4gw/utils/slicing.py:slice_kernels"]}
{"id": "C03", "title": "sample_kernels only ever returns true, in-bounds windows of its input", "statement": "Whenever sample_kernels returns, every kernel is x[..., s:s+kernel_size] with 0 <= s and s+kernel_size <= T, the starts are the returned idx, 2D coincident sampling uses one start for all channels, 3D input uses one start per batch element; it never raises an index error after its own argument checks.", "quantifier": "all inputs, all values of max_center_offset / coincident / N and all outcomes of the random number generator", "why_tests_cant": "random draws: a test sees a handful of the possible index draws", "anchors": ["ml4gw/utils/slicing.py:sample_kernels"]}
{"id": "C04", "title": "max_center_offset constrains the sampled kernels as documented", "statement": "For offset>=0 every kernel starts before the centre sample and its right edge is at most offset before the centre; for offset<0 both kernel edges are at least |offset| from the centre; offset=0 kernels contain the centre except for the one boundary draw whose right edge equals the centre, which is reachable. A range of starts that begins before the series, or is empty with a negative offset, raises ValueError; any other empty range raises RuntimeError from torch.randint.", "quantifier": "all lengths, kernel sizes, offsets and random draws", "why_tests_cant": "extreme draws have small probability", "anchors": ["ml4gw/utils/slicing.py:sample_kernels"]}
{"id": "C05", "title": "The set of starts sample_kernels can draw", "statement": "With no offset the reachable starts are exactly 0..T-k-1, whatever the rank of the input: the last admissible window (start T-k) can never be drawn, and a timeseries of exactly kernel_size samples passes the size check but raises RuntimeError for every N. Every combination of starts in the allowed range is reachable: any list of starts (1D, 2D coincident, one per batch element in 3D), and any table of starts with the channels moving independently (2D, not coincident).", "quantifier": "all T >= k and all random draws", "why_tests_cant": "never drawing a value is a statement about all draws", "anchors": ["ml4gw/utils/slicing.py:sample_kernels"]}
{"id": "C06", "title": "InMemoryDataset yields len(ds) batches whose windows come from the drawn positions", "statement": "Every epoch yields exactly the documented number of batches; each element is the window of X starting at its kernel index times stride, always inside X; construction rejects inconsistent arguments with ValueError.", "quantifier": "all datasets, kernel sizes, strides, batch sizes, all four shuffle/coincident modes, all permutations and draws", "why_tests_cant": "sizes and shuffles are unbounded", "anchors": ["ml4gw/dataloading/in_memory_dataset.py:InMemoryDataset"]}
{"id": "C07", "title": "One coincident epoch visits each window once", "statement": "With coincident=True and batches_per_epoch None, the concatenation of the kernel indices over one epoch is a duplicate-free list of the kernels 0..num_kernels-1 containing all of them (shuffled or not; the last batch may be short); with batches_per_epoch set it is duplicate-free and of size batch_size*batches_per_epoch.", "quantifier": "all dataset sizes, batch sizes and all permutations drawn", "why_tests_cant": "epoch coverage must hold for each shuffle", "anchors": ["ml4gw/dataloading/in_memory_dataset.py:InMemoryDataset.init_indices", "ml4gw/dataloading/in_memory_dataset.py:InMemoryDataset.__iter__"]}
{"id": "C08", "title": "InMemoryDataset keeps X and y aligned", "statement": "When y is given, the y window of every batch element starts at the same position as its X window (in coincident mode).", "quantifier": "all datasets, orders and draws", "why_tests_cant": "alignment must hold for every shuffle", "anchors": ["ml4gw/dataloading/in_memory_dataset.py:InMemoryDataset.__iter__"]}
{"id": "C09", "title": "ChunkedTimeSeriesDataset yields in-bounds windows and the advertised number of batches", "statement": "For a chunk iterator whose chunks share one shape, iteration yields len(chunks)*batches_per_chunk batches, each element being a genuine in-bounds window of its chunk; if a later chunk has a different shape the window geometry of the first chunk is still partially used (a concrete chunk sequence yields a wrong window or an error). Chunks of exactly kernel_size samples raise.", "quantifier": "all chunk sequences, sizes and random draws", "why_tests_cant": "depends on the history of chunks and random draws", "anchors": ["ml4gw/dataloading/chunked_dataset.py:ChunkedTimeSeriesDataset"]}
{"id": "C10", "title": "Hdf5TimeSeriesDataset batches are fully and correctly filled", "statement": "In sample_batch every (batch element, channel) cell is written exactly once, with kernel_size consecutive in-bounds samples of that channel from the file drawn for that cell; coincident=True uses the same start in all channels, 'files' the same file with independent starts, False independent files and starts.", "quantifier": "all file sets, sizes, batch sizes, coincidence modes and all random draws of files and starts", "why_tests_cant": "partition by file (np.unique inverse) must be right for every draw of files", "anchors": ["ml4gw/dataloading/hdf5_dataset.py:Hdf5TimeSeriesDataset.sample_batch"]}
{"id": "C11", "title": "Worker split of an epoch is exact", "statement": "With any number of data-loader workers the per-worker batch counts sum to batches_per_epoch, differ by at most one, and are non-negative.", "quantifier": "all batches_per_epoch and worker counts", "why_tests_cant": "arithmetical identity over all counts", "anchors": ["ml4gw/dataloading/hdf5_dataset.py:Hdf5TimeSeriesDataset.__iter__"]}
{"id": "C12", "title": "Hdf5TimeSeriesDataset argument checks and range of starts", "statement": "Invalid coincident values and num_files_per_batch larger than the number of files raise ValueError; the drawn starts are exactly 0..size-kernel-1 so the final window of a file is never sampled and a file of exactly kernel_size samples makes sampling raise ValueError.", "quantifier": "all configurations and draws", "why_tests_cant": "never is a statement about all draws", "anchors": ["ml4gw/dataloading/hdf5_dataset.py:Hdf5TimeSeriesDataset.__init__", "ml4gw/dataloading/hdf5_dataset.py:Hdf5TimeSeriesDataset.sample_batch"]}
{"id": "C13", "title": "Snapshotter output over any update history is the sliding window of the stream", "statement": "Feeding any sequence of updates (each a whole number of strides) to a Snapshotter from its initial state returns snapshots which, concatenated, are exactly the windows of size snapshot_size at stride spacing of zeros(state_size) followed by the concatenated updates, split channelwise; the returned state is the last state_size samples of that stream.", "quantifier": "all update histories, batch sizes, channel splits", "why_tests_cant": "history length is unbounded", "anchors": ["ml4gw/nn/streaming/snapshotter.py:Snapshotter"]}
{"id": "C14", "title": "Snapshotter is invariant under re-batching", "statement": "Processing the same stream with the updates grouped differently gives the same snapshots and the same final state.", "quantifier": "all groupings of all streams", "why_tests_cant": "all groupings", "anchors": ["ml4gw/nn/streaming/snapshotter.py:Snapshotter.forward"]}
{"id": "C15", "title": "OnlineAverager output over any history is the average of the overlapping updates", "statement": "Over any history, each emitted sample equals (1/num_updates) times the sum of the predictions covering it, where updates before the start of the stream count as zero; hence the mean of num_updates predictions after warm-up.", "quantifier": "all histories and batch sizes", "why_tests_cant": "history length is unbounded", "anchors": ["ml4gw/nn/streaming/online_average.py:OnlineAverager"]}
{"id": "C16", "title": "OnlineAverager re-batching invariance and the offset boundary", "statement": "Splitting a batch of updates into several forward calls returns the same samples and final state, for every offset>=1; with offset=0 (accepted by the constructor) Python's [-0:]/[:-0] slicing makes every forward call raise RuntimeError, so the streaming contract fails there.", "quantifier": "all splits, all streams", "why_tests_cant": "all groupings", "anchors": ["ml4gw/nn/streaming/online_average.py:OnlineAverager.forward"]}
{"id": "C17", "title": "Autoencoder forward without skip connection", "statement": "For an autoencoder with at least one block and no skip connection, forward and decode raise for every input, with TypeError as soon as the deepest decoder itself succeeds (states is None and is subscripted); decode raises ValueError when a skip connection is set and no states are given, and whenever the number of given states differs from the number of blocks minus one.", "quantifier": "all autoencoders, all inputs", "why_tests_cant": "for every input", "anchors": ["ml4gw/nn/autoencoder/base.py:Autoencoder.decode", "ml4gw/nn/autoencoder/base.py:Autoencoder.forward"]}
{"id": "C18", "title": "Which encoder state reaches which decoder block", "statement": "decode combines the deepest decoder's output with no state, and the output of the decoder i levels above it (i>=1) with the output of the first i encoders; for every depth of at least two this differs from the mirrored (U-Net) pairing in which decoder i gets the state of the same level and the output layer gets none.", "quantifier": "all depths", "why_tests_cant": "unbounded depth", "anchors": ["ml4gw/nn/autoencoder/base.py:Autoencoder.decode"]}
{"id": "C19", "title": "match_size delivers the target length on padding, and its cropping branch", "statement": "match_size(X,target) returns X centred in zeros (floor(d/2) zeros on the left) with exactly target samples whenever X is not longer than target; when X is one sample longer, X without its first sample; when X is longer by two or more, an empty tensor, so the target length is missed unless the target is zero. Inputs of fewer than three axes are padded alike but rejected with IndexError when they are too long; inputs of more than three axes are padded alike, and when they are too long the last axis keeps its length (the third axis is cut instead).", "quantifier": "all tensors of any number of axes and all target sizes", "why_tests_cant": "all length differences", "anchors": ["ml4gw/nn/autoencoder/utils.py:match_size"]}
{"id": "C20", "title": "ConcatSkipConnect interleaves groups", "statement": "ConcatSkipConnect returns 2*channels channels in alternating chunks of `groups` channels of X and state (plain concatenation for groups=1); this is the documented layout of `groups` channel groups iff channels = groups*groups; channels not divisible by groups raise ValueError. For every skip connection get_out_channels announces exactly the number of channels forward returns.", "quantifier": "all channel counts and group counts", "why_tests_cant": "all channel counts", "anchors": ["ml4gw/nn/autoencoder/skip_connection.py:ConcatSkipConnect"]}
{"id": "C21", "title": "GroupNorm1D equals textbook group normalisation", "statement": "For every input (batch, channel, time), every trained weight/bias, every group count: the output is (x-mean)/sqrt(var+eps)*weight+bias with mean and biased variance taken over the channel's group and time; consequently x -> a*x+d (a>0) with eps -> a^2*eps leaves the output unchanged; inputs that are not 3-dimensional raise ValueError.", "quantifier": "all real tensors and group counts", "why_tests_cant": "real-valued inputs", "anchors": ["ml4gw/nn/norm.py:GroupNorm1D"]}
{"id": "C22", "title": "GroupNorm1D construction", "statement": "Construction raises ValueError iff num_groups does not divide num_channels; the getter (1D and 2D) therefore succeeds exactly for channel counts not exceeding `groups` or divisible by it, and raises otherwise (e.g. groups=16, 24 channels).", "quantifier": "all channel and group counts", "why_tests_cant": "all pairs", "anchors": ["ml4gw/nn/norm.py:GroupNorm1D.__init__", "ml4gw/nn/norm.py:GroupNorm1DGetter"]}
{"id": "C23", "title": "SignalInverter / SignalReverser act per series and preserve shape", "statement": "Each (batch, channel) series of the result is either unchanged or exactly negated (reversed in time) according to its own random mask; prob=0 never changes anything, prob=1 always does; applying the same mask twice is the identity; the caller's tensor is updated in place.", "quantifier": "all tensors and all random draws", "why_tests_cant": "all random draws", "anchors": ["ml4gw/augmentations.py:SignalInverter", "ml4gw/augmentations.py:SignalReverser"]}
{"id": "C24", "title": "Cosine and Sine sampling are exact inverse-CDF samplers", "statement": "For each uniform draw u in [0,1), Cosine.rsample returns theta in [low, high] with (sin theta - sin low)/(sin high - sin low) = u; Sine likewise in its shifted range; distinct draws give distinct samples in increasing order.", "quantifier": "all -pi/2<=low<high<=pi/2 and all draws", "why_tests_cant": "real parameters, all draws", "anchors": ["ml4gw/distributions.py:Cosine", "ml4gw/distributions.py:Sine"]}
{"id": "C25", "title": "Normalisation of Cosine.log_prob", "statement": "exp(Cosine.log_prob) integrates over [low,high] to sin(high)-sin(low) (and log_prob is -inf outside), so it is a normalised density iff sin(high)-sin(low)=1; for the default bounds the total mass is 2. Sine inherits this: cos(low)-cos(high).", "quantifier": "all bounds", "why_tests_cant": "an integral identity for all bounds", "anchors": ["ml4gw/distributions.py:Cosine.log_prob"]}
{"id": "C26", "title": "LogUniform and PowerLaw samples stay in range and follow the stated law", "statement": "Every LogUniform / PowerLaw sample lies between minimum and maximum and its CDF value (log law for LogUniform and index -1, power law otherwise, minimum=0 allowed for index>-1) is exactly the uniform draw; LogUniform.log_prob is log of 1/(y log(high/low)) on the support and integrates to the sampler's CDF; PowerLaw.log_prob is the normalised power-law density (integrates to 1); index 0 is rejected with ValueError; DeltaFunction always returns its peak.", "quantifier": "all ranges, indices and draws", "why_tests_cant": "real parameters", "anchors": ["ml4gw/distributions.py:LogUniform", "ml4gw/distributions.py:PowerLaw"]}
{"id": "C27", "title": "UniformComovingVolume sampling is a monotone inverse of its tabulated CDF", "statement": "For UniformComovingVolume and RateEvolution (positive rate), every distance type and grid: construction raises ValueError exactly when the maximum exceeds the grid's last distance; the tabulated CDF is strictly increasing from 0 to 1; every sample lies in [minimum, maximum], the tabulated CDF at the sample equals the uniform draw, and samples increase with the draw; log_prob is -inf outside the range and finite from the second grid point on, but with minimum<=0 it is NaN for every value in the first grid cell. The tabulated comoving distance is the trapezoidal rule for the integral of c/H within half a grid step times the variation of the integrand; luminosity distance is (1+z) times it; the tabulated density is proportional to D_C^2/H times the rate over dd/dz. Inside the range log_prob is the logarithm of the density at the two grid points around the argument, interpolated linearly in its cell.", "quantifier": "all non-negative density tables, grids and draws", "why_tests_cant": "all tables and draws", "anchors": ["ml4gw/distributions.py:UniformComovingVolume"]}
{"id": "C28", "title": "Antenna responses satisfy the polarisation symmetries", "statement": "For every sky location, polarisation angle and detector tensor each entry of compute_antenna_responses is the contraction of that source's plus/cross/breathing tensor (built from an orthonormal frame transverse to the source direction) with that detector's tensor. Changing psi by delta rotates (F+,Fx) by 2*delta: a quarter turn negates both, a half turn leaves them unchanged, F+^2+Fx^2 is independent of psi, and breathing does not depend on psi. An unknown mode raises ValueError; an empty mode list is a RuntimeError.", "quantifier": "all angles, detector tensors", "why_tests_cant": "real parameters", "anchors": ["ml4gw/gw.py:compute_antenna_responses"]}
{"id": "C29", "title": "shift_responses circularly delays each detector by a whole number of samples", "statement": "For each batch element and detector the output is the input rolled by trunc(-(omega.vertex)*sr/c) samples (rounded towards zero, never more than the light travel time from the origin), a permutation of the input samples, hence preserving their multiset and energy; a zero vertex means no shift; output shape equals the input's.", "quantifier": "all responses, sky positions and vertices", "why_tests_cant": "all shifts incl. negative and longer than the series", "anchors": ["ml4gw/gw.py:shift_responses"]}
{"id": "C30", "title": "compute_observed_strain is linear in the polarisations", "statement": "The observed strain of detector i for source b is the antenna-weighted sum of the polarisations, circularly delayed by that detector's delay; it is linear in the polarisations. The batch of the result is that of the sky parameters: one sky position given with a batch of several waveforms silently returns only the first waveform's strain.", "quantifier": "all waveforms, parameters", "why_tests_cant": "linearity over all inputs", "anchors": ["ml4gw/gw.py:compute_observed_strain"]}
{"id": "C31", "title": "SNR is homogeneous and reweight_snrs hits its target", "statement": "compute_ifo_snr is sqrt(4 sum_k g_k |h_k|^2/S_k df) for every input (PSD broadcast and, if needed, linearly interpolated); SNRs scale by |c| when the response is scaled by c; network SNR is the root sum square of the per-detector SNRs; after reweight_snrs, the recomputed network SNR equals |target| wherever the original SNR is positive.", "quantifier": "all responses, PSDs, masks and targets", "why_tests_cant": "real-valued identity", "anchors": ["ml4gw/gw.py:compute_ifo_snr", "ml4gw/gw.py:compute_network_snr", "ml4gw/gw.py:reweight_snrs"]}
{"id": "C32", "title": "SNR depends only on the unmasked band and not on circular time shifts", "statement": "SNR^2 is additive over disjoint bands and masks, hence monotone in the band, unaffected by response content outside the band, and invariant under circular time shifts (in particular the detector delays applied by shift_responses); mask-length mismatch raises ValueError.", "quantifier": "all responses, PSDs, masks, shifts", "why_tests_cant": "all shifts and masks", "anchors": ["ml4gw/gw.py:compute_ifo_snr"]}
{"id": "C33", "title": "Shape validation for spectral densities accepts exactly the documented combinations", "statement": "For every x of any number of dimensions >= 1, every segment length and every optional second series y of dimension >= 1, the spectral density functions accept the shapes if and only if nperseg <= length of x, x has at most 3 dimensions, and y (if given) has the same shape as x or the documented lower-dimensional shape: (channel, time) x with (time) y, or (batch, channel, time) x with (batch, time) y; all other combinations raise ValueError. In particular the docstring's '(num_channels, time) y shared by all of x's batch elements' is rejected whenever batch and channel counts differ.", "quantifier": "all shapes of x and y, all nperseg", "why_tests_cant": "infinitely many shape combinations", "anchors": ["ml4gw/spectral.py:_validate_shapes", "ml4gw/spectral.py:fast_spectral_density", "ml4gw/spectral.py:spectral_density"]}
{"id": "C34", "title": "spectral_density is the (mean or bias-corrected median) Welch estimate; scaling, non-negativity, Parseval", "statement": "For every 1-3 dimensional input, segment length, stride, window, scale and average string, spectral_density returns shape (..., nperseg//2+1) and each entry is the aggregate over all segments of scale * onesided factor * |rfft(window*(segment - segment mean))|^2. The result is non-negative for non-negative scale, is invariant under constant offsets and scales with the square of the signal and of the window, does not depend on the order of the segments, and for every segment the one-sided bins sum to nperseg times the windowed power (Parseval). The median is the linearly interpolated middle of the sorted values divided by the bias 1 - 1/2 + 1/3 - ..., with the largest odd number of terms not exceeding the number of segments, which always lies in (1/2, 1]. Any average string other than 'mean' selects the median.", "quantifier": "all signals, shapes, windows, lengths, strides, scales and average strings", "why_tests_cant": "real-valued identities at every length and shape", "anchors": ["ml4gw/spectral.py:spectral_density", "ml4gw/spectral.py:median"]}
{"id": "C35", "title": "whiten: exact filter, output length, argument check, linearity, locality and unit variance", "statement": "For a (B,C,N) input and any broadcastable positive PSD, fduration (seconds or window) with pad >= 1 and optional cutoffs, whiten succeeds iff N > 2*pad (ValueError otherwise), returns N-2*pad samples (N with crop=False), and each sample is the demeaned series filtered with the zero-phase gain sqrt(2)|A_k|/sqrt(sr), A the transform of the tapered impulse response of the band-limited 1/sqrt(PSD) (PSD interpolated and broadcast as documented). It is linear in X, invariant under offsets, commutes with circular time shifts, scales with 1/sqrt(c) when the PSD is scaled by c; when the truncated response is a non-negative real gain, every kept sample only involves the demeaned samples within pad of it (no wrap-around); and for the flat PSD of white noise of standard deviation sigma and an even number of bins the result is exactly (X - mean)/sigma.", "quantifier": "all inputs, sizes, PSDs, durations, windows, cutoffs", "why_tests_cant": "real-valued identities for all sizes and spectra", "anchors": ["ml4gw/spectral.py:whiten", "ml4gw/spectral.py:normalize_by_psd"]}
{"id": "C36", "title": "Zero padding in whiten / normalize_by_psd", "statement": "When fduration is shorter than two samples (pad = 0), whiten raises RuntimeError for every input with at least two samples, instead of applying an untruncated filter, and normalize_by_psd with pad=0 and crop=True returns an empty time axis.", "quantifier": "all inputs, PSDs, cutoffs", "why_tests_cant": "all inputs", "anchors": ["ml4gw/spectral.py:whiten", "ml4gw/spectral.py:truncate_inverse_power_spectrum", "ml4gw/spectral.py:normalize_by_psd"]}
{"id": "C37", "title": "FittableTransform cannot be used unbuilt", "statement": "Over any history of build / load_state_dict / call operations on a new fittable transform, a call passes the built-check exactly when an earlier operation fitted it (a build naming only existing buffers with values that broadcast to them, or a load none of whose present values has the wrong shape), and raises ValueError otherwise; names and shapes of the buffers never change; a successful build or strict load stores exactly the given values. Known deviations, proved: loading an incomplete (even empty) state dict raises under strict but still marks the transform as built; a failing re-build leaves the buffers named before the failing one overwritten while the transform stays callable.", "quantifier": "all operation histories", "why_tests_cant": "all histories", "anchors": ["ml4gw/transforms/transform.py:FittableTransform", "ml4gw/transforms/transform.py:FittableSpectralTransform"]}
{"id": "C38", "title": "ChannelWiseScaler fit/forward/reverse", "statement": "fit on a (C, T) array stores the channel-wise mean and population standard deviation (plus std_reg), whatever was fitted before; forward computes (x - mean)/std and reverse std x + mean for any leading batch dimensions; each undoes the other when the stored scale is non-zero; the fitted data itself becomes zero-mean, unit-variance in every channel with non-zero variance; data of the wrong rank or channel count is rejected and leaves the scaler unchanged; an unfitted scaler raises.", "quantifier": "all data sets", "why_tests_cant": "real-valued identity", "anchors": ["ml4gw/transforms/scaler.py:ChannelWiseScaler"]}
{"id": "C39", "title": "SnrRescaler assigns a permutation of the batch SNRs (or the given targets)", "statement": "With given targets, the rescaled response of every batch element is target/SNR times the input and its network SNR, measured again, is |target|; without targets, the SNRs of the rescaled batch are, for every permutation drawn, a permutation of the input SNRs and are what is returned beside them. fit stores one normalised PSD per channel, raises on a wrong number of backgrounds, and a call before fit raises. The SNR a constructed and fitted rescaler measures is the matched-filter SNR against the fitted PSDs over exactly the Fourier bins with highpass <= frequency < lowpass (an omitted limit does not cut).", "quantifier": "all batches, permutations", "why_tests_cant": "all permutations", "anchors": ["ml4gw/transforms/snr_rescaler.py:SnrRescaler"]}
{"id": "C40", "title": "ShiftedPearsonCorrelation is bounded and detects equality", "statement": "For x of shape (..., T) with at most two batch dimensions and y whose shape is a trailing part of x's, the output has shape (2*max_shift+1, *batch) and its entry s is the Pearson coefficient of y with x moved by s-max_shift samples (zeros moved in); the coefficient is nan exactly when one of the two is constant, otherwise it is in [-1,1], unchanged by v -> a*v+c with a>0 (negated for a<0), and equal to 1 exactly when one series is a positive affine image of the other; a y that is x moved by d is found at lag d; more than three dimensions or non-trailing shapes raise ValueError.", "quantifier": "all series, lengths, batch shapes, shifts and max_shift", "why_tests_cant": "Cauchy-Schwarz for all real data", "anchors": ["ml4gw/transforms/pearson.py:ShiftedPearsonCorrelation"]}
{"id": "C41", "title": "Decimator keeps the scheduled samples", "statement": "For a contiguous integer schedule starting at 0 with at least two samples in every segment but the last, forward keeps exactly the samples start + step*k of each segment, in order; split=True returns the segments separately; overlapping rows raise ValueError when split is off; an input whose length is not the schedule's duration raises ValueError.  Proved deviations: after a gap the second segment is read from the end of the first, not from its own start time; a segment of one sample followed by another raises IndexError at construction; a schedule starting at or after its own duration can never be applied.", "quantifier": "all schedules with integral sample boundaries and rates dividing the sample rate, all inputs", "why_tests_cant": "all schedules", "anchors": ["ml4gw/transforms/decimator.py:Decimator"]}
{"id": "C42", "title": "TophatIntegrator is the causal moving average", "statement": "y[t] = (1/W) * sum of the last W samples (zeros before the start) with W = int(sample_rate*integration_length)+1, for every batch shape; the shape is kept; a constant c gives c*min(W,t+1)/W; y[t] depends only on samples t-W+1..t.", "quantifier": "all series", "why_tests_cant": "all inputs", "anchors": ["ml4gw/transforms/integrator.py:TophatIntegrator"]}
{"id": "C43", "title": "LeakyIntegrator equals the clamped recursion", "statement": "The cumsum/cummin formula equals the recursion y_t = max(y_{t-1}+d_t, lower_bound), where d_t is 1 (or the score) when the score reaches the threshold and -decay otherwise, started from y_{-1} = -lower_bound; so with lower_bound 0 it is the leaky integrator from 0, the output never goes below lower_bound, and it can be resumed from its last value; with lower_bound -5 the first above-threshold sample gives 6, not 1 (a proved deviation).  integrate_value other than 'count'/'score' raises ValueError.", "quantifier": "all series and thresholds", "why_tests_cant": "all lengths", "anchors": ["ml4gw/transforms/integrator.py:LeakyIntegrator"]}
{"id": "C44", "title": "Heterodyne is a unit-modulus frequency-domain rotation", "statement": "For n = int(kernel_length*sample_rate) samples and M chirp masses: output bin 0 is 0; every other bin is the input's rfft divided by the sample rate times exp(i*(3/128)*(pi*M*MTSUN*f)^(-5/3)), so its modulus is kept, and a signal whose spectrum carries the conjugate chirp phase of a chirp mass comes out with zero phase for that mass; for an even number of samples the time output is the real series with that spectrum (Nyquist: real part only), for an odd number it has one sample fewer than documented; inputs with another number of bins raise RuntimeError; return types other than time/freq/both raise ValueError. Input without a batch dimension is not rejected: with a single chirp mass it silently yields the (channels, F, F) outer product of the spectrum and the phase factors (other numbers of masses than 1 and F raise RuntimeError); a 1D series raises IndexError.", "quantifier": "all signals, chirp masses", "why_tests_cant": "all inputs", "anchors": ["ml4gw/transforms/heterodyne.py:Heterodyne"]}
{"id": "C45", "title": "WaveformSampler returns aligned parameters and waveforms; WaveformProjector projects on the named detectors", "statement": "Construction succeeds exactly when every polarization and the parameters have the same number of waveforms, else ValueError; forward(N) with 0<=N<=n reads every polarization and the parameters at the same N in-range rows; every choice of rows is reachable, so draws may repeat (sampling is with replacement although N>n is refused); N=-1 returns all rows in order; N>n raises ValueError and N<-1 RuntimeError. WaveformProjector(ifos) returns for every detector the sum of antenna factor times delayed polarization with that detector's geometry; unknown detectors raise ValueError at construction.", "quantifier": "all waveform sets, draws, detectors and sky positions", "why_tests_cant": "all permutations", "anchors": ["ml4gw/transforms/waveforms.py:WaveformSampler", "ml4gw/transforms/waveforms.py:WaveformProjector"]}
{"id": "C46", "title": "Q-tile: number of tiles, window, energies", "statement": "For positive parameters, a tile at (q, f) has as many output samples as the least power of two not below its wanted number of tiles (0 if that is at most 1/2); its window has 2h+1 points, h the whole part of the half-width f\u00b7duration\u00b7sqrt(11)/q, is the symmetric non-negative bisquare; left and right padding make the padded length equal the number of tiles exactly when that number is an even power of two (for one tile the padded length is 2), and for mismatch up to 1/2 the window always fits. forward then returns, for each batch element and channel, the squared modulus of the windowed inverse DFT of the band around f; with norm 'median'/'mean' (any case) each row is divided by its median/mean, other names and more than 3 dimensions are ValueErrors. Energies scale quadratically in the data and sum to the windowed band's energy over the tile count (Parseval).", "quantifier": "all q, f, durations, rates, mismatches, spectra and normalisations", "why_tests_cant": "rounding to powers of two, window fit and energy identities for all real parameters", "anchors": ["ml4gw/transforms/qtransform.py:QTile"]}
{"id": "C47", "title": "SingleQTransform: frequencies, tiles and spectrogram", "statement": "The tile frequencies are the distinct multiples of 1/duration at or just below n geometric midpoints of the frequency range, in strictly increasing order, n being the least number of steps respecting the mismatch; q at or above the stated maximum, an unknown interpolation method or a non-positive upper limit is a ValueError, and q is below the maximum exactly when the default limits are in order. The caller's frange list is overwritten by the resolved limits (so a second transform built from it inherits them). compute_qtiles gives, per tile, the energies of the one-sided normalised spectrum; interpolate gives the separable resampling of the tiles (in frequency order) to the requested shape with all unit axes dropped \u2014 so the promised 'one more dimension than the input' fails for batch or channel 1 \u2014, bilinear stays within the range of the data while bicubic can turn negative, and before compute_qtiles it is a RuntimeError. The spline grouping of tiles by length visits the tiles in frequency order.", "quantifier": "all durations, rates, q, ranges, mismatches, methods, inputs and output shapes", "why_tests_cant": "all parameter combinations and inputs", "anchors": ["ml4gw/transforms/qtransform.py:SingleQTransform"]}
{"id": "C48", "title": "get_max_energy", "statement": "Restricting the search to (f_lo, f_hi] considers exactly the tiles whose frequency lies there when some tile frequency exceeds f_hi; an f_hi (or f_lo) at or above the highest tile frequency raises ValueError even if tiles lie in the range. 'both' returns the largest energy of all those tiles over batch, channel and time; 'neither' the largest per (batch, channel); 'channel' one per channel (over the batch); 'batch' one per batch element (over channels). Unknown dimensions are ValueErrors, uncomputed tiles RuntimeErrors, an empty selection ValueError ('both') or RuntimeError.", "quantifier": "all frequency lists, tile contents, bounds and dimensions", "why_tests_cant": "all bounds and tensors", "anchors": ["ml4gw/transforms/qtransform.py:SingleQTransform.get_max_energy"]}
{"id": "C49", "title": "QScan: planes and choice of the best", "statement": "For a positive Q range the planes are the n geometric midpoints of the range, n the least positive number of steps of mismatch at most the allowed one; they increase strictly and lie strictly inside the range. A scan keeps exactly those below the maximal Q and gives each the frequency limits it would have on its own. forward returns the resampled tiles of the first plane whose maximal searched energy is largest; no plane left is an IndexError, and a search range reaching the top frequency of any one plane is a ValueError. With default limits, a valid input always succeeds.", "quantifier": "all ranges, mismatches, durations, rates and inputs", "why_tests_cant": "all ranges and inputs", "anchors": ["ml4gw/transforms/qtransform.py:QScan"]}
{"id": "C50", "title": "MultiResolutionSpectrogram alignment", "statement": "Keyword lists of MultiResolutionSpectrogram are accepted exactly when their lengths are compatible (all equal to one n, or 1 and n), and the number of resolutions is n, provided the iteration order of the Python set {1, n} puts 1 first, as the code assumes; because that order is that of a hash table, one-element lists mixed with lists of n elements are refused for exactly those n for which CPython puts n first: multiples of 8, and some n = 1 mod 8 such as 65 (refuted). An empty list beside one-element lists is refused. At construction, kernel_length*sample_rate must be an integer for any input to be accepted. For an accepted input, every bin of the combined output at fine index i of N is the maximum, over the resolutions, of that resolution's bin floor(i*n/N) in frequency and time, so each output value is one of the computed spectrogram values, no bin is skipped and the zero padding is never read; with a single resolution the output is that spectrogram. An input of the wrong length raises ValueError.", "quantifier": "all keyword dictionaries, numbers of resolutions, spectrogram sizes and inputs", "why_tests_cant": "all configurations", "anchors": ["ml4gw/transforms/spectrogram.py:MultiResolutionSpectrogram"]}
{"id": "C51", "title": "Spline interpolation", "statement": "For every degree k>=1 and every strictly increasing coordinate vector with at least k+2 points: the knot vector is clamped, the B-spline basis functions are non-negative, vanish outside their k+1 knot spans, sum to one on the data interval and reproduce the identity with the Greville abscissae; every function the module evaluates is a polynomial of degree at most k between consecutive knots with k-1 continuous derivatives; the unregularised fit always succeeds (Schoenberg-Whitney), the fitted spline passes through every data point, its coefficients are the only ones that do, straight lines are reproduced everywhere and the end values are held outside the data; degree one is piecewise-linear interpolation; with regularisation s>0 the fit always succeeds and minimises the penalised least-squares residual; a repeated coordinate makes the unregularised fit fail. SplineInterpolate1D/2D apply this to each row (each image, as the composition of the fit along y and the fit along x) at the output coordinates in force: those of this call, else of the last accepted call that gave any (the override persists, contrary to the documented per-call meaning), else of construction; an accepted call on increasing coordinates never raises; too few points, missing output coordinates and wrong data shapes raise as documented, and a rejected call leaves the state unchanged.", "quantifier": "all degrees, coordinate vectors, data, output grids and call histories", "why_tests_cant": "all knots and degrees", "anchors": ["ml4gw/transforms/spline_interpolation.py:SplineInterpolate1D", "ml4gw/transforms/spline_interpolation.py:SplineInterpolate2D", "ml4gw/transforms/spline_interpolation.py:SplineInterpolateBase"]}
{"id": "C52", "title": "Mass conversion round trip", "statement": "For every chirp mass mc > 0 and ratio q > 0 the returned pair (m1, m2) is positive, m2/m1 = q, its chirp mass (m1 m2)^(3/5)/(m1+m2)^(1/5) is mc, and m2 <= m1 iff q <= 1; it is the only such pair: converting any pair of masses to (chirp mass, m2/m1) and back returns that pair.", "quantifier": "all positive masses and ratios", "why_tests_cant": "real-valued identity", "anchors": ["ml4gw/waveforms/conversion.py:chirp_mass_and_mass_ratio_to_components"]}
{"id": "C53", "title": "Spin conversion geometry", "statement": "For positive masses and reference frequency and nonzero total angular momentum J, bilby_spins_to_lalsim returns an inclination in [0, pi] and the two spins a1*direction(tilt1, psi), a2*direction(tilt2, psi+phi_12) of the frame whose z axis is L and whose line of sight is (0, sin incl, cos incl), where that line of sight is the one which, in the frame with J along z, is (0, sin theta_jn, cos theta_jn) while L has azimuth phi_jl; so norms, tilts and relative azimuth of the spins are preserved; aligned spins give inclination theta_jn and spins (0,0,a_i); f_ref <= 0 and only that raises ValueError.", "quantifier": "all angles", "why_tests_cant": "real parameters", "anchors": ["ml4gw/waveforms/conversion.py:bilby_spins_to_lalsim", "ml4gw/waveforms/conversion.py:rotate_y", "ml4gw/waveforms/conversion.py:rotate_z"]}
{"id": "C54", "title": "SineGaussian polarisation content", "statement": "Each sample of SineGaussian is the Gaussian-damped sine (cross) and cosine (plus) of the documented phase at t_j = j/sample_rate - duration/2, with int(duration*sample_rate) samples; over the whole time axis the plus and cross energies are (a*hrss)^2 and (b*hrss)^2 with a^2+b^2 = 1, 0 <= b <= a, so the total energy is hrss^2 for every phase and eccentricity; eccentricity 1 gives zero cross, 0 gives equal weights; phase pi flips the sign; at phase zero plus is even and cross odd in time; parameters broadcast, incompatible batches raise.", "quantifier": "all parameters", "why_tests_cant": "real parameters", "anchors": ["ml4gw/waveforms/adhoc/sine_gaussian.py:SineGaussian"]}
{"id": "C55", "title": "Ringdown scaling", "statement": "Each sample of Ringdown is amplitude*exp(-pi f t/Q) times (1+cos^2 i) cos(2 pi f t + phase) (plus) and 2 sin(i) sin(2 pi f t + phase) (cross), the amplitude being the closed form in f, Q, epsilon and distance; amplitudes scale as 1/distance; n periods later the signal is the same times exp(-pi n/Q); as a consequence the cross polarisation vanishes face-on; shapes and sample times are as documented.", "quantifier": "all parameters", "why_tests_cant": "real parameters", "anchors": ["ml4gw/waveforms/adhoc/ringdown.py:Ringdown"]}
{"id": "C56", "title": "TaylorF2 phase, derivative and amplitude", "statement": "The function returned as derivative is the exact derivative of the phasing at every positive frequency and for all coefficients; without spins the phasing is the standard 3.5PN series, and with spins each coefficient is the published one (terms linear in the symmetric and antisymmetric spins to 3.5PN, quadratic ones at 2PN and 3PN); exchanging the two bodies changes nothing; the amplitude is the Newtonian stationary-phase amplitude of the chirp mass; hc*(1+cos^2 i)/2 = -i hp cos i with the stated moduli; both scale as 1/distance; the phase at the reference frequency is pi/4+2 phic up to sign; the module returns one row per parameter set and raises ValueError on mismatched batches.", "quantifier": "all positive frequencies, parameters", "why_tests_cant": "real analysis", "anchors": ["ml4gw/waveforms/cbc/taylorf2.py:TaylorF2"]}
{"id": "C57", "title": "IMRPhenomD is defined, smooth and correctly normalised for every physical binary", "statement": "For every batch of binaries with positive chirp mass and mass ratio and spins in [-1,1], IMRPhenomD succeeds (the remnant spin never leaves the quasi-normal-mode table, the radiated energy is between 0 and 13% of the mass, the joins are ordered 0.018 < fRD/2 < f_peak <= fRD and 0.014 < f_peak) and returns, for each binary and frequency, hp = A(f)(1+cos^2 i)/2 exp(-i Psi) and hc = -i cos i A(f) exp(-i Psi), with A = Newtonian stationary-phase amplitude of the chirp mass and distance times an amplitude factor. The phase and the amplitude factor are continuously differentiable in frequency through both joins; the inspiral phase is TaylorF2's without the 3PN spin-spin term plus four calibrated powers; the amplitude factor takes the calibrated value half way between its joins and is a positive damped Lorentzian after the peak. The phase at f_ref is 2 phic; phic + d rotates by exp(2id); the strain is proportional to 1/distance; for equal masses exchanging the spins changes nothing; the masses used have chirp mass mc and m2/m1 = q (the docstring says m1/m2). The 'derivative' the phase routine returns is not the derivative of the phase it returns after the first join: it omits the join slopes, so the time shift t0 leaves slope C2MRD at the peak frequency. Mismatched batch sizes raise ValueError; a remnant spin outside [-1,1] (only unphysical input) raises RuntimeError. Interpolation in the table is exact at the nodes and linear between them. The ingredients are the published ones: post-Newtonian amplitude coefficients to 3PN, effective spin, final spin, radiated energy, the nineteen fitted coefficients (six digits of the published table), the slopes of the phase in the three regions, TaylorF2 coefficients without the quadratic-in-spin 3PN term, and the matching frequency is where the ringdown amplitude is stationary. The remnant's oscillation frequency increases with its spin, its damping rate decreases from spin 0 on, and at spin 0 both are the Schwarzschild values.", "quantifier": "all batch sizes, frequencies, positive chirp masses and mass ratios, spins in [-1,1], distances, phases, inclinations", "why_tests_cant": "the domain is a five-parameter continuum; smoothness and absence of an off-table remnant spin are statements about every point of it", "anchors": ["ml4gw/waveforms/cbc/phenom_d.py:IMRPhenomD", "ml4gw/waveforms/cbc/phenom_d.py:fring_fdamp", "ml4gw/waveforms/cbc/phenom_d.py:_linear_interp_finspin", "ml4gw/waveforms/cbc/phenom_d_data.py"]}
{"id": "C58", "title": "TimeDomainCBCWaveformGenerator returns the conditioned, shifted, right-aligned inverse transform of the approximant", "statement": "For every even integer sample rate, every batch of binaries with positive masses and spins in [-1, 1], every f_min in (0, Nyquist], right_pad and duration, and every approximant that works row by row and frequency by frequency, forward() returns (hc, hp) in which row i is the high-pass (forward-backward) filtered frame whose last samples are: the L-point inverse real transform (scaled so that it is the Riemann sum, with step df = sample_rate/L, of the inverse Fourier integral) of the approximant of row i sampled at k*df, with the Nyquist bin removed, multiplied by a taper in [0, 1] that is zero below the row's start frequency, never decreases and is exactly 1 from f_min (half a bin above) on; advanced circularly by round(right_pad*sample_rate) samples (so that the coalescence is that far from the end); and multiplied by start/end tapers in [0, 1] that are 0 at the first sample, 1 outside the first max(round(sr/f_min),4) and last max(round(sr/f_isco),4) samples and depend on the row only, not on its batch mates. L is a power of two, at least the rounded bound on the duration of every signal in the batch and less than twice the longest. The start frequency lies strictly below f_min and the taper is at least one bin wide (no 0/0). The approximant is only evaluated at positive frequencies. This includes IMRPhenomD as the approximant for all physical parameters.", "quantifier": "all sample rates 2q, durations, f_min, right_pad, all batches of binaries, all row-wise approximants, all filter coefficients of equal length", "why_tests_cant": "depends on masses, spins, sampling and batch composition in combination; a test compares a few waveforms with lalsimulation within a tolerance", "anchors": ["ml4gw/waveforms/generator.py: TimeDomainCBCWaveformGenerator.generate_conditioned_fd_waveform", "ml4gw/waveforms/generator.py: TimeDomainCBCWaveformGenerator.apply_td_condition_stage2", "ml4gw/waveforms/generator.py: TimeDomainCBCWaveformGenerator.forward"]}
{"id": "C59", "title": "ResNet: construction, shapes and residual compatibility", "statement": "A (Bottleneck)ResNet1D/2D is built exactly when: kernel_size is odd; for the vanilla network groups=1 and width_per_group=64, for the bottleneck network groups>=1; `layers` has at least two entries; stride_type is None or has one known entry per stage after the first; and for the vanilla network no block would see a dilation (only the last stage, with a single block, may be 'dilation'). Otherwise: wrong stride_type length, even kernel, unsupported groups/width, or (bottleneck) an unknown stride type raise ValueError; a dilated BasicBlock raises NotImplementedError; a single-stage `layers` raises UnboundLocalError. A built network maps (batch, in_channels, *spatial) with any positive spatial sizes to (batch, classes), without any shape error or broadcasting in the residual additions; the feature map before pooling has 64*2^(stages-1)*expansion channels and each spatial size n becomes ceil(n/(4*2^#strided stages)) (dilation stages do not downsample). A wrong channel count raises. The number of weighted layers is 2 + factor*sum(max(1,n_i)), i.e. the documented 2+factor*sum(layers) when all entries are >= 1. With zero_init_residual a block without downsample path equals ReLU of its input, and block outputs are non-negative.", "quantifier": "all layer plans, kernel sizes, groups, widths, stride types, batch and spatial sizes, all layer arithmetic", "why_tests_cant": "the plan, sizes and weights range over infinite sets; tests sample a few", "anchors": ["ml4gw/nn/resnet/resnet_1d.py:ResNet1D", "ml4gw/nn/resnet/resnet_1d.py:BasicBlock"]}
{"id": "C60", "title": "S4D layer is the documented causal state-space convolution", "statement": "For input (batch, d_model, length>=1) the FFT-based forward (zero padding to twice the length, truncation) equals gelu of the causal linear convolution of the input with the kernel 2 Re(sum_n C_n Bbar_n Abar_n^l) plus D*u, then dropout mask, 1x1 convolution and GLU; the kernel is the impulse response of the zero-order-hold discretisation of the diagonal continuous system; the output at time t depends only on inputs up to t (even for inputs of different lengths); every |Abar|<1, with geometric kernel decay; creation keeps floor(N/2) conjugate pairs (an odd N loses a state) with step sizes in [dt_min, dt_max); transposed=False takes (batch, length, d_model) and returns that layout. A single-channel input is silently broadcast over d_model; other channel counts and empty length raise RuntimeError.", "quantifier": "all parameters, inputs, lengths, masks", "why_tests_cant": "DFT and discretisation identities for all lengths and parameters", "anchors": ["ml4gw/nn/ssm/s4d.py:S4DLayer", "ml4gw/nn/ssm/s4d.py:S4DKernel"]}
{"id": "C61", "title": "ConvolutionalAutoencoder calls activation classes on tensors", "statement": "With an activation class (as documented, e.g. the default torch.nn.ReLU) ConvolutionalAutoencoder.forward raises for every input unless there is exactly one block and the output activation is a callable on tensors; in that case (non-concatenating skip connection) the output has exactly the input's length for every kernel size, stride and length >= kernel size.", "quantifier": "all channel lists, kernel sizes, strides, groups, skip connections, layer weights and inputs", "why_tests_cant": "ranges over all configurations and inputs", "anchors": ["ml4gw/nn/autoencoder/convolutional.py: ConvBlock, ConvolutionalAutoencoder.forward", "ml4gw/nn/autoencoder/base.py: Autoencoder.forward"]}
{"id": "C62", "title": "Built-in detector geometry", "statement": "get_ifo_geometry returns for each name H1, L1, V1, K1 the symmetric tensor (x(x)x - y(x)y)/2 of its arms, which are orthogonal unit vectors to 1e-5/1e-7, and a vertex 6350-6380 km from the geocentre; unknown names raise ValueError. Hence for every source F+^2+Fx^2 <= (1+1e-7)^2 and |Fb| <= 1+1e-7 for these detectors.", "quantifier": "all lists of detector names, all source angles, all batch sizes", "why_tests_cant": "the bound ranges over all real source angles", "anchors": ["ml4gw/gw.py:get_ifo_geometry", "ml4gw/utils/interferometer.py:InterferometerGeometry"]}
{"id": "C63", "title": "fast_spectral_density: power and cross spectral densities; agreement with the exact version", "statement": "For every documented pair of shapes, fast_spectral_density returns (..., nperseg//2+1) and each entry is the aggregate (real and imaginary parts separately) over segments of scale*onesided*conj(X_s)*Y_s, with X_s, Y_s the windowed transforms of the segments of the globally demeaned series and y matched to x's batch element as documented. CSD(y,x) is the conjugate of CSD(x,y), CSD(x,x) is real and non-negative, the CSD is multiplied by c*c' when x and y are scaled by c, c' (offsets have no effect), the mean CSD obeys |S_xy|^2 <= S_xx*S_yy, and with the periodic Hann window the PSD equals the exact spectral_density in every bin except the two lowest (with a rectangular window except the lowest).", "quantifier": "all signals, shapes, windows, lengths, strides", "why_tests_cant": "real-valued identities at every length and shape; agreement only up to rounding can be sampled", "anchors": ["ml4gw/spectral.py:fast_spectral_density", "ml4gw/spectral.py:spectral_density"]}
{"id": "C64", "title": "PSD normalisation of fittable spectral transforms", "statement": "With no fftlength, data with the expected number F of bins is used unchanged and data with m bins is resampled by nearest neighbour (bin floor(j m/F)); with an fftlength, the time-domain data is turned into Welch's median estimate with a Hann window and density scaling. Known deviations, proved: an explicit overlap of 0 is silently replaced by half the segment; several rows are flattened into one before resampling.", "quantifier": "all spectra, timeseries, bin counts, segment lengths and overlaps", "why_tests_cant": "index map and real-valued identity for every length", "anchors": ["ml4gw/transforms/transform.py:FittableSpectralTransform.normalize_psd"]}
{"id": "C65", "title": "Whiten module", "statement": "Whiten(fduration, sample_rate) filters each channel with the inverse amplitude spectrum of its PSD tapered by a Hann window of size = int(fduration sample_rate) samples and removes size//2 samples per end; for even size it equals the function whiten with fduration in seconds; for white noise of level sigma with even size it returns (x - mean)/sigma exactly, and for odd size that value times (1 + cos(pi/size))/2 < 1; a negative fduration raises.", "quantifier": "all kernels, PSDs, lengths, sample rates and filter options", "why_tests_cant": "real-valued identity for all sizes", "anchors": ["ml4gw/transforms/whitening.py:Whiten", "ml4gw/spectral.py:whiten"]}
{"id": "C66", "title": "FixedWhiten: fit then forward is whitening with the fitted background", "statement": "After fit with one background per channel, forward on kernels of the declared length filters every channel with the truncated inverse spectrum of its own background; it agrees with the function whiten on the stacked backgrounds whenever rounding fduration to float32 does not change int(fduration sr / 2); otherwise the number of cropped samples is the one of the rounded value (witness: 0.7 s at 20 Hz crops 6 samples instead of 7). Unfitted calls, wrong kernel lengths and wrong numbers of backgrounds raise ValueError, the latter leaving the transform unchanged.", "quantifier": "all backgrounds, kernels, lengths, rounding functions", "why_tests_cant": "all real inputs and all histories of fits", "anchors": ["ml4gw/transforms/whitening.py:FixedWhiten"]}
{"id": "C67", "title": "SpectralDensity module", "statement": "A module is created exactly when overlap < fftlength, the window has int(fftlength sample_rate) samples and average is mean or median (ValueError otherwise); the exact module computes Welch's estimate with density scaling 1/(sr sum w^2) and stride n - int(overlap sr), and rejects a second argument; the fast module computes the fast auto- or cross-spectral density with the same parameters.", "quantifier": "all signals of up to three dimensions, windows, overlaps, averages", "why_tests_cant": "real-valued identity for all inputs", "anchors": ["ml4gw/transforms/spectral.py:SpectralDensity"]}
{"id": "C68", "title": "Conditioning bounds used by the CBC generator", "statement": "The chirp-time bound equals the Newtonian chirp time times 1 + PN corrections (2PN, spin at its worst-case magnitude), is strictly above the Newtonian time, nondecreasing in each spin magnitude and symmetric under exchange of the bodies; the start-frequency bound inverts the Newtonian time, decreases with the time, and for 1.1 times the chirp-time bound lies strictly between 0 and f_min; the final-spin bound lies in [0.686/1.3, 0.998] (both ends attained), is 0.686 without spins and dominates both spins up to 0.998, so the ringdown-time bound is well defined and positive; the merge-time bound is linear in mass; the ISCO frequency is 1/(27 pi M) in seconds.", "quantifier": "all positive masses and frequencies, all spins in [-1, 1]", "why_tests_cant": "inequalities over all real parameters", "anchors": ["ml4gw/waveforms/cbc/utils.py:chirp_time_bound", "ml4gw/waveforms/cbc/utils.py:chirp_start_frequency_bound", "ml4gw/waveforms/cbc/utils.py:final_spin_bound", "ml4gw/waveforms/cbc/utils.py:merge_time_bound", "ml4gw/waveforms/cbc/utils.py:ringdown_time_bound", "ml4gw/waveforms/cbc/utils.py:frequency_isco", "ml4gw/waveforms/cbc/coefficients.py"]}
{"id": "C69", "title": "S4Model: residual stack of S4D layers with pooled head", "statement": "S4Model.forward on (batch, d_input, length>=1) returns (batch, d_output), each row a function of its own batch element: encoder per time step; each layer adds its S4D output (times the dropout mask) to its input and applies LayerNorm over channels; mean over time; decoder. With LayerNorm weight 1 and bias 0 every time step leaving a layer has mean zero over channels. With no layers the model is the affine decoder of the encoded time mean. A wrong channel count raises RuntimeError. A model with layers is built exactly when the dropout is a number in [0,1] and both time steps are positive, otherwise ValueError; without layers nothing is checked.", "quantifier": "all parameters, masks, inputs, batch sizes and lengths", "why_tests_cant": "holds for every weight and input", "anchors": ["ml4gw/nn/ssm/s4d.py:S4Model", "ml4gw/nn/ssm/s4d.py:S4DLayer"]}
{"id": "C70", "title": "IMRPhenomPv2: defined, smooth and in range for every physical binary", "statement": "For positive chirp mass, 0 < mass ratio m2/m1 <= 1 and each spin vector of norm at most 1, IMRPhenomPv2 never raises on positive frequencies: the effective precession spin lies in [0,1], the final spin strictly inside (-1,1), so the quasi-normal-mode lookup always succeeds and equals piecewise-linear interpolation of the tables; dimensionless ringdown frequency in [0.046,0.182], damping in [0.00029,0.0164]; the join frequencies are ordered, and the phase and amplitude of the underlying aligned model are continuously differentiable in frequency. forward on a batch returns one row per binary with one (cross, plus) pair per frequency. The linear phase subtracted makes the aligned phase stationary at a frequency within 0.07% of the ringdown frequency. The interpolation helper on its own extrapolates from the last segment at or below the first node (at spin exactly -1 it returns a negative frequency) and raises IndexError above the last.", "quantifier": "all physical masses and spin vectors, distances > 0, angles, reference frequencies, coalescence times, frequencies > 0, batch sizes", "why_tests_cant": "spins range over a product of two balls; polynomial fits must stay on the table for all of them", "anchors": ["ml4gw/waveforms/cbc/phenom_p.py:IMRPhenomPv2", "ml4gw/waveforms/cbc/phenom_p.py:interpolate", "ml4gw/waveforms/cbc/phenom_p.py:FinalSpin_inplane", "ml4gw/waveforms/cbc/phenom_p.py:phP_get_fRD_fdamp"]}
{"id": "C71", "title": "IMRPhenomPv2: frame conversion and twisting-up", "statement": "The angles computed from the spins define a rotation that takes the total angular momentum at the reference frequency to the z axis, the line of sight into the x-z plane at polar angle thetaJN (so cos thetaJN = N.J/|J|), and the polarisation basis by the angle zeta. The twisted modes are 4th powers of a rotated spinor, so at every frequency |h+ + i hx| and |h+ - i hx| are a(1+x)^2/2 and a(1-x)^2/2 with x the cosine between line of sight and instantaneous orbital axis and a the aligned-model amplitude: the intensity is that of an aligned binary at the instantaneous inclination and never exceeds the face-on value. At the reference frequency, with in-plane spin only on the heavier body and J_z>0, that inclination is the one requested. The l=2, s=-2 spherical harmonics are the standard ones (squares sum to 5/4pi); |m|>2 raises ValueError; any other s or l silently returns None. The two precession angles are the stated post-Newtonian series in the orbital frequency; their leading term is the ratio of leading-order precession rate to quadrupole chirp rate, and in-plane spin enters only alpha.", "quantifier": "all physical masses and spins, angles, frequencies > 0", "why_tests_cant": "geometric identities over all orientations", "anchors": ["ml4gw/waveforms/cbc/phenom_p.py:convert_spins", "ml4gw/waveforms/cbc/phenom_p.py:PhenomPCoreTwistUp", "ml4gw/waveforms/cbc/phenom_p.py:SpinWeightedY", "ml4gw/waveforms/cbc/phenom_p.py:WignerdCoefficients"]}
{"id": "C72", "title": "IMRPhenomPv2: symmetries and the aligned-spin limit", "statement": "Strain is inversely proportional to distance. Turning both spins about the orbital axis by d and reducing the reference phase by d multiplies both polarisations by exp(-2id), provided the total angular momentum is not along that axis. With both spins aligned, J_z>0 and inclination in (0,pi), both polarisations are in closed form; they equal IMRPhenomD's up to a constant phase and a time shift, times the ratio of the amplitude factors with the two squared spins exchanged. So for equal masses or equal spin magnitudes it is the same waveform, but for unequal masses and unequal spin magnitudes the moduli differ at every low enough frequency (documented aligned limit refuted; exact difference given below the first join). In the aligned case the reference phase has no effect at all. The coalescence time tc delays the signal by M tc/(2 pi), not tc seconds (refuted for every tc<>0 unless M=2 pi s).", "quantifier": "all masses, spins, distances, angles, times, frequencies", "why_tests_cant": "equivalence of two waveform models over their whole parameter space", "anchors": ["ml4gw/waveforms/cbc/phenom_p.py:forward", "ml4gw/waveforms/cbc/phenom_p.py:PhenomPOneFrequency", "ml4gw/waveforms/cbc/phenom_d.py:phenom_d_inspiral_amp"]}
{"id": "C73", "title": "IIRFilter is a linear, zero-phase operator on every series", "statement": "Calling IIRFilter(...) on a batch filters every series along the last axis independently and returns a tensor of the same shape. The one-way filter is the unique causal solution, with zero initial state, of the difference equation sum_j a_j y[t-j] = sum_j b_j x[t-j]; it is linear, commutes with delays and is the convolution with its impulse response. The forward-backward result is F^T F x where F is that convolution, so it is linear, symmetric (<x, Fy> = <Fx, y>: no phase distortion), never negative (<x, Fx> >= 0) and annihilates no non-zero series when a_0 and b_0 are not zero. If the designed numerator and denominator have different lengths (which analog low-pass and band-pass designs give) every call raises ValueError.", "quantifier": "all coefficient vectors, series lengths, batch shapes and input values", "why_tests_cant": "symmetry and positivity are statements about all pairs of inputs and all lengths; a test samples a few series and tolerances hide phase errors", "anchors": ["ml4gw/transforms/iirfilter.py: IIRFilter.__init__", "ml4gw/transforms/iirfilter.py: IIRFilter.forward"]}
{"id": "C74", "title": "TimeDomainCBCWaveformGenerator: no failures, frame length, frequency grid and filter cut-off", "statement": "With a sample rate of at least 2 Hz (even or not), f_min in (0, sr/2], duration >= 0, a non-empty batch of positive masses and spins in [-1,1], a row-wise approximant and filter coefficients of equal length, forward() never raises; an empty batch raises RuntimeError. With N the number of transform samples the result has int(duration*sr) samples (the `size` property) exactly when N <= duration*sr or duration*sr is an integer, and ceil(duration*sr) otherwise, so the documented size is exceeded by one sample when a waveform is cropped to a non-integer number of samples. The frequencies at which the approximant is sampled are (2*int(sr/2)/sr) times those the inverse transform assumes: exact if and only if the sample rate is an even integer. The cut-off handed to the filter design lies strictly between 0 and f_min and makes the squared gain of an order-8 digital Butterworth high-pass at f_min exactly sqrt(0.99), i.e. 0.99 for the forward-backward pass.", "quantifier": "all sample rates >= 2, durations, f_min, batches and row-wise approximants", "why_tests_cant": "failures and off-by-one lengths depend on combinations of non-integer products and the longest binary of a batch", "anchors": ["ml4gw/waveforms/generator.py: TimeDomainCBCWaveformGenerator.forward", "ml4gw/waveforms/generator.py: TimeDomainCBCWaveformGenerator.get_frequencies", "ml4gw/waveforms/generator.py: TimeDomainCBCWaveformGenerator.build_highpass_filter", "ml4gw/waveforms/generator.py: TimeDomainCBCWaveformGenerator.size"]}
{"id": "C75", "title": "Q-transform and Q-scan with the spline method: when they can be built, and what the spectrogram is", "statement": "SingleQTransform(interpolation_method='spline') raises whatever the plain constructor raises; otherwise ZeroDivisionError when the spectrogram has no time bins or some row has no tiles, ValueError when some row has fewer than five tiles or there are fewer than five frequencies, and is built in every other case. With default frequency limits (q >= 1, mismatch in [1/20, 1/2]) every row has at least 64 tiles and there are exactly as many frequencies as mismatch steps, so it is built iff the range holds more than four mismatch steps. A built transform maps each 1D-3D input of duration*sample_rate samples to a (batch, channel, nf, nt) tensor (axes of size 1 are NOT squeezed, unlike the other methods) whose entry (b, d, y, z) is: for every frequency the unique cubic spline through that row's tiles at 0, dur/N, 2dur/N, ... read at z*dur/nt (held at the last tile beyond it, equal to the tile at its own instant, constants kept), then the unique cubic spline through those values over the frequencies, read at the y-th of nf log-spaced frequencies between the limits. Rows of different lengths come out in frequency order. interpolate before compute_qtiles is a RuntimeError. QScan with this method interpolates the tiles of the first plane whose maximal energy over the search range is largest.", "quantifier": "all durations, rates, q, mismatches, spectrogram shapes, inputs, norms and search ranges", "why_tests_cant": "tests use one duration and shape; that grouping rows by length and concatenating the groups restores frequency order for every tile-length pattern, and that the least-squares spline exists for every grid, needs a proof", "anchors": ["ml4gw/transforms/qtransform.py:SingleQTransform._set_up_spline_interp", "ml4gw/transforms/qtransform.py:SingleQTransform.interpolate", "ml4gw/transforms/qtransform.py:QScan.forward", "ml4gw/transforms/spline_interpolation.py:SplineInterpolate1D"]}
{"id": "C76", "title": "Time-domain strain of a generated binary follows its distance, inclination and coalescence phase", "statement": "For every good generator and batch, running TimeDomainCBCWaveformGenerator twice with TaylorF2, or twice with IMRPhenomD, with the same masses and spins succeeds both times with outputs of the same shape, and: multiplying row i's distance by k_i > 0 multiplies both of its polarisations by 1/k_i at every sample (also with IMRPhenomPv2); replacing every inclination by pi minus it negates the cross polarisation and leaves the plus polarisation unchanged; the cross polarisation of an edge-on row (cosine of inclination 0) is identically 0; adding m_i * pi/2 to the coalescence phase of row i multiplies both of its polarisations by (-1)^m_i. No row depends on the parameters of another row.", "quantifier": "all generators (sample rate, duration, f_min, right pad, high-pass coefficients), batches and physical parameters, all samples", "why_tests_cant": "tests compare a few waveforms with lalsimulation to a tolerance; that tapering, phase shift, conversion to the time domain, padding and forward-backward filtering preserve the scaling laws for all rows of every batch needs a proof", "anchors": ["ml4gw/waveforms/generator.py:TimeDomainCBCWaveformGenerator.forward", "ml4gw/waveforms/cbc/taylorf2.py:TaylorF2.forward", "ml4gw/waveforms/cbc/phenom_d.py:IMRPhenomD.forward", "ml4gw/waveforms/cbc/phenom_p.py:IMRPhenomPv2.forward"]}
{"id": "C77", "title": "What LogUniform, LogNormal and PowerLaw accept, and log_prob at every value", "statement": "With argument checking on (torch's default): LogUniform accepts exactly 0 <= low < high and rejects everything else with ValueError; for 0 < low, log_prob is log 1/(y log(high/low)) on [low, high), -inf at high, and raises ValueError (does not return -inf) anywhere else; low = 0 is accepted but then every sample is NaN. PowerLaw checks only index 0 and, in log_prob, that the value is non-negative: log_prob is the log of the normalised density on [minimum, maximum) minus the point 0, -inf at other positive values, NaN at 0 although 0 is in its declared support, and ValueError below 0; bounds in the wrong order are accepted, samples then lie between them and log_prob is NaN everywhere; minimum 0 raises ZeroDivisionError for index < -1 and gives NaN samples for index -1. LogNormal(low=...) does not truncate: its samples equal those without low, and every positive value, below low too, can be drawn; its log_prob raises AttributeError for every value (support is a method, not a constraint), and without checking it is the density of the untruncated log-normal law, of total mass 1.", "quantifier": "all parameters, values and draws", "why_tests_cant": "real-valued parameters and values; the boundary points matter", "anchors": ["ml4gw/distributions.py:LogUniform", "ml4gw/distributions.py:LogNormal", "ml4gw/distributions.py:PowerLaw"]}
{"id": "C78", "title": "Labels of the two bodies", "statement": "Describing the same binary with its two bodies exchanged (mass_ratio replaced by 1/mass_ratio and the two spins exchanged) gives: from chirp_mass_and_mass_ratio_to_components the same two masses exchanged; from TaylorF2 exactly the same polarisations at every frequency, for every positive mass ratio and any spins, row by row for a whole batch; from IMRPhenomD the same polarisations when the spins are equal, but for unequal masses and unequal spins polarisations whose magnitude differs at every sufficiently low frequency: IMRPhenomD silently requires mass_ratio <= 1 (the code takes mass_ratio = m2/m1), while its documentation, like that of TaylorF2 and IMRPhenomPv2, says mass_ratio is m1/m2.", "quantifier": "all chirp masses, mass ratios and distances > 0, all spins (in [-1,1] for IMRPhenomD), all frequencies (all sufficiently low ones for the difference), all phases, inclinations and reference frequencies", "why_tests_cant": "an identity (and a difference) of waveforms over a continuum of masses, spins and frequencies", "anchors": ["ml4gw/waveforms/conversion.py: chirp_mass_and_mass_ratio_to_components", "ml4gw/waveforms/cbc/taylorf2.py: TaylorF2.forward", "ml4gw/waveforms/cbc/phenom_d.py: IMRPhenomD.forward, phenom_d_inspiral_amp, prefactors"]}
{"id": "C79", "title": "Sample counts and cut-off bins in double precision", "statement": "Number of samples int(duration*sample_rate) as computed in IEEE double precision (waveform generators, SpectralDensity, Whiten, FixedWhiten, SnrRescaler, Heterodyne, Decimator, Q-transform): exact for every duration when the sample rate is a power of two; for any other rate, a duration whose exact product with the rate lies in [n, n+1) gives n or n+1 samples, and the double nearest to n/sample_rate gives n or n-1 (n if it was rounded up): 0.29 s at 100 Hz is 28 samples. The padding int(fduration*sample_rate/2) of whiten is exactly half of int(fduration*sample_rate), rounded down, and the default overlap is exactly half a frame, rounded down. The cut-off index of the whitening filter is exact when the bin spacing is 2^-k Hz (bin b is removed by the high-pass iff bin b+1 is at or below the cut-off); otherwise it is off by at most one, and by at most one downwards for a cut-off lying on a bin: with 1488 samples at 1024 Hz, highpass=64 leaves bin 92 (63.3 Hz) unfiltered although 64 Hz is bin 93.", "quantifier": "all doubles, all sample rates, all counts below 2^51..2^53, every bin", "why_tests_cant": "rounding behaviour over all doubles; the tests use power-of-two sample rates, where it never shows", "anchors": ["ml4gw/spectral.py: truncate_inverse_power_spectrum, whiten", "ml4gw/transforms/whitening.py: Whiten, FixedWhiten", "ml4gw/transforms/spectral.py: SpectralDensity", "ml4gw/transforms/transform.py: FittableSpectralTransform.normalize_psd", "ml4gw/waveforms/generator.py: TimeDomainCBCWaveformGenerator", "ml4gw/waveforms/adhoc/ringdown.py: Ringdown", "ml4gw/waveforms/adhoc/sine_gaussian.py: SineGaussian"]}
{"id": "C80", "title": "A streaming pipeline Snapshotter -> model -> OnlineAverager equals the offline computation", "statement": "Feeding a stream in updates of batch_size*stride samples through Snapshotter, then any model that treats the snapshots of a batch independently, then OnlineAverager with the same stride (update_size) and batch_size, threading both states: no call fails, every call returns batch_size*stride samples, and output sample t of the whole run is (1/num_updates) times the sum of the predictions covering t, prediction p being the model applied to the snapshot_size samples of the (zero-prefixed) stream starting at p*stride; so the output does not depend on how the stream was cut into calls. For a model that returns its input, the pipeline is a pure delay of (num_updates-1)*stride + offset samples at every sample, including the warm-up.", "quantifier": "all histories, stream contents, channel counts, snapshot sizes, strides, batch sizes, numbers of updates, offsets other than 0, and window-wise models", "why_tests_cant": "an equality over unbounded histories of two interacting stateful modules, for every configuration", "anchors": ["ml4gw/nn/streaming/snapshotter.py: Snapshotter.forward", "ml4gw/nn/streaming/online_average.py: OnlineAverager.forward"]}
{"id": "C81", "title": "With what probability Hdf5TimeSeriesDataset draws each window", "statement": "Files are numbered in the order given (distinct names), all longer than kernel_size. When a batch may use all the files (the default) or exactly one, the window of one entry of a batch starts at sample s of file i (s < size_i - kernel_size) with probability size_i / total / (size_i - kernel_size), and these probabilities sum to one. So within a file the windows are equally likely, but across files they are not as documented ('uniformly'): a window of file i is more likely than one of file j exactly when file i is the shorter one. When num_files_per_batch is a proper subset the files are not drawn in proportion to their length either: with lengths 2m, m, m and two files per batch the first has probability 5/9, not 1/2. The files of two separately drawn entries are independent when all files are used, and always equal when one is.", "quantifier": "all lists of file lengths, kernel sizes, files, starts; all m > kernel_size for the counterexample", "why_tests_cant": "a probability law over all outcomes of the generator; a sample only bounds frequencies", "anchors": ["ml4gw/dataloading/hdf5_dataset.py: Hdf5TimeSeriesDataset.__init__, sample_fnames, sample_batch"]}
{"id": "C82", "title": "IMRPhenomD tends to TaylorF2 at low frequency", "statement": "For every physical binary and reference frequency there is one unit complex number u such that the relative difference between each polarisation of IMRPhenomD and u times that of TaylorF2 (same arguments) tends to zero as the frequency goes to zero, uniformly in distance, coalescence phase and inclination: amplitudes, masses, spins and phase conventions of the two approximants agree. With the same coalescence phase the two differ at the reference frequency by a phase of exactly 3 pi / 4 (and the amplitude factor).", "quantifier": "all chirp masses, mass ratios, spins in [-1,1], reference frequencies, distances, phases, inclinations, and every accuracy", "why_tests_cant": "a limit, for every binary; numerical agreement at some frequency depends on the tolerance", "anchors": ["ml4gw/waveforms/cbc/phenom_d.py: IMRPhenomD.forward", "ml4gw/waveforms/cbc/taylorf2.py: TaylorF2.forward"]}
{"id": "C83", "title": "Frequency response of IIRFilter", "statement": "If all poles of the designed filter lie inside a circle of radius rho < 1, there is one constant M such that for every frequency omega (radians per sample), phase, series length n and sample t, IIRFilter maps cos(omega s + phase) to (|B(e^-i omega)| / |A(e^-i omega)|)^2 cos(omega t + phase) at sample t up to an error of at most M (rho^(t+1) + rho^(n-t)): the squared one-way gain, no phase shift, and edge effects that decay geometrically from both ends. Such a filter's impulse response is bounded by a constant times rho^t. Given any explicit bound K rho^t of the impulse response, M = (K/(1-rho))^2.", "quantifier": "all coefficient lists with poles inside the unit circle, all frequencies, phases, lengths, samples and batches", "why_tests_cant": "a bound uniform over all frequencies, lengths and filters", "anchors": ["ml4gw/transforms/iirfilter.py: IIRFilter.forward"]}
{"id": "C84", "title": "Spectral density of a sinusoid", "statement": "SpectralDensity with the default (periodic Hann) window, applied to A cos(2 pi k0 t / nperseg + phase) with 2 <= k0 and 2 (k0 + 1) < nperseg, returns exactly two thirds of the power A^2/2 (per bin width sample_rate / nperseg) in bin k0, one sixth in each of the bins k0-1 and k0+1 and zero in every other bin, whatever the phase, overlap, number of segments and batch index; with average='median' this is divided by the bias 1 - 1/2 + 1/3 - ... of the number of segments. The density integrates to A^2/2. The fast version agrees in every bin from 2 on, and the cross-density of two sinusoids of the same frequency is the product of their amplitudes times exp(i (phase of y - phase of x)).", "quantifier": "all sample rates, segment lengths, overlaps, series lengths, amplitudes, phases, frequencies between bins 2 and nperseg/2 - 1, batches and averages", "why_tests_cant": "an absolute calibration for every tone, phase and segmentation", "anchors": ["ml4gw/transforms/spectral.py: SpectralDensity", "ml4gw/spectral.py: spectral_density, fast_spectral_density"]}
{"id": "C85", "title": "Heterodyning a TaylorF2 signal removes exactly its leading phase", "statement": "If the spectrum of the input of Heterodyne (divided by the sample rate) is, in some bin, the plus polarisation that TaylorF2 computes at that bin's frequency for chirp mass mc, then the output for chirp mass M in that bin has the same amplitude and the phase of TaylorF2 in which the leading (0PN) term is replaced by the difference of the leading terms of M and mc. For M = mc only the relative post-Newtonian corrections remain, which are bounded by K v^2 times the removed phase (v <= 1 the orbital velocity). The heterodyne phase of mc is exactly the leading term 3/(128 eta v^5) of TaylorF2's phase for every pair of component masses with that chirp mass, and a real series with the required spectrum exists for every length.", "quantifier": "all masses, mass ratios, spins, distances, inclinations, reference phases and frequencies, sample rates, lengths, bins and chirp-mass banks", "why_tests_cant": "an identity between two independently coded formulas for all parameters", "anchors": ["ml4gw/transforms/heterodyne.py: Heterodyne", "ml4gw/waveforms/cbc/taylorf2.py: TaylorF2"]}
{"id": "C86", "title": "Expected value of the spectral density of noise", "statement": "For white noise of variance sigma^2 (any joint law with E[x_i x_j] = sigma^2 delta_ij), the expected output of SpectralDensity(average='mean') in each computed bin is exactly c sigma^2 / sample_rate times (1 - lost), where c = 2 (1 at DC and, for an even fft length, at Nyquist: the one-sided convention), and where only the removal of the mean lowers it: with the default Hann window of n samples, lost = (2/3) n/L at DC, (1/6) n/L at bin 1 and 0 in all higher bins, where the estimator is unbiased; L is n for the exact version (mean of each segment) and the length of the whole input for the fast version. For stationary noise with autocovariance r the Welch estimate in a bin where the window's own spectrum vanishes has the expected value given by the windowed autocovariance; and the fast cross spectral density of two uncorrelated channels has expectation 0. A distribution meeting the hypotheses exists for every length and sigma.", "quantifier": "all finite distributions of inputs with the stated covariance, batch shapes, lengths, fft lengths, overlaps, sample rates and bins", "why_tests_cant": "a statement about an expectation over a random input, for all parameters; a sampled average only approximates it", "anchors": ["ml4gw/transforms/spectral.py: SpectralDensity", "ml4gw/spectral.py: spectral_density, fast_spectral_density"]}
{"id": "C87", "title": "Covariance of whitened noise", "statement": "Let the input of whiten be (circularly) stationary noise of N samples. Then the covariance of two samples of the output is exactly (1/N) sum over nonzero bins k of S_k |R_k|^2 cos(2 pi k (i-j)/N) with S the given power spectral density, when that is the one-sided density of the noise, and R the frequency response of the truncated inverse amplitude filter. If S|R|^2 is within eps of 1 in every bin, the covariance is within eps of delta_ij - 1/N: the output is white with unit variance up to the removed mean. For white noise with its flat density (no band limits, even number of bins) eps = 0: exactly delta_ij - 1/N. Noise with any prescribed spectrum exists.", "quantifier": "all finite distributions of inputs that are circularly stationary, all PSDs, filter lengths, windows, band limits, sample rates, lengths, and pairs of output samples", "why_tests_cant": "a second-moment identity over random inputs for all spectra and lengths", "anchors": ["ml4gw/spectral.py: whiten, truncate_inverse_power_spectrum"]}
{"id": "C88", "title": "ChunkedTimeSeriesDataset: what has been yielded when iteration fails, and chunks of another length", "statement": "Iterating a ChunkedTimeSeriesDataset whose chunks are well formed up to some point yields exactly the batches of the chunks before the first bad chunk (one of the wrong rank or shorter than the kernel), batches_per_chunk per good chunk and identical to iterating the good chunks alone, and then raises ValueError; later chunks are never read; a first chunk of the wrong rank fails before any batch. When a later chunk has the same number of channels but another length than the first one, the offsets between channels are still those of the first chunk: sample (b, c, j) is read from flat position row*C*T + c*T0 + start + j, which is the intended sample exactly for channel 0 or equal lengths; a shorter chunk may run over the end, raising IndexError exactly when some position is out of range; a longer one never does.", "quantifier": "all lists of chunks, kernel sizes, batch sizes, batches per chunk, coincident or not, random draws, positions of the bad chunk", "why_tests_cant": "quantifies over every point of failure of the stream and every draw", "anchors": ["ml4gw/dataloading/chunked_dataset.py: ChunkedTimeSeriesDataset.__iter__"]}
{"id": "C89", "title": "ResNet: batch elements and parameters are independent", "statement": "In a ResNet (1D or 2D, basic or bottleneck blocks) built with layers that treat batch elements independently, the logits of a batch element depend on that element alone: two batches of any sizes holding the same element, at any positions, give it the same logits. This holds for ResNet1D with its convolutions, max pooling, average pooling and linear head, and the library's GroupNorm1D as normalisation with any number of groups, for all weights. No two convolutions of a built network share parameters, and every normalisation layer is built for exactly the number of channels its convolution outputs.", "quantifier": "all architectures that can be built, weights, batches, positions in the batch and input lengths", "why_tests_cant": "quantifies over all networks, weights, and pairs of batches", "anchors": ["ml4gw/nn/resnet/resnet_1d.py: ResNet1D, BasicBlock, Bottleneck", "ml4gw/nn/resnet/resnet_2d.py: ResNet2D", "ml4gw/nn/norm.py: GroupNorm1D, GroupNorm1DGetter"]}
{"id": "C90", "title": "With what probability the random operations return each result", "statement": "sample_kernels, ChunkedTimeSeriesDataset, InMemoryDataset (non-coincident, shuffled) and WaveformSampler draw all their positions independently: the probability of any combination of positions is the product of the probabilities of its members, and each position of the range has a probability that differs from 1/(size of the range) by less than 1/M, M being the number of machine words (exactly 1/(size of the range) when the size divides M). With max_center_offset=0 the centre of the timeseries is never the first sample of a kernel, each other sample of the kernel has probability 1/kernel_size, and with probability 1/kernel_size the centre lies just behind the kernel (the documented uniform position inside every kernel is refuted). SignalInverter and SignalReverser change each series independently with the same probability p: the probability that exactly a given set S of n series is changed is p^|S| (1-p)^(n-|S|), where p is prob rounded up to a multiple of 1/N (N = 2^24 for float32), and equals prob when prob is such a multiple. A shuffled coincident epoch of InMemoryDataset without batches_per_epoch comes in each order with probability 1/(number of windows)!, and in any case each row uses each window with probability 1/(number of windows). Without targets, SnrRescaler gives each signal the SNR v with probability (number of signals of the batch of SNR v)/(batch size).", "quantifier": "all inputs, sizes, numbers of kernels, offsets, modes, probabilities, and all combinations of drawn positions", "why_tests_cant": "a test draws finitely many samples and can only estimate a probability; the joint law of all cells is out of reach of sampling", "anchors": ["ml4gw/utils/slicing.py: sample_kernels", "ml4gw/augmentations.py: SignalInverter, SignalReverser", "ml4gw/dataloading/in_memory_dataset.py: InMemoryDataset.init_indices", "ml4gw/dataloading/chunked_dataset.py: ChunkedTimeSeriesDataset.__iter__", "ml4gw/transforms/waveforms.py: WaveformSampler.forward", "ml4gw/transforms/snr_rescaler.py: SnrRescaler.forward"]}
{"id": "C91", "title": "Samples follow the stated distribution functions and are independent", "statement": "rsample(shape) of Uniform, Cosine, Sine, LogUniform, PowerLaw, UniformComovingVolume and RateEvolution, when torch.rand returns independent uniform multiples of 1/N: for all boxes [a_i, b_i) inside the support, the probability that every sample X_i of the returned tensor lies in its box is the product of q(b_i) - q(a_i), where q differs from the stated distribution function F by less than 1/N (q = F wherever F is a multiple of 1/N). F(x) is (x-low)/(high-low); (sin x - sin low)/(sin high - sin low); (cos low - cos x)/(cos low - cos high); log(x/low)/log(high/low); (x^(index+1) - minimum^(index+1))/(maximum^(index+1) - minimum^(index+1)), or the log-uniform one for index -1; and the tabulated distribution function of the comoving volume element, interpolated linearly between the first and the last grid distance of the requested range (no sample falls between minimum and the first such grid point, or between the last one and maximum).", "quantifier": "all parameters of the distributions in their documented ranges, all sample shapes, all boxes", "why_tests_cant": "a test can only compare an empirical histogram with the distribution function; independence and the distribution at every point are out of reach of sampling", "anchors": ["ml4gw/distributions.py: Cosine, Sine, LogUniform, PowerLaw, UniformComovingVolume, RateEvolution"]}
{"id": "C92", "title": "MultiResolutionSpectrogram with torchaudio spectrograms: values, normalization, noise and tones", "statement": "MultiResolutionSpectrogram(kernel_length, sample_rate, n_fft=[n_1, ..., n_K]) with 2 <= n_k < 2T+2 (T = kernel_length * sample_rate samples; K such that the implicit normalized=[True] is accepted) returns for a (..., T) batch a (..., M, N) tensor, M the largest n_k//2+1 and N the largest number of frames; the value at (f, t) is the largest over k of |sum_m w(m) y(m) e^(-2 pi i f_k m/n_k)|^2 / sum_m w(m)^2, where w is the Hann window of n_k samples, y the n_k samples around sample t_k (n_k//2), mirrored at the ends of the series, f_k = floor(f (n_k//2+1)/M) and t_k = floor(t N_k/N). Every value lies between 0 and the energy of such a frame; multiplying the series by c multiplies all values by c^2. For white noise of variance s^2, each bin of each frame inside the series is s^2 on average for every n_k (without the enforced normalization it would be 3 n_k s^2/8), so the combined value is at least s^2 on average; a sinusoid of amplitude A in bin k0 of resolution n gives A^2 n/6 in its bin, a quarter of that in its two neighbours and 0 elsewhere. A series of at most n_k//2 samples is a RuntimeError at construction. With the other torchaudio keywords of one resolution, win_length w (default n_fft), hop_length h (default w//2), pad p (default 0), power q (default 2), normalized (True or \"window\", \"frame_length\", False): the spectrogram exists exactly when 1 <= w <= n_fft, h >= 1 and n_fft//2 < T + 2p (otherwise RuntimeError); it has n_fft//2+1 bins and the frames that fit; its value is the q-th power of |sum over the w Hann-windowed samples in the middle of the frame of the series padded with p zeros and mirrored| divided by the root of the window energy, the root of n_fft, or 1. An unknown keyword is a TypeError, another string for normalized a ValueError.", "quantifier": "all series, lengths, lists of n_fft, bins, frames, amplitudes and phases, scalings; all finite ensembles of white noise", "why_tests_cant": "a test compares some spectrograms with a reference or with itself; the formula for all frames and resolutions, the energy bound and expectations over noise are statements about all inputs", "anchors": ["ml4gw/transforms/spectrogram.py: MultiResolutionSpectrogram.__init__, forward"]}
{"id": "C93", "title": "The energy of a whitened series is its squared signal-to-noise ratio", "statement": "Let X be a (B, C, N) batch and psd a (B or 1, C or 1, N//2+1) positive PSD, sr the sample rate, fduration a number of seconds or a window of at least two samples and shorter than the series, highpass and lowpass None or not negative; let q be what truncate_inverse_power_spectrum(psd, fduration, sr, highpass, lowpass) returns and suppose it is finite (for a flat psd with an even number of bins and no band, q = psd/2). Then for every series x = X[b, c], the squares of whiten(X, psd, fduration, sr, highpass, lowpass, crop=False)[b, c] sum to compute_ifo_snr(X, 2 q, sr)[b, c]^2 minus 4/(N sr) times (sum x)^2/(2 q(0)) plus, for even N, half of |x~(N/2)|^2/(2 q(N/2)): the SNR counts the mean, which whitening removes, and counts the Nyquist bin twice. So the energy of the whitened data, cropped or not, never exceeds the squared SNR, its sum over the detectors never exceeds compute_network_snr squared, and both are equalities for uncropped zero-mean series with no Nyquist component.", "quantifier": "all batches, PSDs, sizes, sample rates, fdurations and windows, bands", "why_tests_cant": "relates two functions of the library (whiten and compute_ifo_snr / compute_network_snr) on all inputs; a test checks it up to a tolerance on some", "anchors": ["ml4gw/spectral.py: whiten, truncate_inverse_power_spectrum, normalize_by_psd", "ml4gw/gw.py: compute_ifo_snr, compute_network_snr"]}
{"id": "C94", "title": "What the Q-tiles of white noise and of a sinusoid contain", "statement": "Let compute_qtiles(X, norm=None) return tiles for a (B, C, T) batch and let t be the tile of Q q and centre frequency f of a transform of that duration (T samples at rate sr), whose band of 2h+1 bins around bin k+1 (k = f duration) lies inside the spectrum; H = f duration sqrt(11)/q is its half width in bins. (a) If the series [b, c] is white noise of standard deviation sigma, the mean of every entry of the tile is r 8 sigma^2/(T^2 sr) with a factor r that is the same at all times and |r - 1| <= 315/(256 H): white noise has the same mean energy at every time, and up to that small correction at every frequency and Q. (b) If the series is a sinusoid A cos(2 pi m0 s/T + phi), every entry is the same at all times, independent of phi: A^2 315 q/(128 sqrt(11) f T^2) (1 - ((m0 - (k+1))/H)^2)^4 if m0 is within h of k+1, and 0 otherwise. (c) So, contrary to what the frequency label says, the tile of frequency f responds most strongly to a sinusoid of frequency f + 1/duration, and to f itself only with the factor (1 - 1/H^2)^4 < 1.", "quantifier": "all tiles, batches, times, white noise distributions, amplitudes, frequencies and phases", "why_tests_cant": "a statement about means over random noise, and about all frequencies and phases; repository tests compare with gwpy on particular data only", "anchors": ["ml4gw/transforms/qtransform.py: QTile.get_window, QTile.get_data_indices, QTile.forward, SingleQTransform.compute_qtiles"]}
{"id": "C95", "title": "The SNR of projected waveforms: sky position, polarisation angle, distance, reweighting", "statement": "Let hp, hc be (B, T) polarisations projected on any list of built-in detectors by WaveformProjector with any sky parameters, and let the SNRs be computed with a positive PSD and any cut-offs (masks not negative). Then rho[b, i]^2 = F+^2 P + 2 F+ Fx M + Fx^2 Q with F+, Fx the antenna factors of detector i, P and Q the squared SNRs of the plus and cross series alone against that detector's PSD and M their cross term; so, wherever the source is, rho[b, i]^2 <= (1 + 1e-7)^2 (P + Q), and the network SNR squared is at most (1 + 1e-7)^2 times the sum of P + Q over the detectors. Turning psi by pi/2 changes no SNR; the squared SNRs at psi and psi + pi/4 add up to (F+^2 + Fx^2)(P + Q). If one run of TimeDomainCBCWaveformGenerator gives c_b times the polarisations of another (C76: c_b = 1/k_b when the distance of row b is multiplied by k_b), the network SNRs differ by the factor |c_b|; and reweight_snrs of the projected strain to positive targets is, sample by sample, the strain that an IMRPhenomD generator and the projector give when row b's distance is multiplied by SNR_b/target_b.", "quantifier": "all batches, waveforms, detectors, sky positions, PSDs, cut-offs, generators, binaries and targets", "why_tests_cant": "bounds over all sky positions and waveforms, and an equality between two pipelines of five functions on all inputs", "anchors": ["ml4gw/transforms/waveforms.py: WaveformProjector", "ml4gw/gw.py: compute_observed_strain, compute_ifo_snr, compute_network_snr, reweight_snrs", "ml4gw/waveforms/generator.py: TimeDomainCBCWaveformGenerator"]}
{"id": "C96", "title": "Decimator folds the spectrum", "statement": "For every schedule accepted by C41's split mode, every segment (n kept samples, one in M) and every series: the discrete Fourier transform of the returned segment at bin k is 1/M times the sum of that of the input segment at bins k, k+n, ..., k+(M-1)n. If the input segment has no content at or above half the new rate (bins from n/2 on), bin k of the input is M times bin k of the output for every k < n/2, and no other such segment gives the same output: nothing is lost. Otherwise frequencies are confused: there is no anti-aliasing filter, and a sinusoid of a + j n cycles comes out, sample by sample, as the sinusoid of a cycles, with its full amplitude.", "quantifier": "all schedules, segments, batch shapes, series, frequencies, phases", "why_tests_cant": "an identity between spectra for all signals and all schedules; tests compare lengths and a few samples", "anchors": ["ml4gw/transforms/decimator.py: Decimator"]}
{"id": "C97", "title": "Results do not depend on the unit of the strain", "statement": "Multiply every strain series by a factor c <> 0 (a change of unit, or a change of sign) and add any constant to each series: SpectralDensity, fast or not, mean or median, returns exactly c^2 times its density (and its values stay real); whiten, the Whiten module and FixedWhiten, given the strain and its PSD (or background series) in the new unit, return their former output, up to the sign of c, sample by sample; so does the pipeline that estimates the PSD with SpectralDensity and whitens with it. compute_ifo_snr and compute_network_snr of responses c h and PSD c^2 S return the same SNRs. PSDs of 1, 2 or 3 dimensions, interpolated or broadcast, cropping, highpass and lowpass included.", "quantifier": "all batch, channel and length parameters, all series, offsets, factors, positive PSDs, filter settings", "why_tests_cant": "a relation between all pairs of inputs and a real parameter; tests use one unit (1e-21 strain) and one scale", "anchors": ["ml4gw/transforms/whitening.py: Whiten, FixedWhiten", "ml4gw/transforms/spectral.py: SpectralDensity", "ml4gw/spectral.py: whiten, spectral_density, fast_spectral_density", "ml4gw/gw.py: compute_ifo_snr, compute_network_snr"]}
{"id": "C98", "title": "Augmentation, injection and batching commute with whitening and leave SNRs unchanged", "statement": "For whiten, the Whiten module and a fitted FixedWhiten, with any cropping, highpass and lowpass: augmenting (SignalInverter or SignalReverser, any probability, the same draws) before or after whitening gives the same tensor; whitening strain + signal gives whitened strain + whitened signal; element b of the output depends on element b of the batch only, and (PSD without a batch axis, or FixedWhiten) an element is whitened the same in a batch of any size. compute_ifo_snr and compute_network_snr of augmented responses equal those of the responses. SpectralDensity of inverted strain equals that of the strain; of reversed strain too when the window is symmetric and the segments reach the end of the series, but not with the default window (torch's Hann window is asymmetric).", "quantifier": "all batch, channel and length parameters, all strains, signals, draws, probabilities, positive PSDs, filter settings", "why_tests_cant": "relations between pairs of runs on arbitrary data and arbitrary random draws; the tests check each module alone", "anchors": ["ml4gw/augmentations.py: SignalInverter, SignalReverser", "ml4gw/transforms/whitening.py: Whiten, FixedWhiten", "ml4gw/transforms/spectral.py: SpectralDensity", "ml4gw/spectral.py: whiten", "ml4gw/gw.py: compute_ifo_snr, compute_network_snr"]}
{"id": "C99", "title": "Refits, failed fits and checkpoints of the fittable transforms, after any history", "statement": "For ChannelWiseScaler, SnrRescaler and FixedWhiten, after any history of fits (successful or raising), state-dict loads (strict or not, successful or raising) and calls: a fit that raises leaves the transform exactly as it was; a fit that succeeds leaves exactly the state fitting a new transform would; a call changes nothing. state_dict() of a fitted transform, loaded strictly in a new one made with the same arguments, gives the same transform. Loading into a transform made with other arguments succeeds exactly when the buffers' shapes agree (FixedWhiten: channels and number of frequency bins; so kernels of 8 and 9 samples are interchangeable), and keeps the new one's kernel length, sample rate, cut-offs. A load that raises because of the PSD's shape still replaces FixedWhiten's filter duration. A checkpoint of a transform that was never fitted marks the new one as fitted (for the scaler it becomes the identity, where a call raised ValueError before). SpectralDensity's window and scale travel in its state dict.", "quantifier": "all histories of operations with any arguments, all state dicts, all constructor arguments, any rounding to the buffer dtype", "why_tests_cant": "an unbounded set of histories mixing failures and successes; the tests fit once and save once", "anchors": ["ml4gw/transforms/transform.py: FittableTransform", "ml4gw/transforms/whitening.py: FixedWhiten", "ml4gw/transforms/snr_rescaler.py: SnrRescaler", "ml4gw/transforms/scaler.py: ChannelWiseScaler", "ml4gw/transforms/spectral.py: SpectralDensity"]}
{"id": "C100", "title": "ResNets with instance normalisation: short inputs and the amplitude of the input", "statement": "ResNet1D / BottleneckResNet1D with the default norm layer (as many groups as channels), any trained weights: all inputs of 1 to 4*2^s samples, s the number of strided stages, give the same logits, whatever their content, length and batch; so the network ignores such inputs (the same holds for the 2D networks with any norm layer that is constant on single-point maps). For any number of groups, multiplying the input by a > 0 gives exactly the logits obtained by replacing the eps of the first normalisation by eps/a^2: the amplitude of the input matters through that eps only.", "quantifier": "all layer plans, kernels, weights, groups, batches, input contents and lengths in range, all a > 0", "why_tests_cant": "claims about all weights and all inputs; tests run random inputs and check shapes", "anchors": ["ml4gw/nn/resnet/resnet_1d.py: ResNet1D", "ml4gw/nn/norm.py: GroupNorm1D, GroupNorm1DGetter"]}
{"id": "C101", "title": "S4D and S4Model on inputs without a batch axis", "statement": "S4D on a (d_model, length) input returns the (d_model, length) result that the batch holding only this input gives, and on a (length,) input the result of feeding the series to every channel; a 0-d input is an IndexError. S4Model on an unbatched (d_input, length) input is a RuntimeError when length differs from d_model; when length = d_model it silently averages over the channels instead of over time, and as long as the last layer norm has its initial weights the output is the decoder's bias whatever the input is.", "quantifier": "all learned parameters, dropout masks, inputs, lengths, numbers of layers", "why_tests_cant": "the silent case needs length = d_model, and a shape check would not reveal that the value ignores the input; tests use batched inputs", "anchors": ["ml4gw/nn/ssm/s4d.py: S4D.forward, S4Model.forward"]}
{"id": "C102", "title": "What the rest of the batch does to a generated waveform", "statement": "For every batch of binaries, TimeDomainCBCWaveformGenerator works on one frame, the smallest power of two no shorter than the duration bound of any binary of the batch. With every approximant that treats binaries by themselves (TaylorF2 and IMRPhenomD included) the waveform of a binary depends on its companions only through that frame: reordering or repeating binaries reorders or repeats the waveforms, and adding binaries that fit into the frame changes nothing. When the frame changes the waveform is not determined by its own parameters: for every binary there is a companion, and such an approximant, with which the binary's waveform is identically zero alone and not zero next to the companion.", "quantifier": "all even sample rates, generators, batches, approximants, binaries", "why_tests_cant": "independence must hold for every pair of batches; tests compare fixed batches, and batches that share a frame hide the dependence", "anchors": ["ml4gw/waveforms/generator.py: TimeDomainCBCWaveformGenerator.forward, generate_conditioned_fd_waveform, delta_f computation"]}
{"id": "C103", "title": "Gain, delay and reversal of the input of the Q-transform", "statement": "For every Q-transform made for series of T samples and every batch: multiplying each series by a number of its own multiplies its row energies and its spectrogram by the square of that number, and leaves them unchanged when the energies are normalised by the median or the mean (for non-zero numbers); a circular delay by d samples moves every row of N instants whose band lies inside the spectrum by N d / T instants whenever that is whole, with and without normalisation; circular time reversal reverses every row. A QScan of the batch multiplied by one common non-zero number (any non-zero numbers with normalisation) picks the same Q plane and returns the same spectrogram times the square of the number (the same spectrogram with normalisation), for every search range.", "quantifier": "all transforms, scans, batches, gains, delays, normalisations, spectrogram sizes, search ranges", "why_tests_cant": "covariance relates two runs for every input, gain and delay; tests compare single outputs with stored references", "anchors": ["ml4gw/transforms/qtransform.py: SingleQTransform.compute_qtiles, SingleQTransform.interpolate, QTile.forward, QScan.forward"]}
{"id": "C104", "title": "What the rest of the batch does to a Q-scan", "statement": "For every Q-transform and every batch, the spectrogram of a series depends on that series only. A QScan does not have this property: without normalisation, if one series of a batch has its largest searched energy on one plane only, then once that series is multiplied by any large enough number the scan returns every other series' spectrogram on that plane; and there are two planes and two sinusoids of equal amplitude such that the first one's spectrogram is positive everywhere when it is scanned alone and identically zero when it is scanned together with the second.", "quantifier": "all transforms, scans, batches, spectrogram sizes, search ranges", "why_tests_cant": "independence of the batch quantifies over all companions; tests scan one batch of similar series", "anchors": ["ml4gw/transforms/qtransform.py: SingleQTransform.forward, SingleQTransform.get_max_energy, QScan.forward"]}
{"id": "C105", "title": "Whitening with a PSD that has zero or negative bins", "statement": "Whitening never raises because of the values of the PSD. A series all of whose non-positive PSD bins are removed by the highpass, the lowpass or as the Nyquist bin is whitened as if those bins did not exist (their values do not matter). With the built-in taper, a series one of whose remaining bins is zero or negative (a dead channel, a zero DC bin without a highpass) comes back silently as exact zeros, while the other series of the batch are unaffected.", "quantifier": "all data, all PSDs (any real values, any number of bins), taper durations, band limits, crop or not, every FFT implementation that propagates non-finite values", "why_tests_cant": "quantifies over all PSDs, positions of the non-positive bins, band limits and over the FFT implementation; the tests whiten with positive spectra only", "anchors": ["ml4gw/spectral.py: truncate_inverse_power_spectrum, normalize_by_psd, whiten"]}
{"id": "C106", "title": "Several iterators over one dataset, in any interleaving", "statement": "However the iterators over one InMemoryDataset are interleaved, each sees a complete epoch of its own: its calls of next return that epoch's batches in order and then StopIteration for ever. The same holds for a ChunkedTimeSeriesDataset whose chunk_it can be iterated again. If chunk_it is itself an iterator, the iterators share it: every chunk goes to exactly one of them, each one behaves as a dataset over the chunks it got, and once one iterator has come to its end every new one (the next epoch) raises RuntimeError at its first call. Hence W worker processes that each iterate a coincident InMemoryDataset deliver every window exactly W times (the data set does not split the work).", "quantifier": "all datasets, any number of iterators, every schedule of calls of next, all random draws", "why_tests_cant": "quantifies over all interleavings of any number of iterators; the tests run one iterator at a time", "anchors": ["ml4gw/dataloading/in_memory_dataset.py: InMemoryDataset.__iter__", "ml4gw/dataloading/chunked_dataset.py: ChunkedTimeSeriesDataset.__iter__"]}
{"id": "C107", "title": "LeakyIntegrator in float32 arithmetic", "statement": "On float32 input, whatever the order in which the device adds up the increments (sequential in double precision, parallel scan in single precision, anything else), LeakyIntegrator in count mode with an integer decay D and an integer lower bound L returns exactly the real-number recursion as long as T*max(1,|D|)+|L| <= 2^24; with any other settings the output differs from the recursion by at most about 2(t+1)u times the sum of the absolute increments (an explicit bound, u = 2^-24). The threshold in force is the float32 number nearest to the one given. Past 2^24 samples the recursion fails on the CPU even with decay 1 and bound 0: one event after exactly 2^25 quiet samples gives output 0, after 2^25+3 it gives 4 (the recursion gives 1).", "quantifier": "all settings, all float32 inputs of any shape and length, all orders of summation with any intermediate precision of at least float32", "why_tests_cant": "quantifies over all summation orders and lengths; the failing lengths are above 33 million samples", "anchors": ["ml4gw/transforms/integrator.py: LeakyIntegrator.forward"]}
{"id": "C108", "title": "Rounding errors of the OnlineAverager do not pile up over the stream", "statement": "In float32 arithmetic, with the sum over the batch taken in any order and any intermediate precision of at least float32, and with the division by num_updates done either as a division or by the rounded reciprocal, every sample that a stateful OnlineAverager emits, however long the stream, differs from the exact average of the predictions covering it by at most ((1+u)^((b+3)K)-1) times the average of their absolute values plus (1+u)^((b+3)K)*2bK*2^-150, where b is the batch size, K = ceil((num_updates-1)/b)+1 and u = 2^-24. In particular for (b+3)K <= 2^23 the error is at most 2(b+3)K*u times that average plus 4bK*2^-150. Neither bound depends on the number of calls.", "quantifier": "all update sizes, batch sizes and numbers of updates up to 2^24, channels, offsets other than 0, all histories of batches of any length, all orders of summation", "why_tests_cant": "quantifies over streams of unbounded length and over all summation orders", "anchors": ["ml4gw/nn/streaming/online_average.py: OnlineAverager.forward"]}
{"id": "C109", "title": "Rounding errors of the TophatIntegrator stay within the window", "statement": "In float32 arithmetic, with a direct convolution (the products of each output rounded or fused, added in any order, in any precision of at least float32), every output of a TophatIntegrator with a window of W <= 2^24 samples differs from the exact mean of the last W samples (zeros before the start) by at most (1+u)^(W+2) (A + 2W 2^-150) - A, where A is the mean absolute value of the same W samples and u = 2^-24; for W <= 2^22 by at most 2(W+2) u A + 4W 2^-150. Neither the length of the series nor any sample outside the window enters. After W zero samples the output is exactly zero; a window of non-negative samples gives a non-negative output.", "quantifier": "all window sizes, shapes and lengths, all series of real (in particular float32) samples, all orders of summation and placements of fused multiply-adds, possibly different for each output", "why_tests_cant": "quantifies over all series, over series of unbounded length and over all summation orders a device may choose", "anchors": ["ml4gw/transforms/integrator.py: TophatIntegrator"]}
{"id": "C110", "title": "RateEvolution with a rate that vanishes somewhere", "statement": "For RateEvolution with a rate function that is non-negative and positive at some grid redshift of the range after the first (so it may have a cut-off, a late onset or gaps), every distance type and grid: the tabulated density is zero exactly where the rate or the distance is; the tabulated CDF runs from 0 to 1 without decreasing; every uniform draw in [0,1) gives a well defined sample (no division by zero) inside [minimum, maximum], in a grid cell where the density is positive at one end at least, at the position that interpolates the CDF. log_prob at a value of the range: finite (the interpolated logarithm) when the density is positive at both ends of the cell; -inf inside a cell whose right end has zero density, NaN at the left grid point of such a cell although the density there is positive, and +inf left of the first grid point if the first cell is one; NaN in a cell whose left end has zero density, -inf left of the first grid point. So a cut-off gives NaN, not -inf, at and beyond the first zero grid point and at the last positive one.", "quantifier": "all positive H0, all omega_m >= 0, grids, ranges, distance types and non-negative rate functions; all draws and all values", "why_tests_cant": "quantifies over all rate functions, grids, draws and values; the NaN is at single points and on cells no test evaluates", "anchors": ["ml4gw/distributions.py: RateEvolution", "ml4gw/distributions.py: UniformComovingVolume._linear_interp_1d", "ml4gw/distributions.py: UniformComovingVolume.log_prob"]}
{"id": "C111", "title": "One solar mass is the same everywhere, and the bounds scale with the mass", "statement": "The constants of the package agree: the literal PI is pi to 36 decimals, EulerGamma is the limit of 1 + 1/2 + ... + 1/n - ln n to half a unit of its 36th decimal, a megaparsec is 10^6 * 648000/pi astronomical units to 1e-12 m; the solar mass in metres is c times the solar mass in seconds to 36 digits; G times the solar mass in kg is 1.32712442099e20 and c^3 times the solar mass in seconds is 1.3271244e20 m^3/s^2, so a mass converted through kilograms, as the generator does, is larger than the same mass in the seconds that the approximants use by a factor 1 + 1.5816e-8, not equal to it, and never by more than 1.6e-8. For all positive masses, frequencies, durations and factors k: chirp_time_bound(f/k, k m1, k m2, s1, s2) = k chirp_time_bound(f, m1, m2, s1, s2); chirp_start_frequency_bound(k t, k m1, k m2) = chirp_start_frequency_bound(t, m1, m2)/k; frequency_isco(k m1, k m2) = frequency_isco(m1, m2)/k; merge_time_bound is 54 pi times the total mass in seconds to 35 digits; ringdown_time_bound is 22 M (0.7 + 1.4187 (1-s)^-0.499)/(1.5251 - 1.1568 (1-s)^0.1292).", "quantifier": "all positive masses, frequencies, durations and scale factors, all spins", "why_tests_cant": "quantifies over all masses and scale factors; the inconsistency of 1.6e-8 is below the tolerance of every test", "anchors": ["ml4gw/constants.py", "ml4gw/waveforms/cbc/utils.py: chirp_time_bound, chirp_start_frequency_bound, merge_time_bound, ringdown_time_bound, frequency_isco"]}
{"id": "C112", "title": "Heavier binaries are slower and louder copies of lighter ones", "statement": "For every factor k > 0, all positive chirp masses and mass ratios and all other parameters: TaylorF2, IMRPhenomD and IMRPhenomPv2 called with k times the chirp masses, at 1/k of the frequencies and of the reference frequency, return exactly k^2 times the polarisations (and the same error if they raise one); spins, distance, phase, inclination and tc unchanged. For every generator with sample_rate, f_min, duration, right_pad and sampled at an even number of hertz: with 1/k of sample_rate and f_min and k times the duration and right_pad (both sample rates even integers of at least 2 Hz), and any approximant whose values at f/k are c times those at f, TimeDomainCBCWaveformGenerator returns for k times the masses tensors of the same shape whose samples are exactly c/k times the original ones; the cut-off of its high-pass relative to the sample rate is unchanged. With the three approximants this is k times the strain, and (TaylorF2, IMRPhenomD) exactly the same samples at k times the distance: only the ratio of total mass, distance and sample spacing is observable.", "quantifier": "all k > 0, all batches of positive masses and physical spins, all frequencies, all generators with even integer sample rates, all filter coefficients, all sample indices", "why_tests_cant": "relates two runs for every scale factor and every parameter; a missing factor of the mass in any of the hundreds of terms breaks it", "anchors": ["ml4gw/waveforms/cbc/taylorf2.py", "ml4gw/waveforms/cbc/phenom_d.py", "ml4gw/waveforms/cbc/phenom_p.py", "ml4gw/waveforms/generator.py: TimeDomainCBCWaveformGenerator", "ml4gw/waveforms/cbc/utils.py"]}
{"id": "C113", "title": "Which memory calls share and write: augmentations in place, isolation of streaming state and datasets", "statement": "SignalInverter and SignalReverser return the very tensor object they were given, after changing it in place and changing no memory outside it. slice_kernels and the windows of unfold_windows are copies; with drop_last=False and a non-zero remainder the tail that unfold_windows returns is a view of the end of its argument. Hence over any epoch, whatever a consumer does in place to the batches it was handed, every later batch is cut from the original data and the data are intact at the end; in particular a loop that applies both augmentations in place yields each batch with its own draws only. Snapshotter and OnlineAverager change none of their arguments nor any earlier output. For Snapshotter with batch_size > 1 and for OnlineAverager at every setting, no memory of an output belongs to the returned state: for every history of calls in which the consumer, between calls, writes anything into any output it was ever handed, into the update tensors after passing them and into memory of its own, every output is still the window (average) of the stream of updates. For Snapshotter with batch_size 1 this is false: the snapshot and the state share memory, the state is at any later time the end of whatever the snapshot contains by then, and in-place augmentation of a snapshot corrupts the next one.", "quantifier": "all heaps, all tensors and views, all histories of calls, all interleaved writes by the consumer, all draws, all batch, stride and channel settings", "why_tests_cant": "ranges over all interleavings of calls and in-place writes through any alias; a test compares values of a few calls without writing to the results", "anchors": ["ml4gw/augmentations.py: SignalInverter.forward, SignalReverser.forward", "ml4gw/nn/streaming/snapshotter.py: Snapshotter.forward", "ml4gw/nn/streaming/online_average.py: OnlineAverager.forward", "ml4gw/utils/slicing.py: slice_kernels, unfold_windows", "ml4gw/dataloading/in_memory_dataset.py: InMemoryDataset"]}
{"id": "C114", "title": "Checkpoints of the other modules: what a state dict carries", "statement": "WaveformProjector: loading the state of a projector with as many detectors succeeds and turns the target into the projector of the saved detectors at the target's own sample rate, whatever detectors it was built for; with another number of detectors load_state_dict raises RuntimeError and changes nothing. WaveformSampler: its state dict is empty, every load succeeds and changes nothing. IIRFilter: everything is carried; if numbers of coefficients differ RuntimeError is raised, but a coefficient vector whose length agrees has been replaced. Heterodyne: the saved phases are carried, sample rate and return type are the target's; when kernel lengths agree it is the transform of the saved chirp masses. TophatIntegrator, OnlineAverager: a load never changes a value. SpectralDensity: window and scale are carried, segment length, stride, average and method are the target's, and a load that fails on the window has already replaced the scale. Decimator: schedule and indices are carried, but sample rate, split flag and expected length are the target's, so that an accepted load can leave a module that refuses every input. SplineInterpolate1D: after any history of calls the strict load succeeds iff the numbers of input points and the degrees agree and the output coordinates are absent from both or present in both with equal numbers, the saved number being that of the last override that passed validation; the result is then the saved interpolator. Without output coordinates calls leave no memory. A non-strict load of an interpolator without output coordinates into one with yields the saved coefficients combined with basis values on the target's own knots.", "quantifier": "all configurations of both modules, all state dicts reached by all histories of calls, strict and non-strict loading where stated", "why_tests_cant": "ranges over all pairs of configurations and all histories of calls before the checkpoint", "anchors": ["ml4gw/transforms/waveforms.py: WaveformProjector, WaveformSampler", "ml4gw/transforms/iirfilter.py: IIRFilter", "ml4gw/transforms/heterodyne.py: Heterodyne", "ml4gw/transforms/decimator.py: Decimator", "ml4gw/nn/streaming/online_average.py: OnlineAverager", "ml4gw/transforms/spectral.py: SpectralDensity", "ml4gw/transforms/spline_interpolation.py: SplineInterpolate1D"]}
{"id": "C115", "title": "What part of a batch each result depends on: batch transparency and causality of the transforms", "statement": "TophatIntegrator, LeakyIntegrator, IIRFilter and the concatenating Decimator (series), GroupNorm1D with any learned parameters, fitted ChannelWiseScaler, S4D in both layouts and S4Model without dropout, whiten / Whiten with a PSD that has no batch axis and FixedWhiten once fitted (multichannel elements), Heterodyne (both returned series), spectral_density and its fast version, SplineInterpolate1D after any history of calls, and every MultiResolutionSpectrogram that can be built, succeed on every batch of elements of a fixed shape, and the result for an element is determined by this element alone: two equal elements, in the same batch or in batches of different size and arrangement, at any position, have equal results. Hence selecting, repeating, permuting, concatenating or re-arranging batches before or after gives the same, and so it does for any pipeline of such transforms. TophatIntegrator, LeakyIntegrator and S4D are moreover causal: sample t of the result is determined by the samples up to t, whatever the length of the recording, so that the result for a longer recording continues that for a shorter one; pipelines of causal transforms are causal. IIRFilter is not causal.", "quantifier": "all inputs, batch sizes, batch arrangements, positions, lengths, module parameters, histories of calls, pipelines of any length", "why_tests_cant": "relates the results on all pairs of batches; a test compares a few batches of one size", "anchors": ["ml4gw/transforms/integrator.py: TophatIntegrator, LeakyIntegrator", "ml4gw/transforms/iirfilter.py: IIRFilter.forward", "ml4gw/transforms/decimator.py: Decimator.forward", "ml4gw/transforms/heterodyne.py: Heterodyne.forward", "ml4gw/nn/norm.py: GroupNorm1D.forward", "ml4gw/nn/ssm/s4d.py: S4D.forward, S4Model.forward", "ml4gw/spectral.py: spectral_density, fast_spectral_density, whiten", "ml4gw/transforms/scaler.py: ChannelWiseScaler.forward", "ml4gw/transforms/whitening.py: Whiten, FixedWhiten", "ml4gw/transforms/spline_interpolation.py: SplineInterpolate1D.forward", "ml4gw/transforms/spectrogram.py: MultiResolutionSpectrogram.forward"]}
{"id": "C116", "title": "What the streaming modules do with updates that are not of the documented shape", "statement": "Snapshotter, fed any history of updates [num_channels; L_i] with arbitrary lengths: with batch_size > 1 the history raises RuntimeError exactly when some L_i is smaller than the stride (batch_size itself is not checked), and otherwise call i returns L_i / stride (rounded down) snapshots of snapshot_size samples; with batch_size 1 every update is accepted and one snapshot of snapshot_size - stride + L_i samples is returned. The first snapshot of call i starts at sample L_0 + ... + L_(i-1) of the stream (initial zeros, then the updates), and the state is always the end of the stream. So the snapshots of a whole history are those of one sliding window exactly when every update but the last is a whole number of strides; otherwise the alignment changes at every such update, the snapshots depend on how the stream was cut, and if stride + L_i mod stride exceeds snapshot_size a sample is in no snapshot at all. An update with another number of channels raises RuntimeError, at any point of a history. OnlineAverager, fed any history of 3D updates [b'; c'; L]: RuntimeError exactly when, for some update, b' is neither 1 nor batch_size, c' neither 1 nor num_channels, L < num_updates * update_size + offset, or offset is 0; otherwise the outputs and the state are those of C15 where an update with a single batch element or channel silently stands for all of them. Updates with fewer axes raise IndexError.", "quantifier": "all configurations, histories of any length, update lengths, batch and channel counts", "why_tests_cant": "an invariant over histories of unbounded length with arbitrary update lengths; misalignment shows only some updates later", "anchors": ["ml4gw/nn/streaming/snapshotter.py: Snapshotter.forward", "ml4gw/nn/streaming/online_average.py: OnlineAverager.forward", "ml4gw/utils/slicing.py: unfold_windows"]}
{"id": "C117", "title": "Antenna responses averaged over the sky", "statement": "For sources drawn isotropically - declination with density cos(dec)/2 on [-pi/2, pi/2] (distributions.Cosine), theta = pi/2 - dec, phi uniform on [-pi, pi], polarisation angle psi uniform on [0, pi] - the responses of compute_antenna_responses have the following means, for any detector tensors (in particular those of get_ifo_geometry). With S the double contraction of the symmetric parts of the tensors of detectors i and j and T the product of their traces: plus_i * plus_j and cross_i * cross_j both have mean (2/5)(S - T/3), plus_i * cross_j has mean 0, breathing_i * breathing_j has mean (2 S + 6 T)/15, products of breathing with plus or cross have mean 0, plus and cross have mean 0 and breathing 2/3 of the trace. So the strains F+ h+ + Fx hx that two detectors see have a mean product (2/5)(S - T/3)(h+^2 + hx^2), with no h+ hx term. For each built-in detector the mean squares of the plus and cross responses are equal and within 1e-7 of 1/5, and that of the breathing response within 1e-7 of 1/15.", "quantifier": "all detector tensors, pairs of detectors, wave amplitudes; integrals over all sky positions and polarisation angles", "why_tests_cant": "integrals over the whole sky; a Monte Carlo estimate settles a few digits for a few detectors", "anchors": ["ml4gw/gw.py: compute_antenna_responses, get_ifo_geometry", "ml4gw/distributions.py: Cosine"]}
{"id": "C118", "title": "Signal-to-noise ratios averaged over the sky", "statement": "Project one waveform (hp, hc) with WaveformProjector onto any list of built-in detectors from an isotropically distributed direction with a uniform polarisation angle (as in C117), and compute its SNR with compute_ifo_snr and compute_network_snr against fixed PSDs, cutoffs or masks. The squared SNR in detector i has mean v_i (P_i + Q_i), where P_i and Q_i are the squared SNRs of hp and hc on their own against the PSD of detector i and v_i is within 1e-7 of 1/5; the squared network SNR has the sum of these as its mean, so it is one fifth of the sum over the detectors of P_i + Q_i with relative error at most 5e-7. The arrival-time shifts, the overlap of hp and hc, and the position and orientation of the detectors make no difference to it.", "quantifier": "all waveforms, lists of built-in detectors, PSDs, cutoffs and masks, sample rates; means over all directions and polarisation angles", "why_tests_cant": "an integral over the whole sky of a composition of three library calls, for every waveform and spectrum", "anchors": ["ml4gw/gw.py: compute_observed_strain, compute_ifo_snr, compute_network_snr, get_ifo_geometry", "ml4gw/transforms/waveforms.py: WaveformProjector"]}
{"id": "C119", "title": "Expected values under the samplers of distributions.py", "statement": "For every continuous function g, the expected value of g of a sample - the integral over u in [0, 1] of g(rsample computed from u) - is the integral of g against the stated density: cos x / (sin high - sin low) on [low, high] for Cosine(low, high) within [-pi/2, pi/2], sin x / (cos low - cos high) for Sine(low, high) within [0, pi], 1 / (x log(high/low)) for LogUniform(low, high), and for PowerLaw(minimum, maximum, index) with minimum > 0 the power law (index+1) x^index / (maximum^(index+1) - minimum^(index+1)), or 1 / (x log(maximum/minimum)) when index is -1. So LogUniform samples have mean (high - low)/log(high/low). The sky averages of C117 and C118 are expectations over declinations from Cosine() and angles from Uniform(0, pi) and Uniform(-pi, pi), drawn independently.", "quantifier": "all bounds and indices, all continuous functions of a sample", "why_tests_cant": "an integral over all draws, for arbitrary functions and parameters; a sample mean converges too slowly to separate neighbouring densities", "anchors": ["ml4gw/distributions.py: Cosine, Sine, LogUniform, PowerLaw"]}
{"id": "C120", "title": "Inclination of a binary, and its squared SNR averaged over orientation and sky", "statement": "With TaylorF2 or IMRPhenomD as the approximant, TimeDomainCBCWaveformGenerator at inclination i returns cos(i) times the cross and (1 + cos(i)^2)/2 times the plus polarisation that it returns face-on (i = 0), sample by sample, for every row of a batch. For an IMRPhenomD binary whose inclination is drawn by Sine() (isotropic orbital plane), direction by Cosine() and Uniform and polarisation angle by Uniform, the squared network SNR of the generated and projected waveform has the mean sum over detectors of v_d (7/15 P_d + 1/3 Q_d), where P_d and Q_d are the squared SNRs of the face-on plus and cross polarisations in the spectrum of detector d and v_d is within 1e-7 of 1/5: if P_d = Q_d this is 4/25 of P_d, the root mean square being 2/5 of the SNR of the optimally placed and oriented source.", "quantifier": "all generator configurations, physical binaries, batches, inclinations; lists of built-in detectors, PSDs, cutoffs and masks; means over all orientations and directions", "why_tests_cant": "real-valued parameters, and a mean over orientation and sky of a composition of generator, projector and SNR", "anchors": ["ml4gw/waveforms/cbc/taylorf2.py: TaylorF2.forward", "ml4gw/waveforms/cbc/phenom_d.py: IMRPhenomD.forward", "ml4gw/waveforms/generator.py: TimeDomainCBCWaveformGenerator", "ml4gw/gw.py: compute_observed_strain, compute_network_snr", "ml4gw/distributions.py: Sine, Cosine"]}
{"id": "C121", "title": "Autoencoders treat the items of a batch independently", "statement": "If every block of an autoencoder encodes and decodes each item of a (batch, channel, time) tensor from that item alone (raising, if at all, only depending on the numbers of channels and samples), then so does forward with any skip connection: item k of the output for a batch is the output for item k alone as a batch of one, and a batch raises an exception iff each item alone raises it. The three skip connections of skip_connection.py treat the items independently, and so does every ConvolutionalAutoencoder with element-wise activation functions and BatchNorm1d in evaluation mode, for all weights, running statistics, channels, kernel sizes, strides, groups and skip connections; with BatchNorm1d in training mode (the default norm after construction) the output of an item depends on the rest of its batch.", "quantifier": "all depths, batch sizes, items, weights, layer configurations, skip connections and inputs", "why_tests_cant": "relates every batch to each of its items, for unbounded depth and arbitrary layers", "anchors": ["ml4gw/nn/autoencoder/base.py: Autoencoder.encode, decode, forward", "ml4gw/nn/autoencoder/skip_connection.py", "ml4gw/nn/autoencoder/utils.py: match_size", "ml4gw/nn/autoencoder/convolutional.py: ConvBlock, ConvolutionalAutoencoder"]}
{"id": "C122", "title": "Channel groups of ConvolutionalAutoencoder stay separate, and ConcatSkipConnect cannot be used with it", "statement": "With groups = g and the plain or adding skip connection, for every depth, the g groups of consecutive channels never mix: with element-wise activation functions and BatchNorm1d in evaluation or training mode (or any layers with that property), two inputs that agree in group u of their channels give the same exception or outputs that agree in group u, for all weights, kernel sizes, strides, channel lists, and input and decoder channels divisible by g. With ConcatSkipConnect, whatever its own groups, forward raises for every input, activation and set of layers: the deepest decoder expects twice the channels that the deepest encoder returns.", "quantifier": "all depths, group counts, channel lists, weights, modes and inputs", "why_tests_cant": "non-interference between groups for arbitrary weights and depth", "anchors": ["ml4gw/nn/autoencoder/convolutional.py: ConvBlock, ConvolutionalAutoencoder", "ml4gw/nn/autoencoder/skip_connection.py: AddSkipConnect, ConcatSkipConnect", "ml4gw/nn/autoencoder/base.py: Autoencoder.forward"]}
{"id": "C123", "title": "What strided ConvolutionalAutoencoders with several blocks compute", "statement": "With stride at least two or an even kernel size, ConvolutionalAutoencoder.forward with the plain or adding skip connection raises for every input longer than the stride by two samples or more whenever there are four or more blocks. With the plain skip connection and inputs of at least 4*stride^2+4 samples, a network of three such blocks returns a tensor of the input's length whose samples are all zero, whatever its weights and its input; so does a network of two blocks with stride at least two.", "quantifier": "all channel lists, kernel sizes, strides, group counts, layers, activation functions, batches, inputs; all depths of at least four", "why_tests_cant": "for all weights, inputs, depths and layer configurations", "anchors": ["ml4gw/nn/autoencoder/convolutional.py: ConvolutionalAutoencoder.forward", "ml4gw/nn/autoencoder/base.py: Autoencoder.decode", "ml4gw/nn/autoencoder/utils.py: match_size", "ml4gw/nn/autoencoder/skip_connection.py"]}

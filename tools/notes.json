{
 "C11": {
  "status": "partial",
  "note": "The property is false of the code: C11_reverseData_refuted. C11_reverseData_actual says exactly what the function does for every buffer, and that an empty range writes out of bounds."
 },
 "C13": {
  "status": "partial",
  "note": "channelWiseAdd is proved. The mean half is false of the code: the result is the channel mean times (rows*cols)^2 (C13_channelWiseMean_actual, C13_channelWiseMean_refuted)."
 },
 "C38": {
  "status": "partial",
  "note": "Proved for the regression losses and binary cross entropy. False for (sparse) categorical cross entropy as the derivative of the returned value: C38_categorical_gradient_refuted; what the code returns instead is C38_categorical_gradient_actual_partial."
 },
 "C39": {
  "status": "proved",
  "note": "Over the reals, with the float overload of abs. If ::abs resolves to the integer overload (Matrix.h:421 without <cmath>'s global overloads) the zero-iff-equal half fails: C39_integer_abs_overload_refuted."
 },
 "C40": {
  "status": "partial",
  "note": "Gradient half proved. The loss-value half is false of the code (C40_balanced_loss_refuted); C40_balanced_loss_actual_partial says what is returned."
 },
 "C33": {
  "status": "proved",
  "note": "beta1=0.9, beta2=0.999 are constants of the code. The first-step bound holds for Adam, Adamax and Adagrad; for Nadam it is false of the code (C33_nadam_first_step_refuted)."
 },
 "C34": {
  "status": "partial",
  "note": "True for every optimiser but iRPROP-, whose clone is an RPROP- (C34_irprop_clone_refuted)."
 },
 "C58": {
  "status": "partial",
  "note": "Proved, with the exact set of corners, for 58 of 64 activations. GELU and SoftSteps are right only up to their decimal approximations of pi (C58_gelu_softsteps_close). SQ-RBF, Logit, SineReLU and TanhExp return something else (C58_derivation_refuted and the _actual theorems)."
 },
 "C41": {
  "status": "proved",
  "note": "Forward closed forms hold over every scalar type (so bit-exactly for floats); gradients are over the reals."
 },
 "C42": {
  "status": "partial",
  "note": "True for Bias and for every input gradient. The weight gradient of Gain, Affine, GlobalGain and GlobalAffine is not a derivative (C42_gain_refuted, C42_affine_refuted, C42_globalgain_refuted); the bias gradient of GlobalBias, GlobalAffine and ChannelBias has another constant factor (1/(n*cols), rows*cols/n instead of 1/n). The _actual theorems say what each layer returns."
 },
 "C43": {
  "status": "partial",
  "note": "True for PRelu, CRelu and RRelu and for the input gradients of PELU and TERELU. PELU and TERELU leave the output gradient out of their weight gradient: C43_pelu_refuted, C43_terelu_refuted; the _actual theorems say what is returned."
 },
 "C44": {
  "status": "proved",
  "note": "Over the reals."
 },
 "C45": {
  "status": "partial",
  "note": "False of the code: only the diagonal of the softmax Jacobian is used (C45_softmax_backward_refuted). The actual result, the true gradient and the effect with categorical cross entropy are theorems."
 },
 "C46": {
  "status": "partial",
  "note": "Proved for Dropout and the noise layers. GaussianDropout is the identity at inference, but in training every batch of more than one row trips an assertion (C46_gaussiandropout_many_rows): the mask has one row."
 },
 "C54": {
  "status": "proved",
  "note": "Gradients up to a constant: weights 1/n, biases 1/(n*frames)."
 },
 "C57": {
  "status": "proved",
  "note": "For the 58 activations whose derivation is a derivative (see C58), away from their corners."
 },
 "C47": {
  "status": "partial",
  "note": "Forward half proved. The backward half is proved for one sample with one channel; in general every sample and channel is routed by the positions recorded for sample 0, channel 0 (C47_maxpool_backward_actual_partial, C47_maxpool_refuted), and a window whose cells are all <= -1e38 makes the backward pass write outside the buffer (C47_maxpool_out_of_bounds_refuted). Positions are stored as floats; the statements are over the reals, where that is exact."
 },
 "C48": {
  "status": "proved",
  "note": "Gradient where the maximum of each plane is unique and above -1e38."
 },
 "C51": {
  "status": "partial",
  "note": "im2col: proved for every arithmetic. col2im: equal over the reals and, bit for bit, when windows do not overlap within an image row; false for binary32 in general (C51_col2im_paths_refuted), since the two paths add in opposite orders."
 },
 "C52": {
  "status": "proved",
  "note": "For every shape whose output sizes are not negative. For strides above 2 the output size rule drops windows that would fit; the statement is about the windows the layer keeps."
 },
 "C53": {
  "status": "proved",
  "note": "Weight gradient with factor 1, input gradient with factor 1/(kernel cells * output channels)."
 },
 "C55": {
  "status": "partial",
  "note": "False of the code: the last frame is never read, a single frame leaves the output untouched, every call on a sequence redraws the weights, SimplestRNN keeps its state between calls. C55_simplest_forward_partial says what SimplestRNN computes; SimpleRNN rejects batches of several rows."
 },
 "C56": {
  "status": "partial",
  "note": "False of the code: identity in training, flips at inference, and the flipped rows are not mirrored (C56_flip_refuted). C56_inference_actual_partial says what happens; in training the backward pass reads an empty matrix."
 },
 "C62": {
  "status": "partial",
  "note": "Holds for columns that are not constant; a constant column is left unchanged, so 5,5 stays 5,5 (C62_range_refuted), and in floats max-min may overflow and give NaN (C62_float_overflow_refuted)."
 },
 "C63": {
  "status": "partial",
  "note": "Mean 0, variance 1 proved over the reals. False in floats: the one-pass variance can come out negative, five times 1833 gives NaN (C63_float_finite_refuted); an empty set gives 0/0 (C63_empty_refuted)."
 },
 "C64": {
  "status": "partial",
  "note": "Counts, accuracy, row sums and balanced accuracy proved (the matrix in percent, float counts exact up to 2^24 per cell). False: an absent class gives a NaN balanced accuracy, and an out-of-range prediction is clamped and may count as correct."
 },
 "C65": {
  "status": "partial",
  "note": "Proved for every loss when each sample has some reference closer than 1e38. A sample further than that from all references hits the assertion (C65_far_sample_refuted)."
 },
 "C66": {
  "status": "proved",
  "note": "For every run of fit that returns, over the reals with integer labels; a run can stop early only at an assertion (sample at distance 1e38 or more) or with no samples (C66_no_samples)."
 },
 "C15": {
  "status": "partial",
  "note": "Proved bit-exactly for every stack of layers that draw no random numbers in inference mode (detNet in SpecNet.v covers every layer class except RandomFlip and the recurrent layers). Refuted for RandomFlip, which flips at random in inference mode, and for the recurrent layers, which draw new weights at each forward pass over several frames. A network without layers leaves the result matrix untouched."
 },
 "C16": {
  "status": "partial",
  "note": "Several outputs: first maximal column, in range. One output: the rounded output; it need not be a valid class (refuted with a Dense(1,1) network predicting class -3)."
 },
 "C17": {
  "status": "partial",
  "note": "Proved for assignment between different objects (deterministic layers, bit exact, including all later changes to either network). Self-assignment a = a is refuted: it deletes all layers."
 },
 "C18": {
  "status": "proved",
  "note": "For every data set, batch size and shuffle: the batches are a cut of a permutation of the samples and each is trained with its own truths. The batch size in use is runBatch (0 or too large: the whole set)."
 },
 "C19": {
  "status": "partial",
  "note": "Proved with the validation accuracy recorded whenever validation data is given, classifying or not; the 'iff both' half is false of the code (C19_validation_accuracy_refuted). keep-best off together with patience on a regression network is excluded (the network loses its layers, C23)."
 },
 "C20": {
  "status": "partial",
  "note": "Proved for the scores the trainer measures. Without validation data these are not scores of the network kept: keep-best can return a worse network than the initial one (C20_regression_refuted)."
 },
 "C21": {
  "status": "partial",
  "note": "Proved when keep-best is off or no layer is created or redrawn by a forward pass. False for lazily sized and recurrent layers with keep-best on (C21_lazy_refuted, C21_recurrent_refuted)."
 },
 "C22": {
  "status": "partial",
  "note": "False of the code with patience: a roll-back frees the layers the trainer still points to and the next epoch uses them (C22_rollback_frees, C22_freed_is_used, C22_patience_refuted). Proved without patience (C22_live_partial)."
 },
 "C23": {
  "status": "partial",
  "note": "Proved when keep-best is on or patience off. False otherwise (C23_no_layers_left_refuted)."
 },
 "C24": {
  "status": "proved",
  "note": "C24_halving over the reals, C24_halving_float in single precision, for runs that return (C22 tells when they touch freed memory) with a positive initial rate. Left out: a regression without keep-best whose loss never got below 1e10, which the first roll-back leaves without layers (C23)."
 },
 "C25": {
  "status": "partial",
  "note": "Proved for weights and biases that exist when fit starts, and the pairing with gradients and optimisers. Parameters created by the first forward pass and those of SimpleRNN are not registered (C25_lazy_refuted, C25_rnn_refuted)."
 },
 "C26": {
  "status": "partial",
  "note": "False of the code: the period is N+1 (C26_period_partial proves it for every run, C26_period_refuted)."
 },
 "C27": {
  "status": "partial",
  "note": "Accuracy half proved for deterministic networks, bit for bit in any arithmetic (range over the reals). The loss half is false: the result is the sum of the batch means (C27_loss_refuted)."
 },
 "C28": {
  "status": "partial",
  "note": "Proved over the reals when every class occurs; a class without samples gets an infinite weight (C28_absent_class_refuted)."
 },
 "C29": {
  "status": "partial",
  "note": "Every getter except the validation batch size (C29_validation_batch_refuted), when the optimiser's clone copies the learning rate (not RPROP-: C29_rate_refuted) and the regulariser was built by its own setter."
 },
 "C02": {
  "status": "partial",
  "note": "Proved when the right operand is on another storage (views included). False of the code when they share storage: m *= m gives the zero matrix (C02_self_product_is_zero, C02_self_product_refuted), m *= (view of m) can read freed storage (C02_own_view_frees_refuted)."
 },
 "C03": {
  "status": "partial",
  "note": "For every history that has a meaning in the abstract machine of SpecHeap.v (no stale view, no overlapping assignment). Assigning a view from an overlapping window of the same storage does not preserve the source values: C03_overlap_refuted."
 },
 "C04": {
  "status": "partial",
  "note": "Proved for all programs without views (C04_owners_safe). With views, proved for programs with a meaning in the abstract machine, i.e. no stale view and no overlapping in-place operation (C04_with_views_partial); m = m.row(i) frees the storage it then reads (C04_own_row_refuted)."
 },
 "C60": {
  "status": "partial",
  "note": "Decoding and the refusal of wrong headers are proved for all files. Rejection of short files is false of the code: a file cut after its first image is accepted with stale pixels (C60_cut_images_accepted, C60_cut_images_refuted), any other strict prefix makes the reader use indeterminate bytes (C60_short_*_undefined)."
 },
 "C61": {
  "status": "partial",
  "note": "Decoding is proved. has_data() stays false after every load (C61_has_data_never, C61_has_data_refuted) and no truncated file is rejected (C61_never_rejects, C61_cut_batch_accepted, C61_short_batch_undefined)."
 },
 "C09": {
  "status": "partial",
  "note": "False as stated for every matrix with a row and a column (C09_round_trip_undefined, C09_round_trip_refuted): the blank toFile writes after the last number of a line makes fromFile use an indeterminate value and return one more column. Proved: files without blanks at line ends (any blanks or commas between numbers) are read with one row per line and the values in order. Ragged files write outside the matrix; words that are no numerals make the loop endless. Float printing and strtof are parameters. The text converted for one number is the longest beginning of a numeral, and no other text is converted (C09_taken, C09_only_numerals)."
 },
 "C10": {
  "status": "partial",
  "note": "The values come in reading order, but r lines of c numbers give a c x r matrix (C10_values_partial, C10_rows_refuted), and a ragged text whose number of values is no multiple of the number of lines writes outside the result (C10_ragged_overflow, C10_ragged_refuted). Trailing blanks use an indeterminate value, words never end the loop. strtof is a parameter."
 },
 "C67": {
  "status": "partial",
  "note": "Proved for keys and strings without quotes, backslashes and control characters and numbers printing as JSON numbers; refuted otherwise: nothing is escaped, nan and inf are written as they print. The grammar is proved unambiguous."
 },
 "C71": {
  "status": "partial",
  "note": "One JSON object with settings and layers in order, for clean strings and finite numbers; constructor arguments listed are those of savedInts/savedFloats. A Dot layer is read through a cast to an unrelated class."
 },
 "C72": {
  "status": "partial",
  "note": "Same text implies same problem kind, settings and layers for the classes whose arguments are all written (savedFully); refuted for gated activations, zero padding and recurrent layers."
 },
 "C73": {
  "status": "partial",
  "note": "Success exactly when shapes fit, assertion otherwise, for all listed operations; copyInto has no check and writes past the buffer."
 },
 "C74": {
  "status": "partial",
  "note": "Dense, Dot, Bias, gated, convolution, channel bias, all losses, the self-checking optimisers, KMeans and replace; the pooling and padding layers read past a narrow batch."
 },
 "C68": {
  "status": "partial",
  "note": "False of the code with two threads (C68_best_refuted). Proved for schedules that do not interrupt new_epoch and for one thread; for any schedule, reported accuracies were measured and none measured above -1 exceeds all reported ones. Over the reals."
 },
 "C69": {
  "status": "partial",
  "note": "False of the code (C69_variation_refuted): the variation is written to the user's trainer after the thread copied it. With one thread it is used by the next repetition; in general optimiser and learning rate come from the user's trainer or from variations."
 },
 "C76": {
  "status": "partial",
  "note": "False with optimiser variations (C76_trainer_refuted), and the pair left may mix two variations (C76_mixed_refuted). Proved without optimiser variations."
 },
 "C77": {
  "status": "partial",
  "note": "False with two threads: C77_race_* give the races on the random engine, the trainer and the best accuracy. Proved for one thread."
 },
 "C79": {
  "status": "partial",
  "note": "False of the code (C79_no_callback_refuted): std::bad_function_call. A completed run without callback saw no accuracy above -1."
 },
 "C80": {
  "status": "partial",
  "note": "False for RandFlip and for eleven layer types (C80_type_refuted, C80_not_created). Proved for all other accepted names."
 },
 "C81": {
  "status": "partial",
  "note": "Proved when each name contains only its own one of train/test and of data/truth (any order, any directory otherwise). False otherwise: in a directory called latest the word test is found in the directory name (C81_directory_refuted)."
 },
 "C82": {
  "status": "partial",
  "note": "The flags and the returned value are proved for every load; equal numbers of samples and truths are not checked (C82_rows_refuted)."
 },
 "C83": {
  "status": "proved",
  "note": "Over the reals. Gradient: exact except at the corners of Relu and Selu; GEGLU's uses the GELU derivative with a decimal pi, whose error is bounded in C58_gelu_softsteps_close."
 },
 "C70": {
  "status": "partial",
  "note": "The literal statement is false (C70_gain_refuted: the weight gradient of LayerGain is no multiple of the derivative; see also C42 for Affine and GlobalGain). Proved for stacks of any depth: every weight and bias gradient of the layers given a scale in SpecGrad.v (Dense, Dot, Bias, Affine bias, GlobalBias, ChannelBias, PRelu, TimeDistributed, Conv2D, ...) is, up to an explicit positive constant, the derivative of the batch loss. The constant depends on the loss, the batch size, the output size and on convolutions further down. Left out: softmax/softmin, max pools, recurrent layers, GaussianDropout, RandomFlip, the categorical losses, class balancing and activation corners."
 },
 "C84": {
  "status": "partial",
  "note": "False in general (C84_gain_refuted: a LayerGain network with a sloped loss that SGD leaves as it is at every learning rate, because its stored gradient is wrong). Proved for networks of any depth made of the layers of C70 whose trained parameters have a correct gradient up to a positive constant, every smooth loss, and Step, SGD, Momentum, MomentumNg, Nesterov, AdaGrad, RMSProp, Adam, Nadam, Adamax, AMSGrad. Left out: AdamW (also shrinks weights), RPROP- and iRPROP- (ignore the learning rate), the categorical losses, regularisers, batches after the first."
 },
 "C85": {
  "status": "partial",
  "note": "False for one clause (C85_unknown_refuted: an unknown initialiser name is not rejected and leaves the layer without weights). Shapes, cells, bounds, gradients and the fresh states of networks and metrics are proved for all sizes and draws. Not modelled: the distribution of the draws, so nothing is said about the standard deviation of the normal initialisers."
 },
 "C86": {
  "status": "partial",
  "note": "False for both classes (C86_zero_gradient_refuted: a zero output gradient gives a non-zero weight gradient). C86_output_gradient_ignored shows why. C86_simplest_actual gives the exact result of a training step of SimplestRNN over the reals, including the assertion failure for a non-first layer whose batch size differs from its frame size; C86_simple_actual shows SimpleRNN never computes a gradient. The full statement has no true instance to prove beyond these."
 },
 "C87": {
  "status": "partial",
  "note": "The last clause is false (C87_unset_refuted: a new SGD optimiser keeps the learning rate -1 and moves up the gradient; C87_unset_parameters lists the rates of all classes). The restart and default clauses are proved for all fifteen classes."
 },
 "C88": {
  "status": "proved",
  "note": "Every hypothesis is a size, name or range condition on what the caller passes; the values are arbitrary. The classes and settings left out are those for which training can fail (MaxPool2D and GlobalMaxPool2D without input above -1e38, GaussianDropout batches, RandomFlip after another batch size, recurrent layers, patience roll-back onto deleted layers) and class balancing."
 },
 "C89": {
  "status": "proved",
  "note": "Under the assumption of the model that every float operation rounds to nearest even (no fused multiply-add, no excess precision). C89_bound_size gives the size of the bound: about 2(k+1)u relative to the sum of absolute products."
 },
 "C90": {
  "status": "proved",
  "note": "Arithmetic is exact (real numbers); the rounding of binary32 is not covered here, see C89 for its size. FitRun.v gives the general rule (an invariant kept by each epoch holds after fit) used for the proof."
 },
 "C91": {
  "status": "partial",
  "note": "Proved for every layer class admitted by C88 (SpecFit.fits), both at layer level (C91_layer_forward, C91_layer_backward) and for whole runs; recurrent layers refute the statement (C91_predict_refuted, C91_fit_refuted). Max pooling, random flip and Gaussian dropout are not covered, nor runs that roll back on patience."
 },
 "C92": {
  "status": "proved",
  "note": "Exact classification: the listed functions are those that return a NaN somewhere (C92_apply_refuted and C92_deriv_refuted give the inputs, e.g. SiLU' at -100, Mish' at 100, Gauss' at 3e38), all others never do. The C library is any one within stdLibm (ranges of expf, logf, tanhf ... and the special cases of C11 annex F); C92_library shows that a library rounding the real functions correctly is one, with tanh standing for erf. Every operation is taken in float; GELU and Mish' of the source evaluate a sub-expression in double."
 },
 "C93": {
  "status": "proved",
  "note": "Correctly rounded expf and logf (defined from the real functions in B32OfR.v) meet the hypotheses with eps = u + eta."
 },
 "C94": {
  "status": "proved",
  "note": "Every operation is taken in float, round to nearest even. The bounds 2^40 and 2^100 come from the proof: an accumulator of magnitude 2^k absorbs increments below 2^(k-25). C94_any_gradient_refuted shows that some bound is needed."
 },
 "C95": {
  "status": "proved",
  "note": "Patience is -1 and class balancing off (part of trainable, see C88). The C library enters through stdLibm and logUnit, met by a correctly rounded library (C95_case). The bound on the training loss is 2^30, that on the validation loss 2^54 because the code adds the means of the batches and does not divide by their number."
 },
 "C96": {
  "status": "proved",
  "note": "exact arithmetic; the probability floor 1e-8 of the code is part of the statement"
 },
 "C97": {
  "status": "partial",
  "note": "Proved for at most 671088 samples (2^24 / 25, up to which 100 times a count is a single-precision number), and up to 2^24 - 1 samples that the accuracy is finite and at most 100 + 1/80000. Refuted beyond: with 671089 samples, all classified rightly, less than 100 percent is reported, with 671091 more than 100; with 10000000 samples one more right answer can leave the accuracy unchanged."
 },
 "C98": {
  "status": "proved",
  "note": "C98_budget_kept is the general statement; C98_clipped and C98_hidden_layer exhibit budgets for two families of networks. Proved by an assume/guarantee rule for fit (NetRule1.v, NetRule2.v)."
 },
 "C99": {
  "status": "proved",
  "note": "C99_budget_kept is the general theorem; C99_linear, C99_hidden_layer and C99_clipped are instances that name no budget; C99_unclipped_refuted is the stated failure. The LogCosh loss is left out."
 },
 "C100": {
  "status": "proved",
  "note": "C100_no_random_layer, C100_one_batch, C100_random_layers and C100_predict hold for every arithmetic and also equate failures. Each call site has its own stream of draws: a copy consumes draws of the one generator of the library, so the equality of shuffles is a hypothesis. C100_shuffle_needed, C100_training_needed, C100_predict_flip_refuted and C100_predict_rnn_refuted show that the hypotheses are needed."
 },
 "C101": {
  "status": "partial",
  "note": "Callback: proved for all settings and failures. Validation data: proved for fits that succeed, with keep-best and patience off, over layer classes whose evaluation leaves the object unchanged (all but Bias, Gain, Affine, PRelu, PELU, TERELU, RandomFlip, convolution, recurrent). Refuted for SimplestRNN. The callback is modelled as reading only."
 },
 "C102": {
  "status": "partial",
  "note": "Proved over the reals for row-wise layer classes without random draws (not dropout, noise, convolution, pooling, padding, time-distributed or recurrent classes), patience and class balancing off. Refuted in single precision with a computed run (three samples, one Dense layer)."
 },
 "C103": {
  "status": "proved",
  "note": "The exact limits are part of the statement and shown by witnesses (momentum, keep-best, layers not yet sized)."
 },
 "C104": {
  "status": "proved",
  "note": "Convolution, max pooling, noise, dropout and recurrent layers are outside the quantifier. The limits (AdamW, Step, MeanAbsoluteError, L1, PELU, TERELU) are shown by computed witnesses."
 },
 "C105": {
  "status": "proved",
  "note": "The statement is exact: which network each entry describes, with the two natural readings refuted. Restricted to runs without keep-best (with it the network that fit leaves is another one) and, for the training entries, to full batches. Layers that behave differently in training (dropout, noise) are excluded since their training statistics are those of a noisy network."
 },
 "C106": {
  "status": "proved",
  "note": "Real arithmetic, full batch, layers whose gradients are means over the samples; C106_gain_case and C106_one_batch_needed show that these conditions are needed; the single precision version is refuted (C106_single_precision_refuted)."
 },
 "C107": {
  "status": "proved",
  "note": "Single precision, bit for bit; the two limits are shown to be needed (C107_nothing_above: access outside the row; C107_wide_refuted: gradient at the wrong cell). The backward pass of MaxPool2D is C47."
 },
 "C108": {
  "status": "proved",
  "note": "The learning-rate part is over the reals; C108_float_refuted shows it is false in single precision, where an infinite gradient times 0 is NaN. The part for the optimiser None is for every arithmetic. Convolution, max pooling, dropout, RRelu and recurrent layers are outside the quantifier. The exceptions are shown by computed witnesses."
 },
 "C109": {
  "status": "proved",
  "note": "Over the reals. The activation slope is the derivation function of the activation (related to the true derivative by C58). The limits are shown by computed witnesses (C109_moved_refuted, C109_deeper_refuted)."
 },
 "C110": {
  "status": "proved",
  "note": "For every arithmetic (FOps), no law of arithmetic is used. The two Dense layers must be separated by exactly one activation layer; a random layer between them (Dropout, noise) is outside the statement. The limit is shown by a computed witness (C110_outgoing_refuted)."
 },
 "C111": {
  "status": "proved",
  "note": "Over the reals; C111_order_float_refuted computes the single precision counterexample, C111_negative_refuted the one for negative factors."
 },
 "C112": {
  "status": "proved",
  "note": "The split layers must have sized parameters (a lazily sized Bias or Gain starts empty). C112_merge_float_refuted shows why the merges are stated over the reals."
 },
 "C113": {
  "status": "proved",
  "note": "Stated over the reals. C113_relu_refuted, C113_single_refuted and C113_softmax_float_refuted delimit it: not every activation, not one output, not single precision (given that expf(0) and expf(-2^-40) are both 1, as correct rounding gives)."
 }
}
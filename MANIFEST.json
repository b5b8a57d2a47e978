{
 "claims": [
  {
   "property": "C01",
   "status": "proved",
   "theorems": [
    "C01_every_matrix_is_generated",
    "C01_product_is_textbook_product",
    "C01_mismatch_gives_no_value"
   ],
   "note": ""
  },
  {
   "property": "C02",
   "status": "partial",
   "theorems": [
    "C02_in_place_product_partial",
    "C02_self_product_is_zero",
    "C02_self_product_is_zero_real",
    "C02_self_product_refuted",
    "C02_own_view_frees_refuted"
   ],
   "note": "Proved when the right operand is on another storage (views included). False of the code when they share storage: m *= m gives the zero matrix (C02_self_product_is_zero, C02_self_product_refuted), m *= (view of m) can read freed storage (C02_own_view_frees_refuted)."
  },
  {
   "property": "C03",
   "status": "partial",
   "theorems": [
    "C03_copy_independent",
    "C03_copy_not_shared",
    "C03_others_unaffected",
    "C03_view_is_window",
    "C03_write_through",
    "C03_fill_through",
    "C03_assign_through",
    "C03_assign_detaches",
    "C03_window_persists",
    "C03_window_shows",
    "C03_overlap_refuted"
   ],
   "note": "For every history that has a meaning in the abstract machine of SpecHeap.v (no stale view, no overlapping assignment). Assigning a view from an overlapping window of the same storage does not preserve the source values: C03_overlap_refuted."
  },
  {
   "property": "C04",
   "status": "partial",
   "theorems": [
    "C04_owners_safe",
    "C04_with_views_partial",
    "C04_own_row_refuted"
   ],
   "note": "Proved for all programs without views (C04_owners_safe). With views, proved for programs with a meaning in the abstract machine, i.e. no stale view and no overlapping in-place operation (C04_with_views_partial); m = m.row(i) frees the storage it then reads (C04_own_row_refuted)."
  },
  {
   "property": "C05",
   "status": "proved",
   "theorems": [
    "C05_argmax_in_range",
    "C05_argmax_is_first_maximum",
    "C05_argmax_float_no_nan",
    "C05_rowsArgmax_is_argmax_of_each_row"
   ],
   "note": ""
  },
  {
   "property": "C06",
   "status": "proved",
   "theorems": [
    "C06_rowWiseSum",
    "C06_rowWiseMean",
    "C06_rowWiseSumSq",
    "C06_colWiseSum",
    "C06_colWiseSumSq",
    "C06_colWiseMean",
    "C06_colWiseMin",
    "C06_colWiseMax",
    "C06_colWiseMin_needs_a_row"
   ],
   "note": ""
  },
  {
   "property": "C07",
   "status": "proved",
   "theorems": [
    "C07_rowWiseAdd",
    "C07_rowWiseMult",
    "C07_rowWiseDivide"
   ],
   "note": ""
  },
  {
   "property": "C08",
   "status": "proved",
   "theorems": [
    "C08_randPerm_is_a_permutation",
    "C08_shuffle_keeps_pairs"
   ],
   "note": ""
  },
  {
   "property": "C09",
   "status": "partial",
   "theorems": [
    "C09_round_trip_undefined",
    "C09_round_trip_refuted",
    "C09_read_partial",
    "C09_written_text",
    "C09_no_file",
    "C09_ragged_overflow",
    "C09_ragged_refuted",
    "C09_words_never_end",
    "C09_taken",
    "C09_only_numerals",
    "C09_cut_case"
   ],
   "note": "False as stated for every matrix with a row and a column (C09_round_trip_undefined, C09_round_trip_refuted): the blank toFile writes after the last number of a line makes fromFile use an indeterminate value and return one more column. Proved: files without blanks at line ends (any blanks or commas between numbers) are read with one row per line and the values in order. Ragged files write outside the matrix; words that are no numerals make the loop endless. Float printing and strtof are parameters. The text converted for one number is the longest beginning of a numeral, and no other text is converted (C09_taken, C09_only_numerals)."
  },
  {
   "property": "C10",
   "status": "partial",
   "theorems": [
    "C10_values_partial",
    "C10_rows_refuted",
    "C10_ragged_overflow",
    "C10_ragged_reshaped",
    "C10_ragged_refuted",
    "C10_trailing_blank",
    "C10_of_toString_undefined",
    "C10_words_never_end"
   ],
   "note": "The values come in reading order, but r lines of c numbers give a c x r matrix (C10_values_partial, C10_rows_refuted), and a ragged text whose number of values is no multiple of the number of lines writes outside the result (C10_ragged_overflow, C10_ragged_refuted). Trailing blanks use an indeterminate value, words never end the loop. strtof is a parameter."
  },
  {
   "property": "C11",
   "status": "partial",
   "theorems": [
    "C11_reverseData_refuted",
    "C11_reverseData_actual",
    "C11_reverseData_empty_out_of_bounds",
    "C11_reverseData_length_one_partial"
   ],
   "note": "The property is false of the code: C11_reverseData_refuted. C11_reverseData_actual says exactly what the function does for every buffer, and that an empty range writes out of bounds."
  },
  {
   "property": "C12",
   "status": "proved",
   "theorems": [
    "C12_transpose",
    "C12_transpose_involution",
    "C12_transpose_of_product",
    "C12_decimate",
    "C12_colExtract",
    "C12_clamp",
    "C12_diagonal",
    "C12_trace",
    "C12_asDiagonal",
    "C12_tanh_and_its_derivative"
   ],
   "note": ""
  },
  {
   "property": "C13",
   "status": "partial",
   "theorems": [
    "C13_channelWiseAdd",
    "C13_channelWiseMean_actual",
    "C13_channelWiseMean_refuted",
    "C13_channelWiseMean_one_pixel_partial"
   ],
   "note": "channelWiseAdd is proved. The mean half is false of the code: the result is the channel mean times (rows*cols)^2 (C13_channelWiseMean_actual, C13_channelWiseMean_refuted)."
  },
  {
   "property": "C14",
   "status": "proved",
   "theorems": [
    "C14_bernoulli_cells",
    "C14_bernoulli_bias"
   ],
   "note": ""
  },
  {
   "property": "C15",
   "status": "partial",
   "theorems": [
    "C15_batch_is_row_by_row_partial",
    "C15_rows_independent_partial",
    "C15_flip_refuted",
    "C15_rnn_refuted",
    "C15_no_layers"
   ],
   "note": "Proved bit-exactly for every stack of layers that draw no random numbers in inference mode (detNet in SpecNet.v covers every layer class except RandomFlip and the recurrent layers). Refuted for RandomFlip, which flips at random in inference mode, and for the recurrent layers, which draw new weights at each forward pass over several frames. A network without layers leaves the result matrix untouched."
  },
  {
   "property": "C16",
   "status": "partial",
   "theorems": [
    "C16_several_outputs",
    "C16_several_outputs_any_arithmetic",
    "C16_one_output_partial",
    "C16_one_output_range_refuted"
   ],
   "note": "Several outputs: first maximal column, in range. One output: the rounded output; it need not be a valid class (refuted with a Dense(1,1) network predicting class -3)."
  },
  {
   "property": "C17",
   "status": "partial",
   "theorems": [
    "C17_equal_partial",
    "C17_independent_partial",
    "C17_self_empties",
    "C17_self_refuted"
   ],
   "note": "Proved for assignment between different objects (deterministic layers, bit exact, including all later changes to either network). Self-assignment a = a is refuted: it deletes all layers."
  },
  {
   "property": "C18",
   "status": "proved",
   "theorems": [
    "C18_batches",
    "C18_batch_size"
   ],
   "note": "For every data set, batch size and shuffle: the batches are a cut of a permutation of the samples and each is trained with its own truths. The batch size in use is runBatch (0 or too large: the whole set)."
  },
  {
   "property": "C19",
   "status": "partial",
   "theorems": [
    "C19_histories_partial",
    "C19_validation_accuracy_refuted"
   ],
   "note": "Proved with the validation accuracy recorded whenever validation data is given, classifying or not; the 'iff both' half is false of the code (C19_validation_accuracy_refuted). keep-best off together with patience on a regression network is excluded (the network loses its layers, C23)."
  },
  {
   "property": "C20",
   "status": "partial",
   "theorems": [
    "C20_best_measured_partial",
    "C20_regression_refuted"
   ],
   "note": "Proved for the scores the trainer measures. Without validation data these are not scores of the network kept: keep-best can return a worse network than the initial one (C20_regression_refuted)."
  },
  {
   "property": "C21",
   "status": "partial",
   "theorems": [
    "C21_unchanged_partial",
    "C21_lazy_refuted",
    "C21_recurrent_refuted"
   ],
   "note": "Proved when keep-best is off or no layer is created or redrawn by a forward pass. False for lazily sized and recurrent layers with keep-best on (C21_lazy_refuted, C21_recurrent_refuted)."
  },
  {
   "property": "C22",
   "status": "partial",
   "theorems": [
    "C22_live_partial",
    "C22_rollback_frees",
    "C22_freed_is_used",
    "C22_patience_refuted"
   ],
   "note": "False of the code with patience: a roll-back frees the layers the trainer still points to and the next epoch uses them (C22_rollback_frees, C22_freed_is_used, C22_patience_refuted). Proved without patience (C22_live_partial)."
  },
  {
   "property": "C23",
   "status": "partial",
   "theorems": [
    "C23_layers_partial",
    "C23_no_layers_left_refuted"
   ],
   "note": "Proved when keep-best is on or patience off. False otherwise (C23_no_layers_left_refuted)."
  },
  {
   "property": "C24",
   "status": "proved",
   "theorems": [
    "C24_halving",
    "C24_halving_float"
   ],
   "note": "C24_halving over the reals, C24_halving_float in single precision, for runs that return (C22 tells when they touch freed memory) with a positive initial rate. Left out: a regression without keep-best whose loss never got below 1e10, which the first roll-back leaves without layers (C23)."
  },
  {
   "property": "C25",
   "status": "partial",
   "theorems": [
    "C25_registered_partial",
    "C25_paired",
    "C25_lazy_refuted",
    "C25_rnn_refuted"
   ],
   "note": "Proved for weights and biases that exist when fit starts, and the pairing with gradients and optimisers. Parameters created by the first forward pass and those of SimpleRNN are not registered (C25_lazy_refuted, C25_rnn_refuted)."
  },
  {
   "property": "C26",
   "status": "partial",
   "theorems": [
    "C26_period_partial",
    "C26_period_refuted"
   ],
   "note": "False of the code: the period is N+1 (C26_period_partial proves it for every run, C26_period_refuted)."
  },
  {
   "property": "C27",
   "status": "partial",
   "theorems": [
    "C27_accuracy",
    "C27_any_batch_size",
    "C27_range",
    "C27_loss_refuted"
   ],
   "note": "Accuracy half proved for deterministic networks, bit for bit in any arithmetic (range over the reals). The loss half is false: the result is the sum of the batch means (C27_loss_refuted)."
  },
  {
   "property": "C28",
   "status": "partial",
   "theorems": [
    "C28_labels_partial",
    "C28_categories_partial",
    "C28_absent_class_refuted"
   ],
   "note": "Proved over the reals when every class occurs; a class without samples gets an infinite weight (C28_absent_class_refuted)."
  },
  {
   "property": "C29",
   "status": "partial",
   "theorems": [
    "C29_assign_partial",
    "C29_validation_batch_refuted",
    "C29_rate_refuted"
   ],
   "note": "Every getter except the validation batch size (C29_validation_batch_refuted), when the optimiser's clone copies the learning rate (not RPROP-: C29_rate_refuted) and the regulariser was built by its own setter."
  },
  {
   "property": "C30",
   "status": "proved",
   "theorems": [
    "C30_coordinatewise",
    "C30_shape_kept"
   ],
   "note": ""
  },
  {
   "property": "C31",
   "status": "proved",
   "theorems": [
    "C31_none_never_moves",
    "C31_step_moves_by_lr",
    "C31_sgd_closed_form",
    "C31_momentum_closed_form",
    "C31_nesterov_recursion",
    "C31_momentumNg_recursion"
   ],
   "note": ""
  },
  {
   "property": "C32",
   "status": "proved",
   "theorems": [
    "C32_rprop_step_bounds"
   ],
   "note": ""
  },
  {
   "property": "C33",
   "status": "proved",
   "theorems": [
    "C33_adam_constant_gradient",
    "C33_second_moment_nonneg",
    "C33_first_step_at_most_lr",
    "C33_adagrad_steps_at_most_lr",
    "C33_denominators_never_decrease",
    "C33_nadam_first_step_refuted"
   ],
   "note": "beta1=0.9, beta2=0.999 are constants of the code. The first-step bound holds for Adam, Adamax and Adagrad; for Nadam it is false of the code (C33_nadam_first_step_refuted)."
  },
  {
   "property": "C34",
   "status": "partial",
   "theorems": [
    "C34_clone_same",
    "C34_irprop_clone_refuted"
   ],
   "note": "True for every optimiser but iRPROP-, whose clone is an RPROP- (C34_irprop_clone_refuted)."
  },
  {
   "property": "C35",
   "status": "proved",
   "theorems": [
    "C35_activations_listed",
    "C35_activations_complete",
    "C35_activations_unknown",
    "C35_activations_no_duplicates",
    "C35_losses_listed",
    "C35_losses_complete",
    "C35_losses_unknown",
    "C35_optimizers_listed",
    "C35_optimizers_complete",
    "C35_optimizers_unknown",
    "C35_regularizers_listed",
    "C35_regularizers_complete",
    "C35_regularizers_unknown"
   ],
   "note": ""
  },
  {
   "property": "C36",
   "status": "proved",
   "theorems": [
    "C36_gradient_clip",
    "C36_gradient_norm_clip",
    "C36_gradient_clip_tanh"
   ],
   "note": ""
  },
  {
   "property": "C37",
   "status": "proved",
   "theorems": [
    "C37_penalty_gradients",
    "C37_penalty_values",
    "C37_default_parameter",
    "C37_none_does_nothing"
   ],
   "note": ""
  },
  {
   "property": "C38",
   "status": "partial",
   "theorems": [
    "C38_regression_values",
    "C38_regression_gradient",
    "C38_absolute_subgradient",
    "C38_binary_cross_entropy_gradient",
    "C38_categorical_gradient_refuted",
    "C38_categorical_gradient_actual_partial",
    "C38_sparse_gradient_is_one_hot_gradient",
    "C38_sparse_loss_is_one_hot_loss"
   ],
   "note": "Proved for the regression losses and binary cross entropy. False for (sparse) categorical cross entropy as the derivative of the returned value: C38_categorical_gradient_refuted; what the code returns instead is C38_categorical_gradient_actual_partial."
  },
  {
   "property": "C39",
   "status": "proved",
   "theorems": [
    "C39_regression_nonneg_and_zero_iff_equal",
    "C39_cross_entropies_nonneg",
    "C39_integer_abs_overload_refuted"
   ],
   "note": "Over the reals, with the float overload of abs. If ::abs resolves to the integer overload (Matrix.h:421 without <cmath>'s global overloads) the zero-iff-equal half fails: C39_integer_abs_overload_refuted."
  },
  {
   "property": "C40",
   "status": "partial",
   "theorems": [
    "C40_balanced_gradient",
    "C40_balanced_loss_refuted",
    "C40_balanced_loss_actual_partial"
   ],
   "note": "Gradient half proved. The loss-value half is false of the code (C40_balanced_loss_refuted); C40_balanced_loss_actual_partial says what is returned."
  },
  {
   "property": "C41",
   "status": "proved",
   "theorems": [
    "C41_dense_forward",
    "C41_dot_forward",
    "C41_dense_gradients",
    "C41_dot_gradients"
   ],
   "note": "Forward closed forms hold over every scalar type (so bit-exactly for floats); gradients are over the reals."
  },
  {
   "property": "C42",
   "status": "partial",
   "theorems": [
    "C42_bias_gradients",
    "C42_gain_actual_partial",
    "C42_affine_actual_partial",
    "C42_globalbias_actual_partial",
    "C42_globalgain_actual_partial",
    "C42_globalaffine_actual_partial",
    "C42_channelbias_actual_partial",
    "C42_gain_refuted",
    "C42_affine_refuted",
    "C42_globalbias_refuted",
    "C42_globalgain_refuted",
    "C42_channelbias_refuted"
   ],
   "note": "True for Bias and for every input gradient. The weight gradient of Gain, Affine, GlobalGain and GlobalAffine is not a derivative (C42_gain_refuted, C42_affine_refuted, C42_globalgain_refuted); the bias gradient of GlobalBias, GlobalAffine and ChannelBias has another constant factor (1/(n*cols), rows*cols/n instead of 1/n). The _actual theorems say what each layer returns."
  },
  {
   "property": "C43",
   "status": "partial",
   "theorems": [
    "C43_prelu_gradients",
    "C43_crelu_gradient",
    "C43_rrelu_gradient",
    "C43_rrelu_inference",
    "C43_rrelu_inference_slope",
    "C43_pelu_actual_partial",
    "C43_pelu_keeps_weights_positive",
    "C43_terelu_actual_partial",
    "C43_pelu_refuted",
    "C43_terelu_refuted"
   ],
   "note": "True for PRelu, CRelu and RRelu and for the input gradients of PELU and TERELU. PELU and TERELU leave the output gradient out of their weight gradient: C43_pelu_refuted, C43_terelu_refuted; the _actual theorems say what is returned."
  },
  {
   "property": "C44",
   "status": "proved",
   "theorems": [
    "C44_softmax_probabilities",
    "C44_softmin_probabilities"
   ],
   "note": "Over the reals."
  },
  {
   "property": "C45",
   "status": "partial",
   "theorems": [
    "C45_softmax_true_gradient_partial",
    "C45_softmax_backward_actual_partial",
    "C45_softmax_backward_refuted",
    "C45_softmax_crossentropy_actual_partial",
    "C45_softmax_crossentropy_exact_partial"
   ],
   "note": "False of the code: only the diagonal of the softmax Jacobian is used (C45_softmax_backward_refuted). The actual result, the true gradient and the effect with categorical cross entropy are theorems."
  },
  {
   "property": "C46",
   "status": "partial",
   "theorems": [
    "C46_dropout_inference",
    "C46_gaussiandropout_inference",
    "C46_noise_inference",
    "C46_dropout_rate_zero",
    "C46_dropout_training",
    "C46_noise_training",
    "C46_gaussiandropout_one_row",
    "C46_gaussiandropout_many_rows"
   ],
   "note": "Proved for Dropout and the noise layers. GaussianDropout is the identity at inference, but in training every batch of more than one row trips an assertion (C46_gaussiandropout_many_rows): the mask has one row."
  },
  {
   "property": "C47",
   "status": "partial",
   "theorems": [
    "C47_maxpool_forward",
    "C47_maxpool_single_gradient_partial",
    "C47_maxpool_backward_actual_partial",
    "C47_maxpool_true_gradient",
    "C47_maxpool_refuted",
    "C47_maxpool_out_of_bounds_refuted"
   ],
   "note": "Forward half proved. The backward half is proved for one sample with one channel; in general every sample and channel is routed by the positions recorded for sample 0, channel 0 (C47_maxpool_backward_actual_partial, C47_maxpool_refuted), and a window whose cells are all <= -1e38 makes the backward pass write outside the buffer (C47_maxpool_out_of_bounds_refuted). Positions are stored as floats; the statements are over the reals, where that is exact."
  },
  {
   "property": "C48",
   "status": "proved",
   "theorems": [
    "C48_globalmax_forward",
    "C48_globalmax_backward",
    "C48_globalmax_gradient"
   ],
   "note": "Gradient where the maximum of each plane is unique and above -1e38."
  },
  {
   "property": "C49",
   "status": "proved",
   "theorems": [
    "C49_avgpool_forward",
    "C49_avgpool_gradient",
    "C49_globalavg_forward",
    "C49_globalavg_gradient"
   ],
   "note": ""
  },
  {
   "property": "C50",
   "status": "proved",
   "theorems": [
    "C50_pad_cells",
    "C50_pad_backward_cells",
    "C50_pad_roundtrip",
    "C50_pad_gradient"
   ],
   "note": ""
  },
  {
   "property": "C51",
   "status": "partial",
   "theorems": [
    "C51_im2col_paths",
    "C51_col2im_paths_real_partial",
    "C51_col2im_paths_disjoint_partial",
    "C51_col2im_paths_refuted"
   ],
   "note": "im2col: proved for every arithmetic. col2im: equal over the reals and, bit for bit, when windows do not overlap within an image row; false for binary32 in general (C51_col2im_paths_refuted), since the two paths add in opposite orders."
  },
  {
   "property": "C52",
   "status": "proved",
   "theorems": [
    "C52_windows_inside",
    "C52_conv_forward_float",
    "C52_conv_forward"
   ],
   "note": "For every shape whose output sizes are not negative. For strides above 2 the output size rule drops windows that would fit; the statement is about the windows the layer keeps."
  },
  {
   "property": "C53",
   "status": "proved",
   "theorems": [
    "C53_conv_gradients"
   ],
   "note": "Weight gradient with factor 1, input gradient with factor 1/(kernel cells * output channels)."
  },
  {
   "property": "C54",
   "status": "proved",
   "theorems": [
    "C54_dense_frames",
    "C54_dot_frames",
    "C54_bias_frames",
    "C54_dense_gradients",
    "C54_dot_gradients",
    "C54_bias_gradients"
   ],
   "note": "Gradients up to a constant: weights 1/n, biases 1/(n*frames)."
  },
  {
   "property": "C55",
   "status": "partial",
   "theorems": [
    "C55_last_frame_ignored_refuted",
    "C55_single_frame_refuted",
    "C55_weights_refuted",
    "C55_repeat_refuted",
    "C55_simplest_forward_partial",
    "C55_simple_batch_rejected",
    "C55_short_backward"
   ],
   "note": "False of the code: the last frame is never read, a single frame leaves the output untouched, every call on a sequence redraws the weights, SimplestRNN keeps its state between calls. C55_simplest_forward_partial says what SimplestRNN computes; SimpleRNN rejects batches of several rows."
  },
  {
   "property": "C56",
   "status": "partial",
   "theorems": [
    "C56_training_identity_actual",
    "C56_inference_actual_partial",
    "C56_flip_refuted",
    "C56_training_backward_refuted"
   ],
   "note": "False of the code: identity in training, flips at inference, and the flipped rows are not mirrored (C56_flip_refuted). C56_inference_actual_partial says what happens; in training the backward pass reads an empty matrix."
  },
  {
   "property": "C57",
   "status": "proved",
   "theorems": [
    "C57_gated_forward",
    "C57_gated_odd_width",
    "C57_gated_gradient",
    "C57_activation_gradient"
   ],
   "note": "For the 58 activations whose derivation is a derivative (see C58), away from their corners."
  },
  {
   "property": "C58",
   "status": "partial",
   "theorems": [
    "C58_derivation_is_derivative",
    "C58_differentiable_off_corners",
    "C58_corners_not_differentiable",
    "C58_gelu_softsteps_close",
    "C58_derivation_refuted",
    "C58_sqrbf_sinerelu_partial",
    "C58_sqrbf_actual",
    "C58_logit_actual",
    "C58_sinerelu_actual",
    "C58_tanhexp_actual"
   ],
   "note": "Proved, with the exact set of corners, for 58 of 64 activations. GELU and SoftSteps are right only up to their decimal approximations of pi (C58_gelu_softsteps_close). SQ-RBF, Logit, SineReLU and TanhExp return something else (C58_derivation_refuted and the _actual theorems)."
  },
  {
   "property": "C59",
   "status": "proved",
   "theorems": [
    "C59_ranges",
    "C59_monotone"
   ],
   "note": ""
  },
  {
   "property": "C60",
   "status": "partial",
   "theorems": [
    "C60_images",
    "C60_labels",
    "C60_wrong_magic",
    "C60_wrong_type",
    "C60_wrong_dimensions",
    "C60_no_file",
    "C60_short_labels_undefined",
    "C60_short_images_undefined",
    "C60_cut_images_accepted",
    "C60_cut_images_refuted",
    "C60_load",
    "C60_has_data",
    "C60_load_missing_file"
   ],
   "note": "Decoding and the refusal of wrong headers are proved for all files. Rejection of short files is false of the code: a file cut after its first image is accepted with stale pixels (C60_cut_images_accepted, C60_cut_images_refuted), any other strict prefix makes the reader use indeterminate bytes (C60_short_*_undefined)."
  },
  {
   "property": "C61",
   "status": "partial",
   "theorems": [
    "C61_load_partial",
    "C61_batch",
    "C61_has_data_never",
    "C61_has_data_refuted",
    "C61_never_rejects",
    "C61_short_batch_undefined",
    "C61_cut_batch_accepted",
    "C61_cut_batch_refuted",
    "C61_missing_file",
    "C61_no_file"
   ],
   "note": "Decoding is proved. has_data() stays false after every load (C61_has_data_never, C61_has_data_refuted) and no truncated file is rejected (C61_never_rejects, C61_cut_batch_accepted, C61_short_batch_undefined)."
  },
  {
   "property": "C62",
   "status": "partial",
   "theorems": [
    "C62_range_partial",
    "C62_order",
    "C62_constant_column",
    "C62_range_refuted",
    "C62_float_overflow_refuted",
    "C62_transform_formula",
    "C62_float_formula_fit",
    "C62_float_formula_transform",
    "C62_never_fails",
    "C62_wider_data_asserts"
   ],
   "note": "Holds for columns that are not constant; a constant column is left unchanged, so 5,5 stays 5,5 (C62_range_refuted), and in floats max-min may overflow and give NaN (C62_float_overflow_refuted)."
  },
  {
   "property": "C63",
   "status": "partial",
   "theorems": [
    "C63_normalises",
    "C63_formula",
    "C63_float_formula_fit",
    "C63_float_formula_transform",
    "C63_float_finite_refuted",
    "C63_empty_refuted"
   ],
   "note": "Mean 0, variance 1 proved over the reals. False in floats: the one-pass variance can come out negative, five times 1833 gives NaN (C63_float_finite_refuted); an empty set gives 0/0 (C63_empty_refuted)."
  },
  {
   "property": "C64",
   "status": "partial",
   "theorems": [
    "C64_counts_and_accuracy",
    "C64_rates_partial",
    "C64_guessed_class_count",
    "C64_any_arithmetic",
    "C64_label_in_range",
    "C64_label_exact",
    "C64_float_counts",
    "C64_out_of_range_refuted",
    "C64_absent_class_refuted"
   ],
   "note": "Counts, accuracy, row sums and balanced accuracy proved (the matrix in percent, float counts exact up to 2^24 per cell). False: an absent class gives a NaN balanced accuracy, and an out-of-range prediction is clamped and may count as correct."
  },
  {
   "property": "C65",
   "status": "partial",
   "theorems": [
    "C65_nearest_partial",
    "C65_nearest_float_partial",
    "C65_distance",
    "C65_far_sample_refuted",
    "C65_far_sample_asserts",
    "C65_no_references",
    "C65_accuracy"
   ],
   "note": "Proved for every loss when each sample has some reference closer than 1e38. A sample further than that from all references hits the assertion (C65_far_sample_refuted)."
  },
  {
   "property": "C66",
   "status": "proved",
   "theorems": [
    "C66_training",
    "C66_initial_references",
    "C66_no_samples"
   ],
   "note": "For every run of fit that returns, over the reals with integer labels; a run can stop early only at an assertion (sample at distance 1e38 or more) or with no samples (C66_no_samples)."
  },
  {
   "property": "C67",
   "status": "partial",
   "theorems": [
    "C67_written_partial",
    "C67_balanced",
    "C67_unambiguous",
    "C67_quote_refuted",
    "C67_backslash_refuted",
    "C67_nan_refuted",
    "C67_leave_twice"
   ],
   "note": "Proved for keys and strings without quotes, backslashes and control characters and numbers printing as JSON numbers; refuted otherwise: nothing is escaped, nan and inf are written as they print. The grammar is proved unambiguous."
  },
  {
   "property": "C68",
   "status": "partial",
   "theorems": [
    "C68_best_refuted",
    "C68_ordered_partial",
    "C68_one_thread",
    "C68_reported"
   ],
   "note": "False of the code with two threads (C68_best_refuted). Proved for schedules that do not interrupt new_epoch and for one thread; for any schedule, reported accuracies were measured and none measured above -1 exceeds all reported ones. Over the reals."
  },
  {
   "property": "C69",
   "status": "partial",
   "theorems": [
    "C69_variation_refuted",
    "C69_one_thread",
    "C69_settings"
   ],
   "note": "False of the code (C69_variation_refuted): the variation is written to the user's trainer after the thread copied it. With one thread it is used by the next repetition; in general optimiser and learning rate come from the user's trainer or from variations."
  },
  {
   "property": "C70",
   "status": "partial",
   "theorems": [
    "C70_gain_refuted",
    "C70_backprop_partial",
    "C70_batch_partial",
    "C70_set_net"
   ],
   "note": "The literal statement is false (C70_gain_refuted: the weight gradient of LayerGain is no multiple of the derivative; see also C42 for Affine and GlobalGain). Proved for stacks of any depth: every weight and bias gradient of the layers given a scale in SpecGrad.v (Dense, Dot, Bias, Affine bias, GlobalBias, ChannelBias, PRelu, TimeDistributed, Conv2D, ...) is, up to an explicit positive constant, the derivative of the batch loss. The constant depends on the loss, the batch size, the output size and on convolutions further down. Left out: softmax/softmin, max pools, recurrent layers, GaussianDropout, RandomFlip, the categorical losses, class balancing and activation corners."
  },
  {
   "property": "C71",
   "status": "partial",
   "theorems": [
    "C71_saved_partial",
    "C71_dot_refuted"
   ],
   "note": "One JSON object with settings and layers in order, for clean strings and finite numbers; constructor arguments listed are those of savedInts/savedFloats. A Dot layer is read through a cast to an unrelated class."
  },
  {
   "property": "C72",
   "status": "partial",
   "theorems": [
    "C72_same_file_partial",
    "C72_gated_refuted",
    "C72_zero_padding_refuted",
    "C72_rnn_refuted"
   ],
   "note": "Same text implies same problem kind, settings and layers for the classes whose arguments are all written (savedFully); refuted for gated activations, zero padding and recurrent layers."
  },
  {
   "property": "C73",
   "status": "partial",
   "theorems": [
    "C73_read_cell",
    "C73_read_flat",
    "C73_write_cell",
    "C73_write_flat",
    "C73_elementwise",
    "C73_product",
    "C73_row_views",
    "C73_reshape",
    "C73_broadcasts",
    "C73_argmax",
    "C73_row_permutation",
    "C73_channelwise",
    "C73_in_place",
    "C73_default",
    "C73_copyInto_refuted",
    "C73_copyInto_overflow"
   ],
   "note": "Success exactly when shapes fit, assertion otherwise, for all listed operations; copyInto has no check and writes past the buffer."
  },
  {
   "property": "C74",
   "status": "partial",
   "theorems": [
    "C74_dense",
    "C74_dot",
    "C74_bias",
    "C74_gated",
    "C74_convolution",
    "C74_convolution_gradients",
    "C74_convolution_sizes",
    "C74_channel_bias",
    "C74_loss",
    "C74_loss_gradient",
    "C74_optimizers",
    "C74_kmeans_distance",
    "C74_replace",
    "C74_pooling_refuted"
   ],
   "note": "Dense, Dot, Bias, gated, convolution, channel bias, all losses, the self-checking optimisers, KMeans and replace; the pooling and padding layers read past a narrow batch."
  },
  {
   "property": "C75",
   "status": "proved",
   "theorems": [
    "C75_objects",
    "C75_threads_disjoint"
   ],
   "note": ""
  },
  {
   "property": "C76",
   "status": "partial",
   "theorems": [
    "C76_trainer_refuted",
    "C76_mixed_refuted",
    "C76_no_variation_partial",
    "C76_after"
   ],
   "note": "False with optimiser variations (C76_trainer_refuted), and the pair left may mix two variations (C76_mixed_refuted). Proved without optimiser variations."
  },
  {
   "property": "C77",
   "status": "partial",
   "theorems": [
    "C77_race_refuted",
    "C77_race_random",
    "C77_race_trainer",
    "C77_race_best",
    "C77_one_thread_partial"
   ],
   "note": "False with two threads: C77_race_* give the races on the random engine, the trainer and the best accuracy. Proved for one thread."
  },
  {
   "property": "C78",
   "status": "proved",
   "theorems": [
    "C78_variant"
   ],
   "note": ""
  },
  {
   "property": "C79",
   "status": "partial",
   "theorems": [
    "C79_no_callback_refuted",
    "C79_no_callback_partial"
   ],
   "note": "False of the code (C79_no_callback_refuted): std::bad_function_call. A completed run without callback saw no accuracy above -1."
  },
  {
   "property": "C80",
   "status": "partial",
   "theorems": [
    "C80_type_refuted",
    "C80_not_created",
    "C80_type_partial",
    "C80_sizes",
    "C80_activation",
    "C80_unknown"
   ],
   "note": "False for RandFlip and for eleven layer types (C80_type_refuted, C80_not_created). Proved for all other accepted names."
  },
  {
   "property": "C81",
   "status": "partial",
   "theorems": [
    "C81_names_partial",
    "C81_one_file",
    "C81_directory_refuted",
    "C81_replace_last",
    "C81_replace_last_absent"
   ],
   "note": "Proved when each name contains only its own one of train/test and of data/truth (any order, any directory otherwise). False otherwise: in a directory called latest the word test is found in the directory name (C81_directory_refuted)."
  },
  {
   "property": "C82",
   "status": "partial",
   "theorems": [
    "C82_flags_partial",
    "C82_rows_refuted"
   ],
   "note": "The flags and the returned value are proved for every load; equal numbers of samples and truths are not checked (C82_rows_refuted)."
  },
  {
   "property": "C83",
   "status": "proved",
   "theorems": [
    "C83_formula",
    "C83_gradient",
    "C83_clone"
   ],
   "note": "Over the reals. Gradient: exact except at the corners of Relu and Selu; GEGLU's uses the GELU derivative with a decimal pi, whose error is bounded in C58_gelu_softsteps_close."
  },
  {
   "property": "C84",
   "status": "partial",
   "theorems": [
    "C84_gain_refuted",
    "C84_batch_partial",
    "C84_set_net"
   ],
   "note": "False in general (C84_gain_refuted: a LayerGain network with a sloped loss that SGD leaves as it is at every learning rate, because its stored gradient is wrong). Proved for networks of any depth made of the layers of C70 whose trained parameters have a correct gradient up to a positive constant, every smooth loss, and Step, SGD, Momentum, MomentumNg, Nesterov, AdaGrad, RMSProp, Adam, Nadam, Adamax, AMSGrad. Left out: AdamW (also shrinks weights), RPROP- and iRPROP- (ignore the learning rate), the categorical losses, regularisers, batches after the first."
  },
  {
   "property": "C85",
   "status": "partial",
   "theorems": [
    "C85_unknown_refuted",
    "C85_parameters",
    "C85_gradients",
    "C85_simple_rnn",
    "C85_simple_rnn_training",
    "C85_constructors_succeed",
    "C85_dense_bounds",
    "C85_convolution_bounds",
    "C85_network",
    "C85_metrics",
    "C85_trainer"
   ],
   "note": "False for one clause (C85_unknown_refuted: an unknown initialiser name is not rejected and leaves the layer without weights). Shapes, cells, bounds, gradients and the fresh states of networks and metrics are proved for all sizes and draws. Not modelled: the distribution of the draws, so nothing is said about the standard deviation of the normal initialisers."
  },
  {
   "property": "C86",
   "status": "partial",
   "theorems": [
    "C86_zero_gradient_refuted",
    "C86_output_gradient_ignored",
    "C86_simplest_actual",
    "C86_simple_actual"
   ],
   "note": "False for both classes (C86_zero_gradient_refuted: a zero output gradient gives a non-zero weight gradient). C86_output_gradient_ignored shows why. C86_simplest_actual gives the exact result of a training step of SimplestRNN over the reals, including the assertion failure for a non-first layer whose batch size differs from its frame size; C86_simple_actual shows SimpleRNN never computes a gradient. The full statement has no true instance to prove beyond these."
  },
  {
   "property": "C87",
   "status": "partial",
   "theorems": [
    "C87_unset_refuted",
    "C87_unset_actual",
    "C87_unset_parameters",
    "C87_restart",
    "C87_learning_rate_restart",
    "C87_defaults",
    "C87_given"
   ],
   "note": "The last clause is false (C87_unset_refuted: a new SGD optimiser keeps the learning rate -1 and moves up the gradient; C87_unset_parameters lists the rates of all classes). The restart and default clauses are proved for all fifteen classes."
  },
  {
   "property": "C88",
   "status": "proved",
   "theorems": [
    "C88_constructors",
    "C88_build",
    "C88_predict",
    "C88_fit",
    "C88_fit_again",
    "C88_default_trainer",
    "C88_end_to_end"
   ],
   "note": "Every hypothesis is a size, name or range condition on what the caller passes; the values are arbitrary. The classes and settings left out are those for which training can fail (MaxPool2D and GlobalMaxPool2D without input above -1e38, GaussianDropout batches, RandomFlip after another batch size, recurrent layers, patience roll-back onto deleted layers) and class balancing."
  },
  {
   "property": "C89",
   "status": "proved",
   "theorems": [
    "C89_product",
    "C89_bound_size",
    "C89_prediction"
   ],
   "note": "Under the assumption of the model that every float operation rounds to nearest even (no fused multiply-add, no excess precision). C89_bound_size gives the size of the bound: about 2(k+1)u relative to the sum of absolute products."
  },
  {
   "property": "C90",
   "status": "proved",
   "theorems": [
    "C90_fit_is_descent",
    "C90_loss_goes_down",
    "C90_loss_converges",
    "C90_descent_step",
    "C90_gradients_vanish",
    "C90_rate_sharp"
   ],
   "note": "Arithmetic is exact (real numbers); the rounding of binary32 is not covered here, see C89 for its size. FitRun.v gives the general rule (an invariant kept by each epoch holds after fit) used for the proof."
  },
  {
   "property": "C91",
   "status": "partial",
   "theorems": [
    "C91_fit",
    "C91_fit_as_new",
    "C91_fit_after_runs",
    "C91_predict",
    "C91_layer_forward",
    "C91_layer_backward",
    "C91_predict_refuted",
    "C91_fit_refuted"
   ],
   "note": "Proved for every layer class admitted by C88 (SpecFit.fits), both at layer level (C91_layer_forward, C91_layer_backward) and for whole runs; recurrent layers refute the statement (C91_predict_refuted, C91_fit_refuted). Max pooling, random flip and Gaussian dropout are not covered, nor runs that roll back on patience."
  },
  {
   "property": "C92",
   "status": "proved",
   "theorems": [
    "C92_apply",
    "C92_deriv",
    "C92_apply_refuted",
    "C92_deriv_refuted",
    "C92_ordinary",
    "C92_layer",
    "C92_layer_ordinary",
    "C92_library"
   ],
   "note": "Exact classification: the listed functions are those that return a NaN somewhere (C92_apply_refuted and C92_deriv_refuted give the inputs, e.g. SiLU' at -100, Mish' at 100, Gauss' at 3e38), all others never do. The C library is any one within stdLibm (ranges of expf, logf, tanhf ... and the special cases of C11 annex F); C92_library shows that a library rounding the real functions correctly is one, with tanh standing for erf. Every operation is taken in float; GELU and Mish' of the source evaluate a sub-expression in double."
  },
  {
   "property": "C93",
   "status": "proved",
   "theorems": [
    "C93_softmax",
    "C93_softmin",
    "C93_loss",
    "C93_head"
   ],
   "note": "Correctly rounded expf and logf (defined from the real functions in B32OfR.v) meet the hypotheses with eps = u + eta."
  },
  {
   "property": "C94",
   "status": "proved",
   "theorems": [
    "C94_bounded",
    "C94_overflow_freezes",
    "C94_any_gradient_refuted"
   ],
   "note": "Every operation is taken in float, round to nearest even. The bounds 2^40 and 2^100 come from the proof: an accumulator of magnitude 2^k absorbs increments below 2^(k-25). C94_any_gradient_refuted shows that some bound is needed."
  },
  {
   "property": "C95",
   "status": "proved",
   "theorems": [
    "C95_training_finite",
    "C95_empty_set_nan"
   ],
   "note": "Patience is -1 and class balancing off (part of trainable, see C88). The C library enters through stdLibm and logUnit, met by a correctly rounded library (C95_case). The bound on the training loss is 2^30, that on the validation loss 2^54 because the code adds the means of the batches and does not divide by their number."
  },
  {
   "property": "C96",
   "status": "proved",
   "theorems": [
    "C96_fit_is_descent",
    "C96_loss_goes_down",
    "C96_loss_converges",
    "C96_accuracy_reaches_100",
    "C96_score_gradient",
    "C96_descent_step",
    "C96_separable_learned"
   ],
   "note": "exact arithmetic; the probability floor 1e-8 of the code is part of the statement"
  },
  {
   "property": "C97",
   "status": "partial",
   "theorems": [
    "C97_accuracy",
    "C97_comparison",
    "C97_history",
    "C97_history_large",
    "C97_all_right_refuted",
    "C97_at_most_100_refuted",
    "C97_order_large_refuted"
   ],
   "note": "Proved for at most 671088 samples (2^24 / 25, up to which 100 times a count is a single-precision number), and up to 2^24 - 1 samples that the accuracy is finite and at most 100 + 1/80000. Refuted beyond: with 671089 samples, all classified rightly, less than 100 percent is reported, with 671091 more than 100; with 10000000 samples one more right answer can leave the accuracy unchanged."
  },
  {
   "property": "C98",
   "status": "proved",
   "theorems": [
    "C98_budget_kept",
    "C98_clipped",
    "C98_hidden_layer",
    "C98_large_weights_overflow"
   ],
   "note": "C98_budget_kept is the general statement; C98_clipped and C98_hidden_layer exhibit budgets for two families of networks. Proved by an assume/guarantee rule for fit (NetRule1.v, NetRule2.v)."
  },
  {
   "property": "C99",
   "status": "proved",
   "theorems": [
    "C99_budget_kept",
    "C99_linear",
    "C99_hidden_layer",
    "C99_clipped",
    "C99_unclipped_refuted"
   ],
   "note": "C99_budget_kept is the general theorem; C99_linear, C99_hidden_layer and C99_clipped are instances that name no budget; C99_unclipped_refuted is the stated failure. The LogCosh loss is left out."
  },
  {
   "property": "C100",
   "status": "proved",
   "theorems": [
    "C100_no_random_layer",
    "C100_one_batch",
    "C100_random_layers",
    "C100_predict",
    "C100_shuffle_needed",
    "C100_training_needed",
    "C100_predict_flip_refuted",
    "C100_predict_rnn_refuted"
   ],
   "note": "C100_no_random_layer, C100_one_batch, C100_random_layers and C100_predict hold for every arithmetic and also equate failures. Each call site has its own stream of draws: a copy consumes draws of the one generator of the library, so the equality of shuffles is a hypothesis. C100_shuffle_needed, C100_training_needed, C100_predict_flip_refuted and C100_predict_rnn_refuted show that the hypotheses are needed."
  },
  {
   "property": "C101",
   "status": "partial",
   "theorems": [
    "C101_callback",
    "C101_callback_case",
    "C101_no_validation",
    "C101_two_validation_sets",
    "C101_case",
    "C101_keep_best_needed",
    "C101_patience_needed",
    "C101_rnn_refuted"
   ],
   "note": "Callback: proved for all settings and failures. Validation data: proved for fits that succeed, with keep-best and patience off, over layer classes whose evaluation leaves the object unchanged (all but Bias, Gain, Affine, PRelu, PELU, TERELU, RandomFlip, convolution, recurrent). Refuted for SimplestRNN. The callback is modelled as reading only."
  },
  {
   "property": "C102",
   "status": "partial",
   "theorems": [
    "C102_order",
    "C102_case",
    "C102_any_arithmetic",
    "C102_run_case",
    "C102_one_batch_needed",
    "C102_single_precision_refuted"
   ],
   "note": "Proved over the reals for row-wise layer classes without random draws (not dropout, noise, convolution, pooling, padding, time-distributed or recurrent classes), patience and class balancing off. Refuted in single precision with a computed run (three samples, one Dense layer)."
  },
  {
   "property": "C103",
   "status": "proved",
   "theorems": [
    "C103_resume",
    "C103_case",
    "C103_run_case",
    "C103_run_values",
    "C103_momentum_refuted",
    "C103_keep_best_refuted",
    "C103_unsized_layer_refuted"
   ],
   "note": "The exact limits are part of the statement and shown by witnesses (momentum, keep-best, layers not yet sized)."
  },
  {
   "property": "C104",
   "status": "proved",
   "theorems": [
    "C104_fixed_point",
    "C104_case",
    "C104_run_case",
    "C104_adamw_refuted",
    "C104_step_refuted",
    "C104_absolute_loss_refuted",
    "C104_learned_activation_refuted"
   ],
   "note": "Convolution, max pooling, noise, dropout and recurrent layers are outside the quantifier. The limits (AdamW, Step, MeanAbsoluteError, L1, PELU, TERELU) are shown by computed witnesses."
  },
  {
   "property": "C105",
   "status": "proved",
   "theorems": [
    "C105_one_more_epoch",
    "C105_curves",
    "C105_case",
    "C105_runs_case",
    "C105_training_refuted",
    "C105_mean_refuted",
    "C105_batches_of_one_case"
   ],
   "note": "The statement is exact: which network each entry describes, with the two natural readings refuted. Restricted to runs without keep-best (with it the network that fit leaves is another one) and, for the training entries, to full batches. Layers that behave differently in training (dropout, noise) are excluded since their training statistics are those of a noisy network."
  },
  {
   "property": "C106",
   "status": "proved",
   "theorems": [
    "C106_repeated",
    "C106_copies",
    "C106_case",
    "C106_runs_case",
    "C106_one_batch_needed",
    "C106_gain_case",
    "C106_single_precision_refuted"
   ],
   "note": "Real arithmetic, full batch, layers whose gradients are means over the samples; C106_gain_case and C106_one_batch_needed show that these conditions are needed; the single precision version is refuted (C106_single_precision_refuted)."
  },
  {
   "property": "C107",
   "status": "proved",
   "theorems": [
    "C107_forward",
    "C107_gradient",
    "C107_unique",
    "C107_case",
    "C107_nothing_above",
    "C107_nan_case",
    "C107_wide_refuted",
    "C107_max_pool"
   ],
   "note": "Single precision, bit for bit; the two limits are shown to be needed (C107_nothing_above: access outside the row; C107_wide_refuted: gradient at the wrong cell). The backward pass of MaxPool2D is C47."
  },
  {
   "property": "C108",
   "status": "proved",
   "theorems": [
    "C108_zero_rate",
    "C108_case",
    "C108_none",
    "C108_none_case",
    "C108_run_case",
    "C108_moves_case",
    "C108_minus_one_case",
    "C108_others_refuted",
    "C108_pelu_refuted",
    "C108_float_refuted"
   ],
   "note": "The learning-rate part is over the reals; C108_float_refuted shows it is false in single precision, where an infinite gradient times 0 is NaN. The part for the optimiser None is for every arithmetic. Convolution, max pooling, dropout, RRelu and recurrent layers are outside the quantifier. The exceptions are shown by computed witnesses."
  },
  {
   "property": "C109",
   "status": "proved",
   "theorems": [
    "C109_unit_kept",
    "C109_relu_stays_dead",
    "C109_case",
    "C109_run_case",
    "C109_moved_refuted",
    "C109_deeper_refuted"
   ],
   "note": "Over the reals. The activation slope is the derivation function of the activation (related to the true derivative by C58). The limits are shown by computed witnesses (C109_moved_refuted, C109_deeper_refuted)."
  },
  {
   "property": "C110",
   "status": "proved",
   "theorems": [
    "C110_stay_equal",
    "C110_constant_layer",
    "C110_case",
    "C110_run_case",
    "C110_outgoing_refuted",
    "C110_one_unit",
    "C110_one_unit_case"
   ],
   "note": "For every arithmetic (FOps), no law of arithmetic is used. The two Dense layers must be separated by exactly one activation layer; a random layer between them (Dropout, noise) is outside the statement. The limit is shown by a computed witness (C110_outgoing_refuted)."
  },
  {
   "property": "C111",
   "status": "proved",
   "theorems": [
    "C111_same_predictions",
    "C111_any_activation",
    "C111_positive_factor",
    "C111_sign",
    "C111_case",
    "C111_negative_refuted",
    "C111_order_float_refuted"
   ],
   "note": "Over the reals; C111_order_float_refuted computes the single precision counterexample, C111_negative_refuted the one for negative factors."
  },
  {
   "property": "C112",
   "status": "proved",
   "theorems": [
    "C112_drop_idle",
    "C112_dense_split",
    "C112_affine_split",
    "C112_dense_merge",
    "C112_affine_merge",
    "C112_drop_case",
    "C112_split_case",
    "C112_merge_case",
    "C112_affine_case",
    "C112_merge_float_refuted"
   ],
   "note": "The split layers must have sized parameters (a lazily sized Bias or Gain starts empty). C112_merge_float_refuted shows why the merges are stated over the reals."
  },
  {
   "property": "C113",
   "status": "proved",
   "theorems": [
    "C113_same_classes",
    "C113_case",
    "C113_strict_iff",
    "C113_flat_changes",
    "C113_relu_refuted",
    "C113_single_refuted",
    "C113_softmax_float_refuted"
   ],
   "note": "Stated over the reals. C113_relu_refuted, C113_single_refuted and C113_softmax_float_refuted delimit it: not every activation, not one output, not single precision (given that expf(0) and expf(-2^-40) are both 1, as correct rounding gives)."
  }
 ]
}
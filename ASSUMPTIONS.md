# What Print Assumptions lists for each theorem

Generated by `tools/assume.py` from the `Print Assumptions` commands of the `P_*.v` files. All axioms are axioms of the standard library.

## No axioms (closed under the global context)

* `P_Act.v`: `C35_activations_listed`, `C35_activations_complete`, `C35_activations_unknown`, `C35_activations_no_duplicates`, `C35_losses_listed`, `C35_losses_complete`, `C35_losses_unknown`
* `P_Class.v`: `C113_relu_refuted`, `C113_single_refuted`
* `P_Csv.v`: `C81_names_partial`, `C81_one_file`, `C81_directory_refuted`, `C81_replace_last`, `C81_replace_last_absent`, `C82_flags_partial`, `C82_rows_refuted`
* `P_Data.v`: `C62_float_formula_fit`, `C62_float_formula_transform`, `C62_never_fails`, `C62_wider_data_asserts`, `C63_float_formula_fit`, `C63_float_formula_transform`, `C64_any_arithmetic`, `C65_far_sample_asserts`, `C65_no_references`, `C66_no_samples`
* `P_Dead.v`: `C109_run_case`, `C109_moved_refuted`, `C109_deeper_refuted`
* `P_Descent.v`: `C84_set_net`
* `P_Fit.v`: `C88_constructors`, `C88_build`, `C88_predict`, `C88_fit`, `C88_fit_again`, `C88_default_trainer`, `C88_end_to_end`
* `P_Fixed.v`: `C104_run_case`
* `P_Glu.v`: `C83_clone`
* `P_Guard.v`: `C73_read_cell`, `C73_read_flat`, `C73_write_cell`, `C73_write_flat`, `C73_elementwise`, `C73_product`, `C73_row_views`, `C73_reshape`, `C73_broadcasts`, `C73_argmax`, `C73_row_permutation`, `C73_channelwise`, `C73_in_place`, `C73_default`, `C73_copyInto_refuted`, `C73_copyInto_overflow`, `C74_dense`, `C74_dot`, `C74_bias`, `C74_gated`, `C74_convolution`, `C74_convolution_gradients`, `C74_convolution_sizes`, `C74_channel_bias`, `C74_loss`, `C74_loss_gradient`, `C74_optimizers`, `C74_kmeans_distance`, `C74_replace`, `C74_pooling_refuted`
* `P_Heap.v`: `C02_in_place_product_partial`, `C02_self_product_is_zero`, `C02_self_product_refuted`, `C02_own_view_frees_refuted`, `C03_copy_independent`, `C03_copy_not_shared`, `C03_others_unaffected`, `C03_view_is_window`, `C03_write_through`, `C03_fill_through`, `C03_assign_through`, `C03_assign_detaches`, `C03_window_persists`, `C03_window_shows`, `C03_overlap_refuted`, `C04_owners_safe`, `C04_with_views_partial`, `C04_own_row_refuted`
* `P_Image.v`: `C50_pad_cells`, `C50_pad_backward_cells`, `C50_pad_roundtrip`, `C51_im2col_paths`, `C51_col2im_paths_disjoint_partial`, `C52_windows_inside`, `C52_conv_forward_float`, `C55_last_frame_ignored_refuted`, `C55_single_frame_refuted`, `C55_weights_refuted`, `C55_repeat_refuted`, `C55_simplest_forward_partial`, `C55_simple_batch_rejected`, `C55_short_backward`, `C56_training_identity_actual`, `C56_flip_refuted`, `C56_training_backward_refuted`
* `P_Init.v`: `C85_unknown_refuted`, `C85_parameters`, `C85_gradients`, `C85_simple_rnn`, `C85_simple_rnn_training`, `C85_constructors_succeed`, `C85_network`, `C85_metrics`, `C85_trainer`
* `P_Json.v`: `C67_written_partial`, `C67_balanced`, `C67_unambiguous`, `C67_quote_refuted`, `C67_backslash_refuted`, `C67_nan_refuted`, `C67_leave_twice`, `C71_saved_partial`, `C71_dot_refuted`, `C72_same_file_partial`, `C72_gated_refuted`, `C72_zero_padding_refuted`, `C72_rnn_refuted`
* `P_Layer.v`: `C41_dense_forward`, `C41_dot_forward`, `C43_rrelu_inference`, `C46_dropout_inference`, `C46_gaussiandropout_inference`, `C46_noise_inference`, `C54_dense_frames`, `C54_dot_frames`, `C54_bias_frames`, `C57_gated_forward`, `C57_gated_odd_width`
* `P_Loss.v`: `C39_integer_abs_overload_refuted`, `C40_balanced_loss_refuted`
* `P_Matrix.v`: `C01_every_matrix_is_generated`, `C01_product_is_textbook_product`, `C01_mismatch_gives_no_value`, `C05_argmax_in_range`, `C05_rowsArgmax_is_argmax_of_each_row`, `C06_rowWiseSum`, `C06_rowWiseMean`, `C06_rowWiseSumSq`, `C06_colWiseSum`, `C06_colWiseSumSq`, `C06_colWiseMean`, `C06_colWiseMin_needs_a_row`, `C07_rowWiseAdd`, `C07_rowWiseMult`, `C07_rowWiseDivide`, `C08_randPerm_is_a_permutation`, `C08_shuffle_keeps_pairs`, `C11_reverseData_refuted`, `C11_reverseData_actual`, `C11_reverseData_empty_out_of_bounds`, `C11_reverseData_length_one_partial`, `C12_transpose`, `C12_transpose_involution`, `C12_decimate`, `C12_colExtract`, `C12_diagonal`, `C12_trace`, `C12_asDiagonal`, `C13_channelWiseAdd`, `C13_channelWiseMean_refuted`, `C14_bernoulli_cells`
* `P_Meta.v`: `C68_best_refuted`, `C69_variation_refuted`, `C69_one_thread`, `C69_settings`, `C75_objects`, `C75_threads_disjoint`, `C76_trainer_refuted`, `C76_mixed_refuted`, `C76_no_variation_partial`, `C76_after`, `C77_race_refuted`, `C77_race_random`, `C77_race_trainer`, `C77_race_best`, `C77_one_thread_partial`, `C78_variant`, `C79_no_callback_refuted`, `C80_type_refuted`, `C80_not_created`, `C80_type_partial`, `C80_sizes`, `C80_activation`, `C80_unknown`
* `P_Net.v`: `C15_flip_refuted`, `C15_rnn_refuted`, `C15_no_layers`, `C16_several_outputs_any_arithmetic`, `C16_one_output_partial`, `C16_one_output_range_refuted`, `C17_self_empties`, `C17_self_refuted`
* `P_Opt.v`: `C30_coordinatewise`, `C30_shape_kept`, `C34_clone_same`, `C35_optimizers_listed`, `C35_optimizers_complete`, `C35_optimizers_unknown`
* `P_Order.v`: `C102_any_arithmetic`, `C102_run_case`, `C102_one_batch_needed`
* `P_Reader.v`: `C60_images`, `C60_labels`, `C60_wrong_magic`, `C60_wrong_type`, `C60_wrong_dimensions`, `C60_no_file`, `C60_short_labels_undefined`, `C60_short_images_undefined`, `C60_cut_images_accepted`, `C60_cut_images_refuted`, `C60_load`, `C60_has_data`, `C60_load_missing_file`, `C61_load_partial`, `C61_batch`, `C61_has_data_never`, `C61_has_data_refuted`, `C61_never_rejects`, `C61_short_batch_undefined`, `C61_cut_batch_accepted`, `C61_cut_batch_refuted`, `C61_missing_file`, `C61_no_file`
* `P_Record.v`: `C105_runs_case`, `C105_training_refuted`, `C105_mean_refuted`, `C105_batches_of_one_case`
* `P_Regul.v`: `C35_regularizers_listed`, `C35_regularizers_complete`, `C35_regularizers_unknown`
* `P_Repeat.v`: `C106_copies`, `C106_runs_case`, `C106_one_batch_needed`, `C106_gain_case`
* `P_Restart.v`: `C87_restart`, `C87_learning_rate_restart`
* `P_Resume.v`: `C103_resume`, `C103_case`, `C103_run_case`, `C103_run_values`, `C103_momentum_refuted`, `C103_keep_best_refuted`, `C103_unsized_layer_refuted`
* `P_Rnn.v`: `C86_zero_gradient_refuted`, `C86_output_gradient_ignored`, `C86_simple_actual`
* `P_Seed.v`: `C100_no_random_layer`, `C100_one_batch`, `C100_random_layers`, `C100_predict`, `C100_shuffle_needed`, `C100_training_needed`, `C100_predict_flip_refuted`, `C100_predict_rnn_refuted`
* `P_Stale.v`: `C91_fit`, `C91_fit_as_new`, `C91_fit_after_runs`, `C91_predict`, `C91_layer_forward`, `C91_layer_backward`, `C91_predict_refuted`, `C91_fit_refuted`
* `P_Text.v`: `C09_round_trip_undefined`, `C09_round_trip_refuted`, `C09_read_partial`, `C09_written_text`, `C09_no_file`, `C09_ragged_overflow`, `C09_ragged_refuted`, `C09_words_never_end`, `C09_taken`, `C09_only_numerals`, `C09_cut_case`, `C10_values_partial`, `C10_rows_refuted`, `C10_ragged_overflow`, `C10_ragged_reshaped`, `C10_ragged_refuted`, `C10_trailing_blank`, `C10_of_toString_undefined`, `C10_words_never_end`
* `P_Train.v`: `C18_batches`, `C18_batch_size`, `C19_histories_partial`, `C19_validation_accuracy_refuted`, `C20_regression_refuted`, `C21_unchanged_partial`, `C21_lazy_refuted`, `C21_recurrent_refuted`, `C22_live_partial`, `C22_rollback_frees`, `C22_freed_is_used`, `C22_patience_refuted`, `C23_layers_partial`, `C23_no_layers_left_refuted`, `C25_registered_partial`, `C25_paired`, `C25_lazy_refuted`, `C25_rnn_refuted`, `C26_period_partial`, `C26_period_refuted`, `C27_loss_refuted`, `C29_assign_partial`, `C29_validation_batch_refuted`, `C29_rate_refuted`
* `P_Twin.v`: `C110_stay_equal`, `C110_constant_layer`, `C110_case`, `C110_run_case`, `C110_outgoing_refuted`
* `P_Watch.v`: `C101_callback`, `C101_callback_case`, `C101_no_validation`, `C101_two_validation_sets`, `C101_case`, `C101_keep_best_needed`, `C101_patience_needed`, `C101_rnn_refuted`
* `P_Zero.v`: `C108_none`, `C108_none_case`, `C108_run_case`, `C108_moves_case`, `C108_minus_one_case`, `C108_others_refuted`, `C108_pelu_refuted`

## `FunctionalExtensionality.functional_extensionality_dep`

* `P_Fixed.v`: `C104_adamw_refuted`, `C104_step_refuted`, `C104_absolute_loss_refuted`, `C104_learned_activation_refuted`
* `P_Fold.v`: `C112_drop_idle`, `C112_dense_split`, `C112_affine_split`
* `P_Net.v`: `C15_batch_is_row_by_row_partial`, `C15_rows_independent_partial`, `C17_equal_partial`, `C17_independent_partial`
* `P_Record.v`: `C105_one_more_epoch`, `C105_curves`, `C105_case`
* `P_Train.v`: `C27_accuracy`, `C27_any_batch_size`

## `ClassicalDedekindReals.sig_forall_dec`, `FunctionalExtensionality.functional_extensionality_dep`

* `P_Data.v`: `C64_label_in_range`, `C64_label_exact`
* `P_Linear.v`: `C90_descent_step`, `C90_gradients_vanish`, `C90_rate_sharp`
* `P_Matrix.v`: `C14_bernoulli_bias`
* `P_Round.v`: `C89_bound_size`

## `ClassicalDedekindReals.sig_forall_dec`, `ClassicalDedekindReals.sig_not_dec`, `Classical_Prop.classic`, `FunctionalExtensionality.functional_extensionality_dep`

* `P_Acc.v`: `C97_accuracy`, `C97_comparison`, `C97_history`, `C97_history_large`, `C97_all_right_refuted`, `C97_at_most_100_refuted`, `C97_order_large_refuted`
* `P_Act.v`: `C58_derivation_is_derivative`, `C58_differentiable_off_corners`, `C58_corners_not_differentiable`, `C58_gelu_softsteps_close`, `C58_derivation_refuted`, `C58_sqrbf_sinerelu_partial`, `C58_sqrbf_actual`, `C58_logit_actual`, `C58_sinerelu_actual`, `C58_tanhexp_actual`, `C59_ranges`, `C59_monotone`
* `P_Class.v`: `C113_same_classes`, `C113_case`, `C113_strict_iff`, `C113_flat_changes`, `C113_softmax_float_refuted`
* `P_Data.v`: `C62_range_partial`, `C62_order`, `C62_constant_column`, `C62_range_refuted`, `C62_float_overflow_refuted`, `C62_transform_formula`, `C63_normalises`, `C63_formula`, `C63_float_finite_refuted`, `C63_empty_refuted`, `C64_counts_and_accuracy`, `C64_rates_partial`, `C64_guessed_class_count`, `C64_float_counts`, `C64_out_of_range_refuted`, `C64_absent_class_refuted`, `C65_nearest_partial`, `C65_nearest_float_partial`, `C65_distance`, `C65_far_sample_refuted`, `C65_accuracy`, `C66_training`, `C66_initial_references`
* `P_Dead.v`: `C109_unit_kept`, `C109_relu_stays_dead`, `C109_case`
* `P_Descent.v`: `C84_gain_refuted`, `C84_batch_partial`
* `P_Finite.v`: `C95_training_finite`, `C95_empty_set_nan`
* `P_Fixed.v`: `C104_fixed_point`, `C104_case`
* `P_Fold.v`: `C112_dense_merge`, `C112_affine_merge`, `C112_drop_case`, `C112_split_case`, `C112_merge_case`, `C112_affine_case`, `C112_merge_float_refuted`
* `P_Glu.v`: `C83_formula`, `C83_gradient`
* `P_Grad.v`: `C70_gain_refuted`, `C70_backprop_partial`, `C70_batch_partial`, `C70_set_net`
* `P_Heap.v`: `C02_self_product_is_zero_real`
* `P_Image.v`: `C47_maxpool_forward`, `C47_maxpool_single_gradient_partial`, `C47_maxpool_backward_actual_partial`, `C47_maxpool_true_gradient`, `C47_maxpool_refuted`, `C47_maxpool_out_of_bounds_refuted`, `C48_globalmax_forward`, `C48_globalmax_backward`, `C48_globalmax_gradient`, `C49_avgpool_forward`, `C49_avgpool_gradient`, `C49_globalavg_forward`, `C49_globalavg_gradient`, `C50_pad_gradient`, `C51_col2im_paths_real_partial`, `C51_col2im_paths_refuted`, `C52_conv_forward`, `C53_conv_gradients`, `C56_inference_actual_partial`
* `P_Init.v`: `C85_dense_bounds`, `C85_convolution_bounds`
* `P_Layer.v`: `C41_dense_gradients`, `C41_dot_gradients`, `C42_bias_gradients`, `C42_gain_actual_partial`, `C42_affine_actual_partial`, `C42_globalbias_actual_partial`, `C42_globalgain_actual_partial`, `C42_globalaffine_actual_partial`, `C42_channelbias_actual_partial`, `C42_gain_refuted`, `C42_affine_refuted`, `C42_globalbias_refuted`, `C42_globalgain_refuted`, `C42_channelbias_refuted`, `C43_prelu_gradients`, `C43_crelu_gradient`, `C43_rrelu_gradient`, `C43_rrelu_inference_slope`, `C43_pelu_actual_partial`, `C43_pelu_keeps_weights_positive`, `C43_terelu_actual_partial`, `C43_pelu_refuted`, `C43_terelu_refuted`, `C44_softmax_probabilities`, `C44_softmin_probabilities`, `C45_softmax_true_gradient_partial`, `C45_softmax_backward_actual_partial`, `C45_softmax_backward_refuted`, `C45_softmax_crossentropy_actual_partial`, `C45_softmax_crossentropy_exact_partial`, `C46_dropout_rate_zero`, `C46_dropout_training`, `C46_noise_training`, `C46_gaussiandropout_one_row`, `C46_gaussiandropout_many_rows`, `C54_dense_gradients`, `C54_dot_gradients`, `C54_bias_gradients`, `C57_gated_gradient`, `C57_activation_gradient`
* `P_Linear.v`: `C90_fit_is_descent`, `C90_loss_goes_down`, `C90_loss_converges`
* `P_Logit.v`: `C96_fit_is_descent`, `C96_loss_goes_down`, `C96_loss_converges`, `C96_accuracy_reaches_100`, `C96_score_gradient`, `C96_descent_step`, `C96_separable_learned`
* `P_Loss.v`: `C38_regression_values`, `C38_regression_gradient`, `C38_absolute_subgradient`, `C38_binary_cross_entropy_gradient`, `C38_categorical_gradient_refuted`, `C38_categorical_gradient_actual_partial`, `C38_sparse_gradient_is_one_hot_gradient`, `C38_sparse_loss_is_one_hot_loss`, `C39_regression_nonneg_and_zero_iff_equal`, `C39_cross_entropies_nonneg`, `C40_balanced_gradient`, `C40_balanced_loss_actual_partial`
* `P_Matrix.v`: `C05_argmax_is_first_maximum`, `C05_argmax_float_no_nan`, `C06_colWiseMin`, `C06_colWiseMax`, `C12_transpose_of_product`, `C12_clamp`, `C12_tanh_and_its_derivative`, `C13_channelWiseMean_actual`, `C13_channelWiseMean_one_pixel_partial`
* `P_Meta.v`: `C68_ordered_partial`, `C68_one_thread`, `C68_reported`, `C79_no_callback_partial`
* `P_Mlp.v`: `C98_budget_kept`, `C98_clipped`, `C98_hidden_layer`, `C98_large_weights_overflow`
* `P_NaN.v`: `C92_apply`, `C92_deriv`, `C92_apply_refuted`, `C92_deriv_refuted`, `C92_ordinary`, `C92_layer`, `C92_layer_ordinary`, `C92_library`
* `P_Net.v`: `C16_several_outputs`
* `P_Opt.v`: `C31_none_never_moves`, `C31_step_moves_by_lr`, `C31_sgd_closed_form`, `C31_momentum_closed_form`, `C31_nesterov_recursion`, `C31_momentumNg_recursion`, `C32_rprop_step_bounds`, `C33_adam_constant_gradient`, `C33_second_moment_nonneg`, `C33_first_step_at_most_lr`, `C33_adagrad_steps_at_most_lr`, `C33_denominators_never_decrease`, `C33_nadam_first_step_refuted`, `C34_irprop_clone_refuted`
* `P_Order.v`: `C102_order`, `C102_case`, `C102_single_precision_refuted`
* `P_PoolF.v`: `C107_forward`, `C107_gradient`, `C107_unique`, `C107_case`, `C107_nothing_above`, `C107_nan_case`, `C107_wide_refuted`, `C107_max_pool`
* `P_Rate.v`: `C24_halving`, `C24_halving_float`
* `P_Regr.v`: `C99_budget_kept`, `C99_linear`, `C99_hidden_layer`, `C99_clipped`, `C99_unclipped_refuted`
* `P_Regul.v`: `C36_gradient_clip`, `C36_gradient_norm_clip`, `C36_gradient_clip_tanh`, `C37_penalty_gradients`, `C37_penalty_values`, `C37_default_parameter`, `C37_none_does_nothing`
* `P_Repeat.v`: `C106_repeated`, `C106_case`, `C106_single_precision_refuted`
* `P_Restart.v`: `C87_unset_refuted`, `C87_unset_actual`, `C87_unset_parameters`, `C87_defaults`, `C87_given`
* `P_Rnn.v`: `C86_simplest_actual`
* `P_Round.v`: `C89_product`, `C89_prediction`
* `P_Soft.v`: `C93_softmax`, `C93_softmin`, `C93_loss`, `C93_head`
* `P_Stay.v`: `C94_bounded`, `C94_overflow_freezes`, `C94_any_gradient_refuted`
* `P_Sym.v`: `C111_same_predictions`, `C111_any_activation`, `C111_positive_factor`, `C111_sign`, `C111_case`, `C111_negative_refuted`, `C111_order_float_refuted`
* `P_Train.v`: `C20_best_measured_partial`, `C27_range`, `C28_labels_partial`, `C28_categories_partial`, `C28_absent_class_refuted`
* `P_Twin.v`: `C110_one_unit`, `C110_one_unit_case`
* `P_Zero.v`: `C108_zero_rate`, `C108_case`, `C108_float_refuted`

{
 "claims": [
  {
   "property": "C01",
   "status": "proved",
   "theorems": [
    "c01_vec_constructor",
    "c01_invariant"
   ],
   "note": ""
  },
  {
   "property": "C02",
   "status": "proved",
   "theorems": [
    "c02_mat_constructor",
    "c02_all_rows_readable_refuted"
   ],
   "note": "The iff is proved for every matrix; c02_all_rows_readable_refuted is the concrete out-of-bounds row the iff predicts."
  },
  {
   "property": "C03",
   "status": "proved",
   "theorems": [
    "c03_cub_constructor",
    "c03_empty_first_sequence_refuted"
   ],
   "note": "Proved for cubes whose first sequence is non-empty; the refuted theorem shows what the code does for an empty first sequence (n*n phantom rows)."
  },
  {
   "property": "C04",
   "status": "proved",
   "theorems": [
    "c04_split",
    "c04_split_any_rounding",
    "c04_empty_part_loses_shape"
   ],
   "note": "The fraction is a rational; c04_split_any_rounding covers every floating-point rounding of the product. Requires at least one feature."
  },
  {
   "property": "C05",
   "status": "proved",
   "theorems": [
    "c05_subdata"
   ],
   "note": "For well-formed datasets with at least one feature."
  },
  {
   "property": "C06",
   "status": "proved",
   "theorems": [
    "c06_shuffle"
   ],
   "note": ""
  },
  {
   "property": "C07",
   "status": "proved",
   "theorems": [
    "c07_views",
    "c07_label_columns",
    "c07_column_datasets",
    "c07_sequence_views"
   ],
   "note": ""
  },
  {
   "property": "C08",
   "status": "proved",
   "theorems": [
    "c08_concatenate",
    "c08_empty_operand",
    "c08_throws"
   ],
   "note": "On the feature axis the code drops the label columns; the theorem states this."
  },
  {
   "property": "C09",
   "status": "proved",
   "theorems": [
    "c09_min_max_bounds",
    "c09_min_max_columns",
    "c09_empty_dataset_refuted"
   ],
   "note": "Over the reals; the refuted theorem is the out-of-range read on an empty dataset that has features."
  },
  {
   "property": "C10",
   "status": "proved",
   "theorems": [
    "c10_sequence_size"
   ],
   "note": ""
  },
  {
   "property": "C11",
   "status": "proved",
   "theorems": [
    "c11_dense_any_number_type",
    "c11_dense_forward"
   ],
   "note": ""
  },
  {
   "property": "C12",
   "status": "proved",
   "theorems": [
    "c12_dense_thread_opt"
   ],
   "note": "Any number type, every interleaving of single loads and stores; also absence of out-of-range accesses, progress and a bound on the number of accesses."
  },
  {
   "property": "C13",
   "status": "partial",
   "theorems": [
    "c13_parameter_gradients_partial",
    "c13_input_gradients_refuted",
    "c13_indivisible_increments"
   ],
   "note": "False of the code: the tasks race on the input gradients and lose updates. Weight and bias gradients are right in every interleaving; the input gradients are right with one output, or over the reals when no increment is split."
  },
  {
   "property": "C14",
   "status": "proved",
   "theorems": [
    "c14_dense_backward",
    "c14_repeated_calls_add_up"
   ],
   "note": "Over the reals; the gradient is characterised along every differentiable curve of inputs, weights and biases."
  },
  {
   "property": "C15",
   "status": "proved",
   "theorems": [
    "c15_softmax_distribution",
    "c15_softmax_shift_invariant",
    "c15_empty_vector"
   ],
   "note": "Over the reals."
  },
  {
   "property": "C16",
   "status": "proved",
   "theorems": [
    "c16_argmax",
    "c16_argmax_R"
   ],
   "note": ""
  },
  {
   "property": "C17",
   "status": "proved",
   "theorems": [
    "c17_output_side",
    "c17_large_kernel_wraps",
    "c17_large_kernel_rejected_refuted",
    "c17_zero_stride"
   ],
   "note": "The wrap-around is the behaviour the property describes; the refuted theorem is a concrete instance of it (side 2^63)."
  },
  {
   "property": "C18",
   "status": "proved",
   "theorems": [
    "c18_convolution_forward"
   ],
   "note": "Over the reals."
  },
  {
   "property": "C19",
   "status": "proved",
   "theorems": [
    "c19_max_pooling_forward",
    "c19_average_pooling_forward"
   ],
   "note": "Over the reals."
  },
  {
   "property": "C20",
   "status": "proved",
   "theorems": [
    "c20_append_places_block",
    "c20_extract_after_append",
    "c20_concatenate_places_elements",
    "c20_separate_inverts_concatenate",
    "c20_concatenateN_places_elements",
    "c20_separateN_inverts_concatenateN",
    "c20_bad_axis_throws"
   ],
   "note": ""
  },
  {
   "property": "C21",
   "status": "proved",
   "theorems": [
    "c21_activation_gradient",
    "c21_activation_values",
    "c21_elu_negative_alpha"
   ],
   "note": "Over the reals. ELU at 0 is included for alpha = 1. The last theorem shows why alpha >= 0 is needed."
  },
  {
   "property": "C22",
   "status": "proved",
   "theorems": [
    "c22_backpropagation",
    "c22_input_partials",
    "c22_weight_partials",
    "c22_bias_partials"
   ],
   "note": "Stacks of dense and the six activation layers, over the reals, at points where each layer is differentiable."
  },
  {
   "property": "C23",
   "status": "partial",
   "theorems": [
    "c23_avg_pool_backward_partial",
    "c23_avg_pool_backward_refuted",
    "c23_specified_gradient_is_the_derivative"
   ],
   "note": "False of the code: every window's top-left cell is skipped. The partial theorem gives the exact result for all inputs; the specified gradient is proved to be the derivative of the forward pass."
  },
  {
   "property": "C24",
   "status": "partial",
   "theorems": [
    "c24_max_pool_backward_actual",
    "c24_max_pool_backward_partial",
    "c24_max_pool_backward_refuted"
   ],
   "note": "False of the code: a window whose maximum is its own first cell sends its gradient to index 0. Exact behaviour proved for all inputs; property proved when no such window exists."
  },
  {
   "property": "C25",
   "status": "partial",
   "theorems": [
    "c25_conv_backward_partial",
    "c25_bias_used_refuted",
    "c25_bias_ignored",
    "c25_bias_gradient_accumulates_refuted"
   ],
   "note": "Input and weight gradients proved for all shapes; the bias half of the property is false of the code (never added in forward, gradient overwritten)."
  },
  {
   "property": "C26",
   "status": "partial",
   "theorems": [
    "c26_forward_partial",
    "c26_single_step_actual",
    "c26_single_step_forgets",
    "c26_backward_actual",
    "c26_reset",
    "c26_hidden_state",
    "c26_output_gradients_partial",
    "c26_factor_refuted",
    "c26_input_weight_gradient_refuted",
    "c26_input_gradient_refuted",
    "c26_hidden_weight_gradient_refuted",
    "c26_single_step_refuted"
   ],
   "note": "False of the code. Proved: the forward recurrence for two or more steps and the carried state; exact gradients for output weights and biases; the closed form of everything backward computes. Refuted: the input, input-weight and hidden-weight gradients (tanh_1 is applied to the activation; slot 0 holds the last state instead of the first) and the one-step recurrence (the old state is overwritten before it is read)."
  },
  {
   "property": "C27",
   "status": "partial",
   "theorems": [
    "c27_training_mask",
    "c27_scale",
    "c27_predict_actual",
    "c27_prediction_refuted"
   ],
   "note": "Training half proved: the mask, the scaling and the backward mask. Prediction half false of the code: inside a model the next layer receives the dropout layer's output buffer, which forward does not write."
  },
  {
   "property": "C28",
   "status": "partial",
   "theorems": [
    "c28_joins_refuted",
    "c28_one_input_refuted",
    "c28_first_call_actual",
    "c28_first_call_outside",
    "c28_second_call_throws"
   ],
   "note": "The property is false. The first call puts the input behind the largest extent instead of at 0 (outside the buffer if that extent is more than half of the total) and every second call throws."
  },
  {
   "property": "C29",
   "status": "proved",
   "theorems": [
    "c29_flat_index",
    "c29_built_layers"
   ],
   "note": "Any number type; any layer built by a constructor and any later input shapes."
  },
  {
   "property": "C30",
   "status": "proved",
   "theorems": [
    "c30_train_layer",
    "c30_train_from_to",
    "c30_train_model",
    "c30_train_again"
   ],
   "note": "The update holds for any number type; 'training again changes nothing' is over the reals."
  },
  {
   "property": "C31",
   "status": "partial",
   "theorems": [
    "c31_adam_actual",
    "c31_single_parameter_partial",
    "c31_independent_refuted"
   ],
   "note": "False of the code for every choice of hyper-parameters: _m, _v and _t are single scalars shared by all parameters. The exact behaviour is proved, and the property for layers with one parameter."
  },
  {
   "property": "C32",
   "status": "proved",
   "theorems": [
    "c32_cross_entropy_statistics",
    "c32_mean_squared_statistics",
    "c32_throw_keeps_statistics",
    "c32_throw_keeps_statistics_refuted"
   ],
   "note": "Over the reals, for vectors of the layer's input size; the refuted theorem shows that with longer vectors a throwing call changes the cumulative loss."
  },
  {
   "property": "C33",
   "status": "partial",
   "theorems": [
    "c33_cross_entropy_gradient",
    "c33_mean_squared_gradient_actual",
    "c33_mean_squared_gradient_partial",
    "c33_mean_squared_gradient_refuted",
    "c33_cross_entropy_below_bound"
   ],
   "note": "Cross entropy proved in full; for mean squared error the code returns n times the required gradient, so the property holds for one output and is refuted for two."
  },
  {
   "property": "C34",
   "status": "proved",
   "theorems": [
    "c34_schedule",
    "c34_built_models"
   ],
   "note": "All finite graphs, cycles and self loops included; the bound on the number of rounds is also proved."
  },
  {
   "property": "C35",
   "status": "partial",
   "theorems": [
    "c35_breadth_first",
    "c35_layered_partial",
    "c35_dependencies_refuted"
   ],
   "note": "False of the code for acyclic graphs with skip connections (refuted); what the code does (breadth-first order) is proved, and the property for graphs in which all paths to a layer have the same length."
  },
  {
   "property": "C36",
   "status": "proved",
   "theorems": [
    "c36_schedules",
    "c36_built",
    "c36_predict_composition",
    "c36_predict_after_any_calls",
    "c36_step",
    "c36_predict_value"
   ],
   "note": "c36_schedules: any building order whose arcs form a chain of at least two layers. c36_predict_composition: any layer type, exceptions included. c36_predict_after_any_calls: any number type; after any completed predict/step/reset history the result is the same. One-layer models are excluded because they get no input layer (see C37)."
  },
  {
   "property": "C37",
   "status": "partial",
   "theorems": [
    "c37_roles_partial",
    "c37_roles_actual",
    "c37_single_layer_refuted"
   ],
   "note": "False of the code for a model with one layer: it has no input and no output layer. Proved for every build sequence in which no layer is added after the last edge between layers. c37_roles_actual: for every build sequence the roles are those of the graph at the last edge between layers."
  },
  {
   "property": "C38",
   "status": "partial",
   "theorems": [
    "c38_same_graph",
    "c38_separate",
    "c38_independent",
    "c38_same_predictions",
    "c38_training_shared",
    "c38_same_roles_refuted"
   ],
   "note": "Shared parameters and independence proved for all graphs and histories (equal predictions: sequential networks). 'Same roles and schedules' is proved for models whose roles are those of their edges and refuted for a one-layer model, whose copy has roles the original lacks."
  },
  {
   "property": "C39",
   "status": "proved",
   "theorems": [
    "c39_sequential",
    "c39_batches_unique",
    "c39_batch_zero",
    "c39_no_data",
    "c39_network_batch_zero"
   ],
   "note": "fit_run makes exactly the calls reset, step for each row of the batch, train, for batches of batch_size rows in order, every epoch. With batch_size 0 and data the loop never ends (c39_batch_zero, c39_network_batch_zero)."
  },
  {
   "property": "C40",
   "status": "partial",
   "theorems": [
    "c40_entry_partial",
    "c40_batch_partial",
    "c40_schedule_refuted"
   ],
   "note": "The property is false: a task that starts after the main thread has trained with an earlier result sees changed parameters (c40_schedule_refuted). When in every round all tasks finish, in any order, before the first training, entry-parallel training equals sequential training with the same batch size and batch-parallel training equals sequential training with batch size concurrency*batch_size, over the reals, for chains of dense and activation layers with a loss. A task is executed in one piece here; C78 is about single accesses."
  },
  {
   "property": "C41",
   "status": "proved",
   "theorems": [
    "c41_predict",
    "c41_rows_independent",
    "c41_evaluate_mean_squared",
    "c41_evaluate_cross_entropy",
    "c41_evaluation_figures"
   ],
   "note": "Networks that are a chain of dense and activation layers, with or without a loss layer. predict passes whole rows, evaluate passes the columns of inputs(). The cross-entropy part needs every label row to have a non-zero entry, otherwise the loss throws."
  },
  {
   "property": "C42",
   "status": "proved",
   "theorems": [
    "c42_chain",
    "c42_input_not_first",
    "c42_builds",
    "c42_positions",
    "c42_loss",
    "c42_network"
   ],
   "note": "c42_chain: layer 2i is what descriptor i asks for, layer 2i+1 its activation, sizes match, the graph is the chain of 2n layers. c42_network links a list of dense descriptors to the networks of C36/C41. Without an Input descriptor the network takes 0 values. Allocation failure and overflow of height*width*channels are not modelled. A layer added after fit is linked behind the loss layer (c42_add_after_fit)."
  },
  {
   "property": "C43",
   "status": "partial",
   "theorems": [
    "c43_layer",
    "c43_layer_exact",
    "c43_model_file",
    "c43_wrong_class",
    "c43_elu_alpha_refuted",
    "c43_nonfinite_refuted",
    "c43_quote_refuted"
   ],
   "note": "Proved for all layer classes, sizes and finite numbers: with exact reading within 0.5e-6 and unchanged exactly for multiples of 1e-6 (c43_layer_exact), with any correct rounding on reading within 1e-6 (c43_layer); saving again gives the same document. c43_model_file: whole models through a file. Not restored: infinities and NaN (read as 0), the alpha of ELU layers (not saved), names with a double quote when going through a file."
  },
  {
   "property": "C44",
   "status": "partial",
   "theorems": [
    "c44_roundtrip_partial",
    "c44_equal",
    "c44_same",
    "c44_leaves",
    "c44_keys_sorted",
    "c44_empty_string_refuted",
    "c44_empty_containers_refuted"
   ],
   "note": "Proved for documents of any depth of the stated class, except that an empty string must not be the last of several list elements: it is printed without quotes and lost (c44_empty_string_refuted). Leaves made by the constructors, and dictionaries made by the map, are shown to be in the class; types come back too."
  },
  {
   "property": "C45",
   "status": "partial",
   "theorems": [
    "c45_truncated_refuted",
    "c45_stuck_refuted",
    "c45_empty_refuted",
    "c45_leaf_partial",
    "c45_printed_partial"
   ],
   "note": "False: every text that opens a list and has no closing bracket makes the reader call itself for ever; \"[}]\" loops for ever. Proved: texts that open no list or dictionary, and printed documents, end."
  },
  {
   "property": "C46",
   "status": "proved",
   "theorems": [
    "c46_none",
    "c46_bool",
    "c46_int",
    "c46_float",
    "c46_string",
    "c46_int_is_float_text",
    "c46_vector",
    "c46_print_int",
    "c46_print_int_value",
    "c46_print_bool"
   ],
   "note": ""
  },
  {
   "property": "C47",
   "status": "partial",
   "theorems": [
    "c47_vector",
    "c47_vector_columns",
    "c47_types",
    "c47_at_actual",
    "c47_at_partial",
    "c47_last_empty_refuted"
   ],
   "note": "The vector view is proved for all lines. Access by index is proved for every field except an empty last one, where it throws (c47_last_empty_refuted); c47_at_actual gives the outcome for all indices."
  },
  {
   "property": "C48",
   "status": "partial",
   "theorems": [
    "c48_requests_partial",
    "c48_lines",
    "c48_entries",
    "c48_one_row_refuted",
    "c48_no_row_refuted"
   ],
   "note": "Proved for files with at least two line ends. With one, row 1 depends on the history (c48_one_row_refuted); with none the remainder by zero is undefined (c48_no_row_refuted)."
  },
  {
   "property": "C49",
   "status": "partial",
   "theorems": [
    "c49_iterator",
    "c49_loop_actual",
    "c49_loop_refuted",
    "c49_single_line_refuted"
   ],
   "note": "Moving and dereferencing in any order is proved. The loop half is false: begin()..end() leaves out the last data row (c49_loop_refuted); c49_loop_actual says which rows are visited; with a single line end() lies before begin()."
  },
  {
   "property": "C50",
   "status": "partial",
   "theorems": [
    "c50_one_hot_actual",
    "c50_one_hot_partial",
    "c50_codes_distinct",
    "c50_one_one",
    "c50_default",
    "c50_one_hot_refuted"
   ],
   "note": "Holds when the label columns are the last ones (c50_one_hot_partial). For other positions the row layout is wrong and inputs are lost (c50_one_hot_refuted); c50_one_hot_actual says what comes out for every set of label columns. Feature size, label indices, one-hot shape and distinct codes hold for all positions."
  },
  {
   "property": "C51",
   "status": "partial",
   "theorems": [
    "c51_accepts_partial",
    "c51_not_opened",
    "c51_short_header_refuted",
    "c51_accesses",
    "c51_entry_shape",
    "c51_no_items",
    "c51_short_file"
   ],
   "note": "Accesses are proved as stated. Construction is proved for files with complete headers (and for files that cannot be opened); with fewer than four bytes an uninitialised number is compared (c51_short_header_refuted). Extra: zero announced items divide by zero; one access behind the end of a short file zeroes all later images."
  },
  {
   "property": "C52",
   "status": "proved",
   "theorems": [
    "c52_transposition",
    "c52_lossless",
    "c52_plain_order",
    "c52_accesses",
    "c52_format",
    "c52_label_names"
   ],
   "note": ""
  },
  {
   "property": "C53",
   "status": "partial",
   "theorems": [
    "c53_mnist",
    "c53_picture_size",
    "c53_cifar_actual",
    "c53_cifar_refuted"
   ],
   "note": "Proved for MNIST. False for CIFAR: the brightness formula multiplies green and blue, so bright pixels overflow the byte conversion (c53_cifar_refuted); c53_cifar_actual says exactly which images print."
  },
  {
   "property": "C54",
   "status": "proved",
   "theorems": [
    "c54_step_adds_the_gradient"
   ],
   "note": "Over real numbers. The factor is 1/batch size for the cross entropy and outputs/batch size for the mean squared error (see C33)."
  },
  {
   "property": "C55",
   "status": "proved",
   "theorems": [
    "c55_batch_is_gradient_descent"
   ],
   "note": "Over real numbers."
  },
  {
   "property": "C56",
   "status": "proved",
   "theorems": [
    "c56_fit_is_gradient_descent",
    "c56_fit_mean_squared_error"
   ],
   "note": "Over real numbers; c56_fit_is_gradient_descent asks that the networks met on the way are differentiable at the rows, c56_fit_mean_squared_error needs no such condition."
  },
  {
   "property": "C57",
   "status": "proved",
   "theorems": [
    "c57_init",
    "c57_convolution",
    "c57_recurrent_uniform",
    "c57_uniform_bound"
   ],
   "note": "The random engine and the normal distribution object are arbitrary functions. Convolutional and recurrent layers are covered by their own init functions (the convolution takes the whole input size as fan-in)."
  },
  {
   "property": "C58",
   "status": "partial",
   "theorems": [
    "c58_same_sequence_actual",
    "c58_independent_layers_refuted"
   ],
   "note": "False: the generator is passed by value, so every layer draws from the same start; layers with equal inputs and deviation get equal weights for every seed and engine. c58_same_sequence_actual states it for all models."
  },
  {
   "property": "C59",
   "status": "partial",
   "theorems": [
    "c59_rand_real",
    "c59_rand_integer_actual",
    "c59_rand_integer_refuted"
   ],
   "note": "Proved for real types. False for integer types when from+to is odd: from-1 can come out and to cannot; c59_rand_integer_actual gives the range."
  },
  {
   "property": "C60",
   "status": "proved",
   "theorems": [
    "c60_fit_forgets",
    "c60_second_fit",
    "c60_fit_mean_squared_error"
   ],
   "note": "c60_fit_forgets and c60_second_fit for any number type; c60_fit_mean_squared_error over the reals. Sequential training with gradient descent; rows of the network's sizes."
  },
  {
   "property": "C61",
   "status": "partial",
   "theorems": [
    "c61_second_fit_actual",
    "c61_second_fit_refuted"
   ],
   "note": "False: the loss layer is made by the first fit and keeps its 1/batch size. c61_second_fit_actual says what the second fit computes."
  },
  {
   "property": "C62",
   "status": "proved",
   "theorems": [
    "c62_errors",
    "c62_reports",
    "c62_backward_mirrors"
   ],
   "note": ""
  },
  {
   "property": "C63",
   "status": "partial",
   "theorems": [
    "c63_losses_partial",
    "c63_losses_refuted"
   ],
   "note": "False for a layer the graph already has: the index of the layer added last is registered instead, or the same loss twice. c63_losses_partial: true when every loss is a new layer, as Model::add_loss guarantees."
  },
  {
   "property": "C64",
   "status": "partial",
   "theorems": [
    "c64_assignment_actual",
    "c64_layers_actual",
    "c64_layers_refuted"
   ],
   "note": "The first part holds (c64_assignment_actual). False: after an assignment layers() are not the layers of the graph, so connecting them throws, until the next building call; c64_layers_actual says exactly when."
  },
  {
   "property": "C65",
   "status": "partial",
   "theorems": [
    "c65_compiled_is_static",
    "c65_uncompiled",
    "c65_failed_compile_actual",
    "c65_fit_needs_compile_refuted",
    "c65_failed_compile_refuted"
   ],
   "note": "The first part is proved for every static network. The rest is false: predict, input_size and output_size compile with default arguments, after which fit no longer throws (c65_fit_needs_compile_refuted; c65_uncompiled says exactly when); a compile that throws leaves a network made of the layers before the faulty one (c65_failed_compile_refuted, c65_failed_compile_actual)."
  },
  {
   "property": "C66",
   "status": "proved",
   "theorems": [
    "c66_built",
    "c66_end_to_end"
   ],
   "note": "Over real numbers for the second theorem. Smooth means every activation but ReLU. Initialised with any scheme for the normal distribution, as fit does."
  },
  {
   "property": "C67",
   "status": "partial",
   "theorems": [
    "c67_values",
    "c67_derivatives",
    "c67_corners",
    "c67_opt_partial",
    "c67_opt_refuted",
    "c67_arrays",
    "c67_softmax",
    "c67_softmax_check",
    "c67_softmax_over_refuted"
   ],
   "note": "Proved over the reals, with two exceptions: elu_1_opt is wrong for negative alpha (c67_opt_refuted), and softmax_1 is wrong when the result overwrites the gradients (c67_softmax_over_refuted). At the corners (relu at 0, elu at 0 with alpha other than 1) there is no derivative (c67_corners)."
  },
  {
   "property": "C68",
   "status": "proved",
   "theorems": [
    "c68_small_rate_descends",
    "c68_epoch_descends"
   ],
   "note": "Over real numbers, gradient descent, no gradient pending before. Differentiable means: no ReLU input at 0, predictions above the clamp of the cross entropy."
  },
  {
   "property": "C69",
   "status": "partial",
   "theorems": [
    "c69_predict",
    "c69_step_partial",
    "c69_step_bias_refuted",
    "c69_step_average_refuted"
   ],
   "note": "Prediction is proved for all such networks. The step is proved for the weights of all layers and the biases of dense layers in networks with max pooling (every window with one largest entry, which is not the window's first except in the first window). False for the biases of a convolution, which do not enter the prediction but get a gradient, written over the old one (c69_step_bias_refuted), and for any parameter before an average pooling (c69_step_average_refuted)."
  },
  {
   "property": "C70",
   "status": "partial",
   "theorems": [
    "c70_predict_actual",
    "c70_step_actual",
    "c70_target_actual",
    "c70_reported_refuted"
   ],
   "note": "False: only an empty target is reported. The actual theorems say for all networks and sizes what happens: a long input or a short target is read past a buffer; a short input is accepted by predict, which then reads the weight matrix with the wrong row length; no step succeeds with a wrong input size; of a long target the first entries count."
  },
  {
   "property": "C71",
   "status": "partial",
   "theorems": [
    "c71_batch_partial",
    "c71_bias_ignored",
    "c71_bias_refuted",
    "c71_fit_partial",
    "c71_fit_mean_squared_error_partial",
    "c71_small_rate_descends"
   ],
   "note": "Proved over the reals for all weights and the biases of dense layers. False for the biases of a convolution: training moves them (c71_bias_refuted) although no prediction depends on them (c71_bias_ignored). Average pooling is excluded (its gradients are wrong, C69)."
  },
  {
   "property": "C72",
   "status": "proved",
   "theorems": [
    "c72_refines",
    "c72_frame",
    "c72_assign_document",
    "c72_assign_place",
    "c72_append"
   ],
   "note": "c72_refines compares with documents that are plain values (JsonHeapSpec); the others say it for the statements alone. Subscripts by operator[] create missing keys even when the statement throws later, as in the code."
  },
  {
   "property": "C73",
   "status": "partial",
   "theorems": [
    "c73_step_refuted",
    "c73_step_partial",
    "c73_predict_branch",
    "c73_predict_value",
    "c73_built"
   ],
   "note": "Predictions are proved for every tree and, in c73_predict_branch, every kind of layer. The gradients are wrong when a layer above the branching has parameters (c73_step_refuted: the step adds 2, the derivative is 4), because a layer's backward overwrites its input gradient and the arc to the layer above runs once. c73_step_partial proves the claim for the networks in which only the first layer branches, with any number of heads; c73_built: which calls build them."
  },
  {
   "property": "C74",
   "status": "proved",
   "theorems": [
    "c74_built",
    "c74_compiled",
    "c74_end_to_end",
    "c74_mean_squared_error"
   ],
   "note": "Over the reals. c74_end_to_end covers both losses and all layer kinds; its condition (every network met can be trained on every row, as in C71) excludes average pooling, whose gradients are wrong (C69), and is removed in c74_mean_squared_error for convolutions and dense layers without ReLU. Nothing is claimed about the biases of convolutions, on which no prediction depends (C71)."
  },
  {
   "property": "C75",
   "status": "proved",
   "theorems": [
    "c75_softmax",
    "c75_activations",
    "c75_normalisation",
    "c75_mean_squared_statistics",
    "c75_cross_entropy_statistics",
    "c75_descent_direction"
   ],
   "note": "For every rounding function with the listed facts (RoundSpec.rounding) and every exp, log and tanh with the facts of RoundSpec.cmath; c75_hypotheses_met shows such a rounding with p binary digits for every p. Overflow and NaN are not in it. ELU's bound asks that alpha be representable and not negative; the cross entropy statistics ask for targets of at least 0 and predictions of at most 1."
  },
  {
   "property": "C76",
   "status": "proved",
   "theorems": [
    "c76_dense_error",
    "c76_predictions",
    "c76_training",
    "c76_training_smooth"
   ],
   "note": "fit is taken from given initial weights (the random draw is not rounded) and runs sequentially; the factor 1/batch of the loss is computed in the rounded arithmetic too. c76_training's condition (no_kinks) is about the exact run only, at the rows of each batch. Overflow, underflow and NaN are not in it: the relative error bound holds for all numbers."
  },
  {
   "property": "C77",
   "status": "partial",
   "theorems": [
    "c77_dense_thread_opt",
    "c77_dense_1_thread_opt_actual",
    "c77_dense_1_thread_opt_refuted",
    "c77_training_actual",
    "c77_training_refuted",
    "c77_entry_rounds",
    "c77_batch_rounds"
   ],
   "note": "False of the code. dense_thread_opt has no race. dense_1_thread_opt has one exactly when there are two outputs and an input, always on an input gradient. A training round has one exactly when the network has a parameter and a task other than the first has a row (for rounds whose steps succeed on the parameters at their start); fit has such a round exactly with batch_size >= 2 and two rows (entry), or with two threads and more than batch_size rows (batch). Races on other data of the main model are not considered: copying it reads its layers and graph, which train does not write."
  },
  {
   "property": "C78",
   "status": "proved",
   "theorems": [
    "c78_entry",
    "c78_batch",
    "c78_torn"
   ],
   "note": "Strengthens C40's partial theorems from whole tasks to single accesses; c78_torn shows that the condition cannot be dropped. The memory is sequentially consistent. In C++ a program with a race has undefined behaviour in all executions (C77); the theorem is about the accesses as written."
  },
  {
   "property": "C79",
   "status": "proved",
   "theorems": [
    "c79_values",
    "c79_vec",
    "c79_map",
    "c79_vec_text",
    "c79_map_text",
    "c79_doubles",
    "c79_outcome",
    "c79_every_text",
    "c79_one_way",
    "c79_flag",
    "c79_int_leaf",
    "c79_vec_outcome",
    "c79_map_outcome",
    "c79_string",
    "c79_same_readers",
    "c79_reported_refuted"
   ],
   "note": "std::to_string and the extraction of integers from a stream are modelled after the standard and libstdc++ (C locale). Doubles come back to six decimals only (c79_doubles, C43). c79_reported_refuted: that a failed conversion is reported is false; convert returns a flag, c79_flag says exactly when it is set, but JsonLeaf::as drops it. Conversion to float and JsonItem(float) are not modelled."
  },
  {
   "property": "C80",
   "status": "proved",
   "theorems": [
    "c80_least_squares",
    "c80_converges",
    "c80_end_to_end",
    "c80_large_rate_refuted"
   ],
   "note": "Over the reals. c80_least_squares gives the rate from any state of the network, c80_converges the limit, c80_end_to_end the same from the layer list through DynamicNeuralNetwork (Compile, Fit, Predict). Only one batch holding all rows (batch size at least the number of rows) is covered. c80_large_rate_refuted: without the bound on the rate the claim is false."
  },
  {
   "property": "C81",
   "status": "partial",
   "theorems": [
    "c81_single_path",
    "c81_others_ignored",
    "c81_contributes_refuted",
    "c81_bypassed_refuted",
    "c81_step_refuted"
   ],
   "note": "The first sentence is false. c81_contributes_refuted: a shortcut past one layer changes no prediction, whatever the layers. c81_bypassed_refuted: a shortcut past two layers makes the prediction skip them when a layer follows. c81_step_refuted: with two layers side by side a step gives the one without influence a non-zero gradient, and the layer before them twice the derivative. c81_single_path and c81_others_ignored prove the second part for every graph."
  },
  {
   "property": "C82",
   "status": "partial",
   "theorems": [
    "c82_new",
    "c82_call",
    "c82_like_new",
    "c82_runs",
    "c82_rec_use",
    "c82_conv_use",
    "c82_pool_use",
    "c82_drop_backward",
    "c82_dense_function",
    "c82_single_output",
    "c82_siblings",
    "c82_copy_dense",
    "c82_empty",
    "c82_concat_loops",
    "c82_returns_refuted",
    "c82_failure_keeps_refuted",
    "c82_weights_follow_refuted",
    "c82_copies_usable_refuted",
    "c82_mask_refuted"
   ],
   "note": "The first sentence is false in five ways, each with a witness: c82_weights_follow_refuted, c82_copies_usable_refuted, c82_returns_refuted, c82_failure_keeps_refuted, c82_mask_refuted. The second part is proved: c82_like_new (sizes after any sequence of calls), c82_runs, c82_rec_use, c82_conv_use, c82_pool_use (the layer then works; for convolutions and poolings the forward pass, over the reals), c82_dense_function (the exact function of the resized dense layer), c82_copy_dense (copies), c82_drop_backward (masks)."
  },
  {
   "property": "C83",
   "status": "partial",
   "theorems": [
    "c83_predict",
    "c83_pieces",
    "c83_reset",
    "c83_step_states",
    "c83_step_partial",
    "c83_repeat_refuted",
    "c83_single_refuted",
    "c83_step_hidden_refuted"
   ],
   "note": "c83_predict, c83_pieces, c83_reset, c83_step_states and c83_step_partial prove the part that is true, for two or more time steps. c83_step_partial lacks the gradients of the hidden weights and of everything in front of the last recurrent layer; c83_step_hidden_refuted shows that W_hh gets another number. c83_single_refuted: with one time step the cutting fails. c83_repeat_refuted: the same input twice gives two results."
  },
  {
   "property": "C84",
   "status": "partial",
   "theorems": [
    "c84_parse_default",
    "c84_parse_one_hot",
    "c84_mnist",
    "c84_cifar",
    "c84_csv_default",
    "c84_csv_one_hot",
    "c84_mnist_truncated",
    "c84_mnist_encoding_refuted",
    "c84_csv_blank_refuted",
    "c84_csv_last_line_refuted"
   ],
   "note": "c84_parse_default and c84_parse_one_hot are about every parser object whose rows can be read repeatedly; c84_mnist, c84_cifar, c84_csv_default and c84_csv_one_hot instantiate them with the file formats. c84_mnist_truncated gives the result for every image file that is too short, c84_mnist_encoding_refuted a file for which the encodings give different inputs. c84_csv_blank_refuted: an empty field is undefined; c84_csv_last_line_refuted: a line without line end is lost."
  },
  {
   "property": "C85",
   "status": "partial",
   "theorems": [
    "c85_returns",
    "c85_adds",
    "c85_any_grouping",
    "c85_thrown",
    "c85_single_atomic",
    "c85_retry",
    "c85_atomic_refuted",
    "c85_untrained_refuted"
   ],
   "note": "c85_any_grouping: two sequences of returning calls that name the same arcs give the same graph. c85_thrown: the exact graph after an exception; c85_atomic_refuted: it may have changed; c85_untrained_refuted: a program that catches the exception has a layer that is run and not trained; c85_retry: how to repair it."
  },
  {
   "property": "C86",
   "status": "partial",
   "theorems": [
    "c86_values",
    "c86_reading",
    "c86_all",
    "c86_row_assign_refuted",
    "c86_field_assign_refuted",
    "c86_copy_refuted",
    "c86_csv_assign_refuted"
   ],
   "note": "Rows and fields hold references to the column types of a CSV object. c86_values: programs that keep the rules named in the property read what they would read with values; c86_reading: all programs without assignment and destruction keep them; c86_all: the conversion of a file to rows gives its lines, with their numbers and columns. The four refutations are programs that do not."
  },
  {
   "property": "C87",
   "status": "partial",
   "theorems": [
    "c87_batch",
    "c87_fit",
    "c87_fit_mean_squared_error",
    "c87_step_bound",
    "c87_fit_bound",
    "c87_unused_gradient_descent",
    "c87_unused_input_refuted",
    "c87_forgets",
    "c87_second_fit",
    "c87_parallel_order",
    "c87_parallel_refuted"
   ],
   "note": "c87_fit and c87_batch: every parameter moves by the documented step for the sequence of all gradients visited so far by the optimizer; c87_fit_mean_squared_error: unconditional for the mean squared error and smooth activations. The refutations: a weight whose input is always zero is moved, and parallel training differs from sequential training. c87_parallel_order: any order of tasks, if all of a round finish before the first step."
  },
  {
   "property": "C88",
   "status": "partial",
   "theorems": [
    "c88_reads",
    "c88_numbers",
    "c88_leading",
    "c88_leading_refuted",
    "c88_string_refuted",
    "c88_nested_refuted",
    "c88_more_elements_refuted",
    "c88_dictionary_refuted",
    "c88_true_refuted",
    "c88_blanks_refuted"
   ],
   "note": "c88_reads gives the exact result with blanks around numbers and truth values, for documents of any depth; c88_numbers the values. c88_blanks_refuted: the claim for blanks in all places is false; the other refutations give one document for each place."
  },
  {
   "property": "C89",
   "status": "partial",
   "theorems": [
    "c89_softmax",
    "c89_sigmoid_tanh",
    "c89_backward",
    "c89_loss",
    "c89_gradient",
    "c89_stuck",
    "c89_gradient_refuted",
    "c89_plain_refuted",
    "c89_binary64"
   ],
   "note": "(1)-(5) are proved for every unit with the properties in the record ieee; c89_binary64 shows that rounding to nearest even with 53 digits has them. The two last sentences are refutations, c89_stuck gives the general case."
  },
  {
   "property": "C90",
   "status": "partial",
   "theorems": [
    "c90_batch",
    "c90_predict",
    "c90_stays",
    "c90_score",
    "c90_accuracy_refuted",
    "c90_adam_poison",
    "c90_adam_dead",
    "c90_overflow",
    "c90_adam_local_refuted"
   ],
   "note": "The first sentence is refuted; (1)-(5) are proved, (1)-(4) for any rounding at all, (5) for every unit with the properties in the record ieee."
  },
  {
   "property": "C91",
   "status": "proved",
   "theorems": [
    "c91_predict",
    "c91_decision",
    "c91_again",
    "c91_exact",
    "c91_refuted"
   ],
   "note": "c91_refuted proves the last sentence: no bound holds for all networks and inputs. c91_met and c91_decision_met give networks that meet the hypotheses. Predictions are over the reals; the drift does not count the rounding of the arithmetic (C75, C76)."
  },
  {
   "property": "C92",
   "status": "proved",
   "theorems": [
    "c92_predict",
    "c92_decision",
    "c92_perturbed",
    "c92_refuted"
   ],
   "note": "c92_refuted proves the last sentence. c92_met gives a network with a softmax layer, binary64 arithmetic and a bound of at most 10^-13 that decides its class; c92_perturbed_met a pair for (3). The arithmetic unit is any that meets ieee (FloatProofs) and accurate; binary64 is one with del = 0."
  },
  {
   "property": "C93",
   "status": "proved",
   "theorems": [
    "c93_predict",
    "c93_decision",
    "c93_exact",
    "c93_any_target"
   ],
   "note": "c93_predict proves (1) and (2), c93_decision (3), c93_exact (4), c93_any_target (5). c93_met gives two networks of different kernels, strides and sizes that meet the hypotheses, c93_decision_met the margin."
  },
  {
   "property": "C94",
   "status": "proved",
   "theorems": [
    "c94_predict",
    "c94_decision",
    "c94_perturbed",
    "c94_average_refuted"
   ],
   "note": "c94_predict proves the bound, c94_decision that classes agree, c94_perturbed the case of two networks, c94_average_refuted that the condition is needed. c94_met and c94_perturbed_met give binary64 networks that meet the hypotheses, with an error of at most 10^-12."
  },
  {
   "property": "C95",
   "status": "partial",
   "theorems": [
    "c95_names",
    "c95_distinct",
    "c95_fnn",
    "c95_load_refuted",
    "c95_given_refuted",
    "c95_prefix_refuted",
    "c95_threads",
    "c95_threads_refuted"
   ],
   "note": "c95_names proves the name of every object after every program, c95_distinct exactly when two names are equal, c95_fnn the names in the middleware, c95_threads the numbering. Uniqueness in general is false of the code: c95_load_refuted, c95_given_refuted, c95_prefix_refuted and c95_threads_refuted are the counterexamples, and c95_fnn shows that a named descriptor always makes two layers of one name."
  },
  {
   "property": "C96",
   "status": "partial",
   "theorems": [
    "c96_batch_partial",
    "c96_fit_partial",
    "c96_fit_mean_squared_error_partial",
    "c96_fit_bound",
    "c96_bias_refuted"
   ],
   "note": "c96_batch_partial and c96_fit_partial prove the Adam steps with the exact derivatives for all weights and dense biases; missing are the derivatives for the biases of convolutions, for which the statement is false of the code: c96_bias_refuted. c96_fit_mean_squared_error_partial needs nothing about the networks met on the way; c96_fit_bound is the bound per batch."
  },
  {
   "property": "C97",
   "status": "partial",
   "theorems": [
    "c97_any",
    "c97_saved",
    "c97_accepts",
    "c97_unchanged_refuted",
    "c97_longer_refuted"
   ],
   "note": "c97_saved says exactly which layers are taken over and which are kept, and when an exception is thrown; c97_accepts: success exactly for files beginning with the classes of the network; c97_any: arbitrary documents, and the agreement with load_model of C43. As stated the property is false: c97_unchanged_refuted (a failed load leaves layers of sizes that do not fit) and c97_longer_refuted (a longer file is accepted)."
  },
  {
   "property": "C98",
   "status": "partial",
   "theorems": [
    "c98_joins_refuted",
    "c98_once_refuted",
    "c98_gradient_zero"
   ],
   "note": "False of the code in every case, which the theorems state for all models: c98_joins_refuted (two connections), c98_once_refuted (at most one call of any program ends normally), c98_gradient_zero (the gradient handed back is zero)."
  },
  {
   "property": "C99",
   "status": "proved",
   "theorems": [
    "c99_predict",
    "c99_exact",
    "c99_again",
    "c99_target_refuted",
    "c99_saved_refuted"
   ],
   "note": "c99_predict: load succeeds, the sizes, the states kept, the bound over any number of calls after a reset; c99_exact: equality for six-decimal parameters and, without a reset, the exact outputs from the kept states; c99_again: the same file again; c99_target_refuted, c99_saved_refuted: without a reset the predictions differ. Real arithmetic, two or more time steps (one step: C83)."
  },
  {
   "property": "C100",
   "status": "proved",
   "theorems": [
    "c100_predict",
    "c100_stuck",
    "c100_reset",
    "c100_refuted"
   ],
   "note": "c100_predict: finite predictions and the bound for each of any number of calls, the first states between -1 and 1; c100_reset: the same after a reset, whatever the states were; c100_stuck: a NaN in a state stays for good; c100_refuted: without the overflow condition finite numbers give NaN in this and every later call, where the exact prediction is zero. Two or more time steps; the bound is computed from the parameters, not from the run."
  },
  {
   "property": "C101",
   "status": "proved",
   "theorems": [
    "c101_counts",
    "c101_mean",
    "c101_network",
    "c101_nan"
   ],
   "note": "c101_counts: the number of evaluations of every loss, in any model and for any number type; c101_mean: the figures of a model in which a step calls each loss once; c101_network: the figures in terms of the predictions and targets since the reset; c101_nan: 0/0 after a reset and without losses. The example c101_twice is a loss behind two layers, which counts every step twice. The example c101_predictions_count is a loss connected with create_edge, which predictions evaluate."
  }
 ]
}
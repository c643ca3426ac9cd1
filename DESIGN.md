# Formal model of EdgeLearning in Rocq

Source under study: `/repo` (C++17), read as text; nothing was built or run.
Everything lives in `/verif/rocq/theories`, Coq 8.16.1. The properties are in
`properties.jsonl`, their status and theorems in `MANIFEST.json`, the deliberate bugs the
theorems were tried against in `seeded/LOG.jsonl`.

## How the code is modelled

* **Memory.** A `std::vector`/pointer + length is a `list`. Every indexed read and
  write of the C++ code is a checked access in a small result monad
  (`Base.v`: `Ok v | Throw | UB`): an index outside the buffer gives `UB`, an
  exception gives `Throw`. Theorems that end in `= Ok …` therefore include memory
  safety; they do not assume it. In-place mutation becomes returning the new list.
* **Loops** `for (i = 0; i < n; ++i) body` are `for_ n body st` (structural on `n`).
  `while` loops whose termination is not structural use fuel, and running out of
  fuel is a separate outcome (never a normal-looking value).
* **Numbers.** `double` kernels are written once over a record of number operations
  (`NumOps T`, `TransOps T`, `LimOps T`), as the C++ code is written over a template type `T`.
  Statements about data movement and order of operations hold for any `T` with no
  algebraic law assumed (so also for IEEE doubles). Statements that need algebra or
  analysis take `T := R` (Coq's real numbers); there the model uses exact
  arithmetic and says nothing about rounding, overflow or NaN. `T := dbl` with `NumD a` are
  doubles with rounding, overflow, infinities, NaN and signed zeros for any unit `a` (C89, C90).
  Counter-examples use `Z`, `R` or `dbl`.
* **Sizes** are `nat`, without the 2^64 bound, except where the property is about the
  wrap-around (window output side, CSV row count); there the `mod 2^64` is explicit.
* **Objects with identity** (models, their copies, shared parameters) live in a `world`
  of cells (`CopyModel.v`).
* **Concurrency** is modelled as all interleavings of the tasks' atomic loads and
  stores (sequential consistency; a C++ data race would be undefined behaviour, which is
  worse than what the model shows).
* **Files and streams** are byte lists with a position and the `eofbit`/`failbit`
  flags of `std::istream` (`read`, `getline`, `ignore`, `seekg` per the standard,
  libstdc++ behaviour for a failed `getline`: string unchanged).
* **Random generators** are universally quantified arguments (any permutation, any mask,
  any engine with any start and next functions).

Each definition carries a comment with the file and lines it models and the
simplifications made.

## Layout

| files | content |
|-------|---------|
| `Base.v`, `Num.v`, `RSum.v` | result monad, checked lists, loops; number operations; finite sums |
| `ArrayModel/Spec/Proofs`, `PropArray` | strided copies of `dlmath.hpp` (C20, C29 part) |
| `DatasetModel/Spec/Proofs(2)`, `PropDataset` | `dataset.hpp` (C01–C10) |
| `MathModel/Proofs/ProofsR`, `PropMath` | numeric kernels of `dlmath.hpp` (C11, C15, C16) |
| `ConvModel/Spec/Proofs`, `ConvBwd`, `PropConv` | sliding windows, convolution, pooling (C17–C19, C23–C26) |
| `LayerModel`, `GradSpec/Proofs/Chain`, `PropGrad` | dense and activation layers, their derivatives (C14, C21, C22) |
| `OptModel/Proofs`, `PropOpt` | parameter indexing, gradient descent, Adam (C29–C31) |
| `LossModel/Spec/Proofs`, `PropLoss` | loss layers (C32, C33) |
| `Conc`, `ThreadModel/Proofs`, `PropThread` | interleavings; threaded kernels (C12, C13) |
| `GraphModel/Spec/Proofs`, `PropGraph` | layer graph and schedules (C34, C35) |
| `ModelModel`, `NodeModel`, `ChainProofs`, `ModelProofs`, `PropModel`, `PropDropout` | `Model::step`, `predict`, dropout (C36, C27) |
| `CopyModel`, `PropCopy` | copying models (C37, C38) |
| `FitModel`, `TrainProofs`, `ParProofs`, `PropFit`, `PropPar`, `PropStep` | training loops (C39, C40, C54–C56) |
| `FnnModel`, `PropFnn`, `BuilderModel`, `PropBuilder` | prediction, evaluation, network builder (C41, C42) |
| `ConcatModel`, `PropConcat`; `RecurrentModel/Proofs`, `PropRecurrent` | concatenate layer (C28), recurrent layer (C26) |
| `InitModel`, `PropInit`, `PropTraining` | initialisation, `rand`, `fit` (C57–C61) |
| `IdentityModel`, `PropIdentity` | layers as objects, the interface of `DLGraph`, assigning models (C62–C64) |
| `DynModel`, `PropDyn`, `PropWhole` | networks chosen at run time (C65), layer list to trained predictions (C66) |
| `DerivModel`, `PropDeriv`; `PropDescent` | derivative functions of `dlmath.hpp` (C67); a small step decreases the loss (C68) |
| `CnnModel`, `StepProofs`, `CnnSpec`, `CnnProofs`, `PropCnn` | convolutional networks as models (C69) |
| `PropSizes` | rows and targets of a wrong size (C70) |
| `PropCnnTrain` | training convolutional networks (C71) |
| `TypeModel`, `PropTypes`; `EncodingModel`, `PropEncoding` | field types (C46), label encodings (C50) |
| `StreamModel`, `CsvModel`, `PropCsv`; `ImageModel`, `PropImages` | CSV files (C47–C49), MNIST and CIFAR (C51–C53) |
| `JsonHeapModel`, `JsonHeapSpec`, `JsonHeapProofs`, `PropJsonHeap` | JSON items as pointers to shared objects; documents as values (C72) |
| `CnnNetModel`, `CnnNetProofs`, `PropCnnNet` | convolutional networks from their layer list (C74) |
| `TreeProofs`, `HeadsSpec`, `HeadsProofs`, `PropHeads` | models that branch and have several losses (C73) |
| `RoundModel`, `RoundSpec`, `RoundProofs`, `PropRound` | rounded arithmetic (C75) |
| `RaceModel`, `RaceProofs`, `PropRace`, `PropFine` | parallel training access by access; data races (C77, C78) |
| `LimitSpec`, `LimitProofs`, `LimitLayers`, `PropLimit` | limits as the precision grows (C76) |
| `PropMerge` | layers several connections lead to (C81) |
| `ShapeModel`, `PropShape` | setting the input shape of an existing layer (C82) |
| `ScoreModel`, `PropScore` | accuracy and average loss of a model (C101) |
| `PropRnnErr` | rounding error and NaN of recurrent networks computed with doubles (C100) |
| `RnnSaveModel`, `RnnDriftProofs`, `PropRnnSave` | recurrent networks saved and loaded (C99) |
| `ConcatNetModel`, `PropConcatNet` | models with concatenate layers (C98) |
| `LoadModel`, `PropPartLoad` | loading with the network as state: what an exception leaves behind (C97) |
| `PropCnnAdam` | fitting convolutional networks with Adam (C96) |
| `NameModel`, `PropNames` | automatic names of layers and models, the counter, threads (C95) |
| `PropCnnErr` | rounding error of convolutional networks computed with doubles (C94) |
| `CnnSaveModel`, `CnnDriftProofs`, `PropCnnSave` | saving and loading of convolutional networks, also into other sizes (C93) |
| `PropErr` | rounding errors of predictions in doubles (C92) |
| `SaveModel`, `DriftProofs`, `PropSave` | predictions after saving and loading (C91) |
| `FloatModel`, `FloatProofs`, `FloatIeee`, `PropFloat` | doubles with infinities, NaN and signed zeros, softmax and losses (C89) |
| `PropNan` | NaN and overflow in networks, scores and training (C90) |
| `PropJsonBlank` | blanks in JSON texts (C88) |
| `AdamProofs`, `AdamParModel`, `PropAdam`, `PropAdamFit`, `PropAdamPar` | training with Adam, sequential and parallel (C87) |
| `CsvObjModel`, `PropCsvObj` | CSV objects, rows and fields with their references; programs over them (C86) |
| `ConnectModel`, `ConnectProofs`, `PropConnect` | connecting several layers in one call, graphs after exceptions (C85, C37) |
| `ParseModel`, `ParseProofs`, `PropParse` | from files to datasets: `Dataset::parse` (C84) |
| `RnnModel`, `RnnProofs`, `PropRnn` | models with recurrent layers (C83) |
| `LeastSquares`, `PropRegression`, `PropRegressionFit` | training one dense layer: convergence to the least-squares fit (C80) |
| `JsonConvModel`, `PropJsonConv` | documents from values and back (C79) |
| `JsonModel`, `PropJson`; `DumpModel`, `PropDump` | JSON (C44, C45), saving and loading (C43) |

`*Model.v` hold only definitions, `*Spec.v` the words the statements are written in,
`*Proofs.v` lemmas; `Prop*.v` end with the property theorems, each followed by
`Print Assumptions` and by an example that meets its hypotheses.

## Trusted base

* Coq's kernel (8.16.1) with its virtual machine (`vm_compute` is used for examples and
  some refutations).
* The axioms `Print Assumptions` lists. All come from the standard library, through
  `Reals`: F = `ClassicalDedekindReals.sig_forall_dec`,
  N = `ClassicalDedekindReals.sig_not_dec`,
  E = `FunctionalExtensionality.functional_extensionality_dep`,
  C = `Classical_Prop.classic`. No axioms of our own, no other library.
* The hand-written reading of the C++ code: the model files with their citations, and
  the meaning given to the standard library functions the code calls (containers,
  streams, `std::max_element`, `std::to_string`, `std::regex`).

Axioms per theorem ("none" = closed under the global context):

| id | status | theorems by axioms used |
|----|--------|--------------------------|
| C01 | proved | none: `c01_vec_constructor`, `c01_invariant` |
| C02 | proved | none: `c02_mat_constructor`, `c02_all_rows_readable_refuted` |
| C03 | proved | none: `c03_cub_constructor`, `c03_empty_first_sequence_refuted` |
| C04 | proved | none: `c04_split`, `c04_split_any_rounding`, `c04_empty_part_loses_shape` |
| C05 | proved | none: `c05_subdata` |
| C06 | proved | none: `c06_shuffle` |
| C07 | proved | none: `c07_views`, `c07_label_columns`, `c07_column_datasets`, `c07_sequence_views` |
| C08 | proved | none: `c08_concatenate`, `c08_empty_operand`, `c08_throws` |
| C09 | proved | EF: `c09_min_max_bounds`, `c09_min_max_columns`, `c09_empty_dataset_refuted` |
| C10 | proved | none: `c10_sequence_size` |
| C11 | proved | none: `c11_dense_any_number_type`; EF: `c11_dense_forward` |
| C12 | proved | none: `c12_dense_thread_opt` |
| C13 | partial | none: `c13_parameter_gradients_partial`, `c13_input_gradients_refuted`; EF: `c13_indivisible_increments` |
| C14 | proved | CEFN: `c14_dense_backward`; EF: `c14_repeated_calls_add_up` |
| C15 | proved | CEFN: `c15_softmax_distribution`, `c15_softmax_shift_invariant`; none: `c15_empty_vector` |
| C16 | proved | none: `c16_argmax`; EF: `c16_argmax_R` |
| C17 | proved | none: `c17_output_side`, `c17_large_kernel_wraps`, `c17_large_kernel_rejected_refuted`, `c17_zero_stride` |
| C18 | proved | EF: `c18_convolution_forward` |
| C19 | proved | EF: `c19_max_pooling_forward`, `c19_average_pooling_forward` |
| C20 | proved | none: `c20_append_places_block`, `c20_extract_after_append`, `c20_concatenate_places_elements`, `c20_separate_inverts_concatenate`, `c20_concatenateN_places_elements`, `c20_separateN_inverts_concatenateN`, `c20_bad_axis_throws` |
| C21 | proved | CEFN: `c21_activation_gradient`, `c21_activation_values`, `c21_elu_negative_alpha` |
| C22 | proved | CEFN: `c22_backpropagation`, `c22_input_partials`, `c22_weight_partials`, `c22_bias_partials` |
| C23 | partial | EF: `c23_avg_pool_backward_partial`, `c23_avg_pool_backward_refuted`, `c23_specified_gradient_is_the_derivative` |
| C24 | partial | EF: `c24_max_pool_backward_actual`, `c24_max_pool_backward_partial`, `c24_max_pool_backward_refuted` |
| C25 | partial | EF: `c25_conv_backward_partial`, `c25_bias_used_refuted`, `c25_bias_gradient_accumulates_refuted`; none: `c25_bias_ignored` |
| C26 | partial | none: `c26_forward_partial`, `c26_single_step_actual`, `c26_single_step_forgets`, `c26_backward_actual`, `c26_reset`, `c26_hidden_state`; CEFN: `c26_output_gradients_partial`, `c26_factor_refuted`, `c26_input_weight_gradient_refuted`, `c26_input_gradient_refuted`, `c26_hidden_weight_gradient_refuted`, `c26_single_step_refuted` |
| C27 | partial | none: `c27_training_mask`, `c27_predict_actual`, `c27_prediction_refuted`; EF: `c27_scale` |
| C28 | partial | none: `c28_joins_refuted`, `c28_one_input_refuted`, `c28_first_call_actual`, `c28_first_call_outside`, `c28_second_call_throws` |
| C29 | proved | none: `c29_flat_index`, `c29_built_layers` |
| C30 | proved | none: `c30_train_layer`, `c30_train_from_to`, `c30_train_model`; EF: `c30_train_again` |
| C31 | partial | CEFN: `c31_adam_actual`, `c31_single_parameter_partial`, `c31_independent_refuted` |
| C32 | proved | CEFN: `c32_cross_entropy_statistics`, `c32_throw_keeps_statistics`, `c32_throw_keeps_statistics_refuted`; EF: `c32_mean_squared_statistics` |
| C33 | partial | CEFN: `c33_cross_entropy_gradient`, `c33_cross_entropy_below_bound`; EF: `c33_mean_squared_gradient_actual`, `c33_mean_squared_gradient_partial`, `c33_mean_squared_gradient_refuted` |
| C34 | proved | none: `c34_schedule`, `c34_built_models` |
| C35 | partial | none: `c35_breadth_first`, `c35_layered_partial`, `c35_dependencies_refuted` |
| C36 | proved | none: `c36_schedules`, `c36_built`, `c36_predict_composition`, `c36_predict_after_any_calls`, `c36_step`; CEFN: `c36_predict_value` |
| C37 | partial | none: `c37_roles_partial`, `c37_roles_actual`, `c37_single_layer_refuted` |
| C38 | partial | none: `c38_same_graph`, `c38_separate`, `c38_independent`, `c38_same_predictions`, `c38_training_shared`, `c38_same_roles_refuted` |
| C39 | proved | none: `c39_sequential`, `c39_batches_unique`, `c39_batch_zero`, `c39_no_data`, `c39_network_batch_zero` |
| C40 | partial | CEFN: `c40_entry_partial`, `c40_batch_partial`; none: `c40_schedule_refuted` |
| C41 | proved | none: `c41_predict`, `c41_rows_independent`; CEFN: `c41_evaluate_mean_squared`, `c41_evaluate_cross_entropy`; EF: `c41_evaluation_figures` |
| C42 | proved | none: `c42_chain`, `c42_input_not_first`, `c42_builds`, `c42_positions`, `c42_loss`, `c42_network` |
| C43 | partial | EF: `c43_layer`, `c43_layer_exact`, `c43_model_file`, `c43_wrong_class`, `c43_elu_alpha_refuted`, `c43_nonfinite_refuted`, `c43_quote_refuted` |
| C44 | partial | none: `c44_roundtrip_partial`, `c44_equal`, `c44_same`, `c44_leaves`, `c44_keys_sorted`, `c44_empty_string_refuted`, `c44_empty_containers_refuted` |
| C45 | partial | none: `c45_truncated_refuted`, `c45_stuck_refuted`, `c45_empty_refuted`, `c45_leaf_partial`, `c45_printed_partial` |
| C46 | proved | none: `c46_none`, `c46_bool`, `c46_int`, `c46_float`, `c46_string`, `c46_int_is_float_text`, `c46_vector`, `c46_print_int`, `c46_print_int_value`, `c46_print_bool` |
| C47 | partial | none: `c47_vector`, `c47_vector_columns`, `c47_types`, `c47_at_actual`, `c47_at_partial`, `c47_last_empty_refuted` |
| C48 | partial | none: `c48_requests_partial`, `c48_lines`, `c48_entries`, `c48_one_row_refuted`, `c48_no_row_refuted` |
| C49 | partial | none: `c49_iterator`, `c49_loop_actual`, `c49_loop_refuted`, `c49_single_line_refuted` |
| C50 | partial | none: `c50_one_hot_actual`, `c50_one_hot_partial`, `c50_codes_distinct`, `c50_one_one`, `c50_default`, `c50_one_hot_refuted` |
| C51 | partial | none: `c51_accepts_partial`, `c51_not_opened`, `c51_short_header_refuted`, `c51_accesses`, `c51_entry_shape`, `c51_no_items`, `c51_short_file` |
| C52 | proved | none: `c52_transposition`, `c52_lossless`, `c52_plain_order`, `c52_accesses`, `c52_format`, `c52_label_names` |
| C53 | partial | none: `c53_mnist`, `c53_picture_size`, `c53_cifar_actual`, `c53_cifar_refuted` |
| C54 | proved | CEFN: `c54_step_adds_the_gradient` |
| C55 | proved | CEFN: `c55_batch_is_gradient_descent` |
| C56 | proved | CEFN: `c56_fit_is_gradient_descent`, `c56_fit_mean_squared_error` |
| C57 | proved | none: `c57_init`, `c57_convolution`, `c57_recurrent_uniform`; EFN: `c57_uniform_bound` |
| C58 | partial | none: `c58_same_sequence_actual`, `c58_independent_layers_refuted` |
| C59 | partial | EF: `c59_rand_real`, `c59_rand_integer_actual`, `c59_rand_integer_refuted` |
| C60 | proved | none: `c60_fit_forgets`, `c60_second_fit`; CEFN: `c60_fit_mean_squared_error` |
| C61 | partial | none: `c61_second_fit_actual`; CEFN: `c61_second_fit_refuted` |
| C62 | proved | none: `c62_errors`, `c62_reports`, `c62_backward_mirrors` |
| C63 | partial | none: `c63_losses_partial`, `c63_losses_refuted` |
| C64 | partial | none: `c64_assignment_actual`, `c64_layers_actual`, `c64_layers_refuted` |
| C65 | partial | none: `c65_compiled_is_static`, `c65_uncompiled`, `c65_failed_compile_actual`, `c65_fit_needs_compile_refuted`, `c65_failed_compile_refuted` |
| C66 | proved | none: `c66_built`; CEFN: `c66_end_to_end` |
| C67 | partial | CEFN: `c67_values`, `c67_derivatives`, `c67_corners`, `c67_opt_partial`, `c67_opt_refuted`, `c67_softmax`, `c67_softmax_over_refuted`; none: `c67_arrays`, `c67_softmax_check` |
| C68 | proved | CEFN: `c68_small_rate_descends`, `c68_epoch_descends` |
| C69 | partial | CEFN: `c69_predict`, `c69_step_partial`, `c69_step_bias_refuted`, `c69_step_average_refuted` |
| C70 | partial | none: `c70_predict_actual`, `c70_step_actual`, `c70_target_actual`, `c70_reported_refuted` |
| C71 | partial | CEFN: `c71_batch_partial`, `c71_bias_ignored`, `c71_bias_refuted`, `c71_fit_partial`, `c71_fit_mean_squared_error_partial`, `c71_small_rate_descends` |
| C72 | proved | none: `c72_refines`, `c72_frame`, `c72_assign_document`, `c72_assign_place`, `c72_append` |
| C73 | partial | CEFN: `c73_step_refuted`, `c73_step_partial`, `c73_predict_value`; none: `c73_predict_branch`, `c73_built` |
| C74 | proved | CEFN: `c74_built`, `c74_compiled`, `c74_end_to_end`, `c74_mean_squared_error` |
| C75 | proved | EF: `c75_softmax`, `c75_activations`, `c75_normalisation`, `c75_mean_squared_statistics`, `c75_cross_entropy_statistics`, `c75_descent_direction` |
| C76 | proved | CEFN: `c76_dense_error`, `c76_predictions`, `c76_training`, `c76_training_smooth` |
| C77 | partial | none: `c77_dense_thread_opt`, `c77_dense_1_thread_opt_actual`, `c77_dense_1_thread_opt_refuted`, `c77_training_actual`, `c77_training_refuted`, `c77_entry_rounds`, `c77_batch_rounds` |
| C78 | proved | CEFN: `c78_entry`, `c78_batch`; none: `c78_torn` |
| C79 | proved | none: `c79_values`, `c79_vec`, `c79_map`, `c79_vec_text`, `c79_map_text`, `c79_outcome`, `c79_every_text`, `c79_one_way`, `c79_flag`, `c79_int_leaf`, `c79_vec_outcome`, `c79_map_outcome`, `c79_string`, `c79_same_readers`, `c79_reported_refuted`; EF: `c79_doubles` |
| C80 | proved | CEFN: `c80_least_squares`, `c80_converges`, `c80_end_to_end`, `c80_large_rate_refuted` |
| C81 | partial | CEFN: `c81_single_path`, `c81_others_ignored`, `c81_contributes_refuted`, `c81_bypassed_refuted`, `c81_step_refuted` |
| C82 | partial | none: `c82_new`, `c82_call`, `c82_like_new`, `c82_runs`, `c82_rec_use`, `c82_drop_backward`, `c82_siblings`, `c82_copy_dense`, `c82_empty`, `c82_concat_loops`, `c82_returns_refuted`, `c82_failure_keeps_refuted`; EF: `c82_conv_use`, `c82_pool_use`, `c82_copies_usable_refuted`, `c82_mask_refuted`; CEFN: `c82_dense_function`, `c82_single_output`, `c82_weights_follow_refuted` |
| C83 | partial | CEFN: `c83_predict`, `c83_pieces`, `c83_reset`, `c83_step_states`, `c83_step_partial`, `c83_repeat_refuted`, `c83_single_refuted`, `c83_step_hidden_refuted` |
| C84 | partial | none: `c84_parse_default`, `c84_parse_one_hot`, `c84_mnist`, `c84_cifar`, `c84_csv_default`, `c84_csv_one_hot`, `c84_mnist_truncated`, `c84_mnist_encoding_refuted`, `c84_csv_blank_refuted`, `c84_csv_last_line_refuted` |
| C85 | partial | none: `c85_returns`, `c85_adds`, `c85_any_grouping`, `c85_thrown`, `c85_single_atomic`, `c85_retry`, `c85_atomic_refuted`, `c85_untrained_refuted` |
| C86 | partial | none: `c86_values`, `c86_reading`, `c86_all`, `c86_row_assign_refuted`, `c86_field_assign_refuted`, `c86_copy_refuted`, `c86_csv_assign_refuted` |
| C87 | partial | CEFN: `c87_batch`, `c87_fit`, `c87_fit_mean_squared_error`, `c87_fit_bound`, `c87_unused_gradient_descent`, `c87_unused_input_refuted`, `c87_parallel_order`, `c87_parallel_refuted`; EFN: `c87_step_bound`; none: `c87_forgets`, `c87_second_fit` |
| C88 | partial | none: `c88_reads`, `c88_leading`, `c88_leading_refuted`, `c88_string_refuted`, `c88_nested_refuted`, `c88_more_elements_refuted`, `c88_dictionary_refuted`, `c88_true_refuted`, `c88_blanks_refuted`; EF: `c88_numbers` |
| C89 | partial | EFN: `c89_softmax`, `c89_sigmoid_tanh`, `c89_backward`, `c89_loss`, `c89_gradient`, `c89_stuck`; CEFN: `c89_gradient_refuted`, `c89_plain_refuted`, `c89_binary64` |
| C90 | partial | EFN: `c90_batch`, `c90_predict`, `c90_stays`, `c90_score`, `c90_accuracy_refuted`, `c90_adam_poison`, `c90_adam_dead`, `c90_overflow`, `c90_adam_local_refuted` |
| C91 | proved | CEFN: `c91_predict`, `c91_decision`, `c91_exact`, `c91_refuted`; EF: `c91_again` |
| C92 | proved | CEFN: `c92_predict`, `c92_decision`, `c92_perturbed`, `c92_refuted` |
| C93 | proved | CEFN: `c93_predict`, `c93_decision`, `c93_exact`, `c93_any_target` |
| C94 | proved | CEFN: `c94_predict`, `c94_decision`, `c94_perturbed`, `c94_average_refuted` |
| C95 | partial | none: `c95_names`, `c95_distinct`, `c95_fnn`, `c95_load_refuted`, `c95_given_refuted`, `c95_prefix_refuted`, `c95_threads`, `c95_threads_refuted` |
| C96 | partial | CEFN: `c96_batch_partial`, `c96_fit_partial`, `c96_fit_mean_squared_error_partial`, `c96_fit_bound`, `c96_bias_refuted` |
| C97 | partial | EF: `c97_any`, `c97_saved`, `c97_accepts`, `c97_unchanged_refuted`, `c97_longer_refuted` |
| C98 | partial | none: `c98_joins_refuted`, `c98_once_refuted`, `c98_gradient_zero` |
| C99 | proved | CEFN: `c99_predict`, `c99_exact`, `c99_target_refuted`, `c99_saved_refuted`; EF: `c99_again` |
| C100 | proved | CEFN: `c100_predict`, `c100_reset`, `c100_refuted`; EFN: `c100_stuck` |
| C101 | proved | none: `c101_counts`; CEFN: `c101_mean`, `c101_network`; EF: `c101_nan` |

## What is modelled, what is not

Modelled, function by function: `data/dataset.hpp`; `dnn/dlmath.hpp` except as listed
below; `dnn/layer.cpp`, `feedforward.cpp`, `dense.cpp`, `activation.cpp`, `dropout.cpp`,
`convolutional.cpp`, `pooling.cpp`, `avg_pooling.cpp`, `max_pooling.cpp`,
`recurrent.cpp`, `concatenate.cpp`, `loss.cpp`, `cce_loss.cpp`, `mse_loss.cpp`,
`optimizer.cpp`, `gd_optimizer.cpp`, `adam_optimizer.cpp`, `dlgraph.cpp`, `model.cpp`;
`middleware/fnn.hpp`, `nn.hpp`,  `layer_descriptor.cpp`; `parser/csv.hpp`,
`json.hpp`, `mnist.hpp`, `cifar.hpp`, `parser.hpp`, `type_checker.hpp`.

Not modelled:

* overflow and NaN of `double`, except in C89, C90, C92, C94 and C100, which are about IEEE doubles (no fused
  multiply-add, no `-ffast-math`; the accuracy of `exp`, `log`, `tanh` is assumed as in the record
  `ieee`). Theorems over `R` say nothing about rounding, except C75 and C76, which are about any
  rounding with a bounded relative error (no underflow);
* the bit-exact output of `std::mt19937_64` and `std::normal_distribution`;
* `Model::step` on graphs where several connections lead to a layer: modelled, with the refutation
  C81, but without a general theorem on its gradients;
* interleavings finer than single accesses to the shared parameters (C78); C40 has tasks in one piece;
* memory models weaker than sequential consistency;
* `Model::print`, `std::cout` output, the names of the middleware's loss layers;
* `middleware/mlpack_*.hpp` (an external library), `data/path.hpp`, `rnn.hpp` (empty);
* the Armadillo conversions of `Dataset`;
* `dense_simd_opt`'s vector intrinsics are outside the translated text: the function calls `dense`.

## Findings

Properties that are false of the code, each with a `…_refuted` theorem (see the notes in
`MANIFEST.json`), and other surprises met while modelling:

* **Dataset.** Splitting off or taking an empty part loses the feature size and the labels.
  A sequence shorter than the sequence size is kept at the end. The constructor from a cube
  with an empty first sequence makes phantom rows. The automatic `min_max_normalization` of an
  empty dataset is undefined behaviour; repeated column numbers are normalised twice.
  Concatenation along axis 2 drops the labels.
* **Threads (C13).** `dense_1_thread_opt` adds to the shared input gradients from all tasks
  without protection: updates get lost.
* **Data races (C77, C78).** These updates are a data race as soon as there are two outputs. In
  parallel training the main thread changes the shared weights after the first `f.get()` while
  later tasks still read them. A task can so compute with a mixture of old and new
  weights, with a result that no order of whole tasks gives.
* **Several connections into a layer (C81).** Only the one executed last counts: the layer's
  output is overwritten, not summed. A shortcut past one layer has no effect; a shortcut past two
  layers cuts them out of the prediction. A step still sends gradients along all connections.
* **Changing the input shape (C82).** `ConcatenateLayer::_set_input_shape` calls itself without end.
  Dense weights are resized as a flat list, so with several outputs they move to other inputs.
  Copies share the shape and the weights but not the gradient buffers: training a copy after the
  original grew writes outside its buffers. Dropout keeps its old mask, which may not fit. An empty
  shape throws only after the shape was replaced.
* **The score (C101).** A loss behind two layers counts every step twice. A loss connected with
  `create_edge` in place of `create_loss_edge` is evaluated by predictions too, with the target of the last step. Right after `reset_score`, or without a loss,
  `accuracy()` and `avg_loss()` of a model divide zero by zero.
* **One overflow makes a recurrent network useless until it is reset (C100).** NaN in a hidden state makes every later
  prediction NaN; nothing in `predict` clears it.
* **Loading keeps the old hidden states (C99).** `RecurrentLayer::load` resizes the hidden state of the target without
  clearing it and the file has none: a loaded recurrent network predicts like the saved one only after a reset.
* **Concatenate layers work in no model (C98).** The second call of the layer throws, in the same prediction when two
  connections lead to it, in the next one otherwise; its gradients are always zero.
* **A failed load leaves a mixed network (C97).** The name and the layers before the first of another class are those
  of the file, the others as they were; their sizes need not fit. Files with more layers than the network are accepted.
* **Unused biases disturb Adam (C96).** The biases of convolutions do not enter a prediction, but numbers are stored
  as their gradients; with Adam's shared moments these also change the steps of all other parameters.
* **Names are not unique (C95).** A named descriptor of the middleware makes a layer and an activation layer of the
  same name; a loaded or given name may be the next automatic one; the counter is not atomic.
* **The mean of finite doubles may be computed as infinity (C94).** `avg_pool` divides after summing, so a window of
  large finite values overflows although its mean is finite.
* **Loading resizes (C93).** `load` overwrites sizes, kernels, strides and paddings and resizes all buffers, so the
  target's own sizes do not matter; only its classes of layers (and the alpha of ELU layers, C43) do.
* **Finite weights may predict NaN (C92).** Products of finite doubles that overflow with both signs sum to NaN;
  the condition `safe` of C92 is what excludes it.
* **Saving loses small weights (C91).** Files hold six decimals, so a weight below half a millionth becomes 0 and
  the loaded network may predict another class, with any margin before.
* **One NaN spoils a network (C90).** It spreads to all parameters in one update; the accuracy may still be 1,
  because `std::max_element` of NaNs is the first element and NaN therefore counts as class 0. Adam's shared
  moments carry one infinite gradient, or one whose square overflows, to all later parameters and updates.
* **A saturated softmax cannot be trained (C89).** If the output of the expected class is 0, the gradients below
  the softmax are all 0 where softmax - target is -1 and 1, because the derivative is multiplied out from the
  rounded output.
* **The JSON reader does not skip blanks (C88).** Only blanks around numbers are harmless (their type becomes
  string). Elsewhere documents are silently misread (`[1, [2]]` is a list of two leaves, `[ true]` converts to
  false), or an uninitialised character is used (`{ "a":1}`).
* **Adam shares its moments among all parameters (C87).** `AdamOptimizer` has one `_m`, one `_v` and one
  `_t`, advanced for every single parameter. So each parameter is moved mainly by the gradients of its
  predecessors in the list of parameters; weights with gradient zero are moved; and with parallel fit every
  task is a step of its own, so that the result differs from sequential fit.
* **CSV objects are not values (C86).** `CSVRow` and `CSVField` hold references to the column types of a
  `CSV` object and their assignment writes through these: `row = other_file[1]` replaces the column types of
  the file `row` came from. The implicit copy of `CSV` keeps references to the original: after the original
  is destroyed, reading a row of the copy writes to freed memory.
* **Connecting layers (C85).** A call with a vector of layers that throws has connected the layers before the
  unknown one for running and training, but not for gradients, and the inputs and outputs are those of
  before. A program that catches the exception and goes on predicts through a layer it never trains.
* **Parsing (C84).** `Dataset::parse` reads every file several times with the one-hot encoding. If an
  MNIST image file is shorter than its header says, the first pass leaves the stream failed and all
  inputs become zero; the default encoding reads once and keeps the stored images. An empty field of a
  CSV file is an uninitialised number. The last line of a CSV file is lost if no line end follows.
* **Models with recurrent layers (C83).** States stay between predictions, so repeating a call may
  change the result. With one time step the previous state is lost, so a sequence fed step by step is
  not processed as a sequence. Training moves the hidden weights, and every layer in front of a
  recurrent one, along something other than the gradient.
* **Losses (C33).** The mean squared error's gradient lacks the division by the number of
  outputs. The cross entropy's gradient is not zero below its clamp. A target without a
  non-zero entry throws after the score was changed.
* **Pooling (C23, C24).** Average pooling's backward skips the top-left cell of every window. Max
  pooling's backward sends the gradient of a window whose maximum is its first cell to index 0.
* **Convolution (C25).** Biases are never added in `forward`, and their gradient is overwritten
  instead of accumulated. A zero stride divides by zero; a kernel larger than the padded input
  wraps around.
* **Recurrent layer (C26).** `tanh_1` is applied to the activation instead of the argument; slot 0 of the
  states holds the last state instead of the first, so the input, input-weight and hidden-weight
  gradients are wrong; with one time step the old state is overwritten before it is read.
* **Dropout (C27).** `predict` reads the output buffer that `forward` does not write.
* **Concatenate (C28).** The first input is put behind the largest extent, possibly outside of the
  buffer; every second call throws. `backward` does nothing; `_set_input_shape` calls itself for ever.
* **Adam (C31).** The moments and the time counter are single numbers shared by all parameters.
* **Graph (C35, C37, C38).** Schedules are in breadth-first order, which is wrong for skip connections of
  different lengths. A model with one layer has no input and no output layer, but its copy has.
* **Parallel training (C40).** Copies share parameters, so a task that starts after a training call
  of the same round sees changed parameters.
* **Builder.** `add` after `fit` links the new layer to the loss layer.
* **Initialisation (C58, C59).** The generator is passed by value: every layer of a model draws the same
  numbers, so equal layers start with equal weights for every seed. Convolutions use the whole
  image as fan-in. `rand(from, to)` for integers with odd `from + to` can return `from - 1` and never `to`.
* **fit (C60, C61).** Each call starts over with fresh weights. The loss layer made by the first call keeps
  its 1/batch size for all later calls.
* **Graph interface (C63).** `add_loss` with a layer the graph already has registers the layer added last, or
  one loss twice.
* **Assigning models (C64).** After `a = b`, `a.layers()` are not the layers of its graph; connecting them throws until the
  next building call.
* **Run-time networks (C65).** `predict` and the sizes compile silently with default arguments, after which `fit` no
  longer throws; a `compile` that throws leaves a network of the layers before the faulty one. The optimizer used when
  none is named differs: `FeedforwardNeuralNetwork::fit` takes gradient descent, the static networks and `compile` Adam.
* **Derivative functions (C67).** `elu_1_opt` is wrong for negative alpha (the sign of the value no longer tells the
  branch); `softmax_1` is wrong when its result overwrites the gradients it reads.
* **Convolutional networks (C69).** The biases of a convolution do not enter the prediction but receive a gradient, written
  over the old one; parameters before an average pooling get a wrong gradient.
* **Branching networks (C73).** Where a network branches below a layer with parameters, the layers above receive the gradient of
  one branch only: `backward` overwrites the input gradient and each arc runs once. Only the first layer may branch.
* **Sizes (C70).** Nothing checks the size of a row: `predict` accepts a short row and reads the weights of a dense layer
  with the wrong row length; long rows and short targets are read past the end of a buffer.
* **Biases of convolutions (C69, C71).** Training moves the biases of a convolution, although `forward` never reads them.
* **CSV (C47–C49).** A trailing empty field throws by index but is "" in the vector. A file with no row
  divides by zero; with one row the answer depends on earlier calls; iteration skips the last row, and
  runs away for a file of one line. Copied objects refer to the types of the original.
* **Encodings (C50).** One-hot encoding is right only if the label columns are the last ones.
* **MNIST, CIFAR (C51, C53).** A short read leaves the stream failed, so later images are zeros; a file
  with 0 items gives a division by zero; a truncated header is compared uninitialised. CIFAR brightness
  multiplies green and blue, so bright pixels overflow the conversion.
* **JSON (C44, C45).** An empty string as the last list element is lost; "[]" reads as one empty leaf; "{}" and the
  empty text are undefined behaviour; an unclosed list recurses for ever; "[}]" loops for ever.
* **JSON conversions (C79).** `as<int>()` of "abc" is 0, of "3.7" is 3, of a too large number the largest int; `as<unsigned>()` of
  "-1" is the largest unsigned; of an empty string it returns an uninitialised variable. No error is reported.
* **Saving (C43).** Six decimals only; infinities and NaN load as 0; ELU's alpha and the axis of a
  concatenate layer are not saved; a quote in a name breaks the file.

## How each property is proved

| id | modelled | how proved |
|----|----------|------------|
| C01 | vector constructor, `entry`, `size` | arithmetic on div/min, list slicing; invariant `wf` |
| C02 | matrix constructor | iff between in-bounds reads and divisibility; witness for the failing case |
| C03 | `split`, `subdata` (fraction as a rational clamped to [0,1]) | slicing lemmas |
| C04 C05 | see C03, C05 `subdata(from,to)` | case split on the clamps |
| C06 | `shuffle` with any permutation of row indices | permutation of row blocks |
| C07 | `input(s)`, `label(s)`, `label_idx` | filter lemmas over column indices |
| C08 | `concatenate` for datasets on top of the array concatenation | index arithmetic |
| C09 | both `min_max_normalization` over R | real arithmetic |
| C10 | `sequence_size` setter with division by zero = UB | case split |
| C11 | `matarr_mul`, `arr_sum`, `dense` | loop invariants, any number type |
| C12 C13 | task-level interleaving semantics of the thread versions | commutation of disjoint writes; lost-update schedule as refutation; atomic version proved |
| C14 C21 C22 | dense/activation forward+backward over R | derivative along arbitrary differentiable curves (`derivable_pt_lim`), composition by induction over the stack |
| C15 | `softmax`, `stable_softmax` over R | algebra of `exp` |
| C16 | `std::max_element` semantics | induction |
| C17 | output side in Z with explicit mod 2^64 | div/mod |
| C18 C19 | `kernel_slide`, `_conv4d_op`, `_max_pool_op`, `_avg_pool_op` | loop invariants |
| C20 | `append`, `extract`, `concatenate`, `separate` | loop invariants on strided copies |
| C23 C24 C25 C26 | backward passes as written | refutation by witness plus the part that holds |
| C27 | dropout layer and the way `predict` reads it | history model; refutation; training half proved |
| C28 | concatenate layer | refutation by witness |
| C29 | flat indexing | bijection |
| C30 C31 | optimizers | fold over parameters; Adam two-run refutation |
| C32 C33 | loss layers | history fold; derivative |
| C34 C35 C36 C37 C38 | graph, schedules, copy | measure/invariants over the level loop, chain induction, refutations |
| C39 C40 C41 C42 | training loops, prediction, builder | loop induction; interleavings |
| C43 | dump/load with `std::to_string` rounding | rounding lemmas + JSON round trip |
| C44 C45 | JSON printer and stream reader with fuel | induction on documents; divergence for a truncated text for every fuel |
| C46 | the four regular expressions as an inductive grammar | equivalence with the recogniser |
| C47 C48 C49 | CSV rows, cache, iterator over stream state | induction on request histories |
| C50 | label encoding | counting/rank lemmas; refutation for leading label columns |
| C51 C52 C53 | binary readers, grey-scale table | history induction, finite sweep for pixels |
| C54 C55 C56 | `step`, a batch, the sequential loop on a network, over R | the chain derivative of C22 carried through the model's cells; induction over rows and batches |
| C57 C58 C59 | `init`, `rand` | loop over the nodes, unfolding of the draws |
| C60 C61 | `fit` | simulation between two networks with equal parameters and gradients, through every call of the loop |
| C62 C63 C64 | layers with addresses, `DLGraph`'s overloads, copy-and-swap assignment | induction over call histories; heap invariants; refutations |
| C65 | `DynamicNeuralNetwork` over any static network | induction over call sequences |
| C66 | `compile`, `fit`, `predict`, `evaluate` on a layer list | C42 for building, C60 and C56 for training, C41 for prediction, joined |
| C67 | scalar and array derivative functions | difference quotients; loops written element by element |
| C68 | one batch, one epoch | mean value along the line of the update, C55 |
| C70 | `predict`, `step` with any sizes | loops that leave a buffer; the narrowed network |
| C71 | `step` over a batch, `train`, fit for convolutional networks | C69 summed over the rows; the moved parameters as a curve, its derivative at 0 is minus the squared gradient |
| C72 | copying, subscripts, `at`, assignment and append of `JsonItem` on a memory of objects | refinement: every object has one owner; a place in a document and a reference in memory correspond |
| C73 | `step`, `predict` on trees | the schedule of a tree respects dependencies and visits each arc once; the run solves the dataflow equations; the heads' gradients meet in the first layer's parameter gradients only |
| C74 | `compile`, `fit`, `predict`, `evaluate` on a list with convolutions and poolings | C42 for building, C57's loop for any layer type, C71 for training, C69 for the values, joined |
| C75 | softmax, activations, normalisation, losses, gradient descent over rounded numbers | the same functions over `NumF rnd`; monotonicity of the rounding through each operation; induction over loss histories |
| C76 | layers, models and fit over rounded numbers | limit lemmas for each operation, lifted to layers, chains, steps, batches and epochs by induction; error bound by induction over the sum |
| C82 | `_set_input_shape` of every layer, as commands on a layer's own buffers and the cell shared with its copies; constructors | case analysis over the kinds, induction over the calls; the forward and backward theorems of the other properties |
| C101 | `m_accuracy`, `m_avg_loss` over `m_predict`, `m_step`, `m_train`, `m_reset_score` | an invariant on the counters of each loss through every function a call runs; for layers in a row with the list of targets and predictions |
| C100 | `rec_forward` and `predict_all` of `RnnModel` at the doubles of `FloatModel` | the error of one time step (sums as in C92, tanh has slope at most 1) fed back through steps, layers and calls; NaN: one entry of the state spoils all of the next |
| C99 | `r_load`, `rshows` of `RnnSaveModel`, `predict_all` | C43 for the file, C83 for the predictions; the distance of the hidden states carried through steps and calls (tanh has slope at most 1) |
| C98 | `j_ops` of `ConcatNetModel`, `m_predict`, `m_step` | the number of calls of the layer as an invariant along the schedules; C34 for the connections in a schedule |
| C97 | `load_model_st` of `LoadModel` | the calls as state with an outcome, shown to end as those of `DumpModel`; induction over the layers with the document of each |
| C96 | `cnn_fit_adam` of `CnnNetModel` | the optimizer's visit of a layer as a move of its flat parameter list; the gradients of C71; induction over the batches with the history of gradients |
| C95 | the counter, the shared name fields and the middleware's calls | induction over histories with the newest call first; a number can be read back from the end of a name; induction over schedules |
| C94 | convolution, pooling and prediction of `CnnModel` at the doubles of `FloatModel` | the element-wise specs of the kernels hold for any number type; induction over the conditional sums; maxima of finite doubles are exact; induction over the layers with the drift of C93 |
| C93 | dump and load of every layer with its sizes, prediction of `CnnModel` | per layer, load gives a near layer of the saved shape whatever the target's sizes; Lipschitz bounds for convolution and pooling; induction over the layers |
| C92 | networks over doubles and over the reals | the standard model of rounding from `ieee`; running bounds for sums by induction; softmax by ratios of exponentials; overflowing exponentials in sigmoid give 0 within 2^-1022; induction over layers with `layer_drift` of C91 |
| C91 | networks, dump and load of models, files | a relation `shows` between the computing layers and what dump sees; C43 for the numbers, C36 for predictions; induction over layers with Lipschitz bounds of the activations (mean value theorem), ratios of exponentials for softmax |
| C90 | dense networks, models, losses and Adam over doubles | NaN absorbs in every operation; induction over layers forward and backward, over calls, over parameters in Adam's order; the network theorems of C36 and C87 are for any number type and give the shape of the update |
| C89 | softmax, activations, losses over doubles | `NumD`: the kernels over doubles; monotone rounding keeps bounds that are representable; the largest element has exponent 0, so the sum is at least 1; underflow for the refutation |
| C88 | `read_item` of C44, `convert_int`, `read_double` | every text with blanks around unquoted leaves is the printed form of a document whose leaves have the blanks, so C44's theorem applies; a text with a blank matches none of the type expressions; the conversions skip what stands before and stop at what stands after a number; refutations by running the reader |
| C87 | `fit_adam`, `fnn_fit_with`, `apar_fit`: the optimizer's state is threaded through all parameters of all layers | induction over layers, batches and epochs; the step with moments of the whole gradient sequence (C31's `doc_step`); the bound by Cauchy–Schwarz in the form of a quadratic inequality by induction; parallel: the invariants of C40 with the optimizer in the state |
| C86 | a memory of type vectors, rows and fields that refer to them, the implicit copy and assignment of `CSV` | simulation: the objects are a function of a state of values plus lifetimes; an invariant says that what refers to one vector has the same types; induction over programs |
| C85 | the connecting calls of `DLGraph` as loops whose outcome carries the graph, also when it throws | each loop by induction: it adds all its arcs or those before the first unknown layer; sorted lists with the same elements are equal |
| C84 | the encodings threaded through the state of a parser object (streams, cached rows), the order of the three calls as a parameter | refinement: the stateful passes agree with the encodings of the table (C50) under an invariant of the parser, then the dataset constructor (C01) and views (C07); the invariants of C48, C51, C52 instantiate it |
| C83 | recurrent layers as nodes of a model; `time_steps` and `reset_hidden_state` on all of them | unrolling of the recurrence, induction over layers and calls; chain rule from the last recurrent layer on |
| C81 | nothing new: `Model::predict` of C36 on any graph | induction over the schedule: after every connection each layer holds the composition along its route; every executed connection leaves an input or a layer already reached |
| C80 | nothing new: C55, C60, C66 and the dense layer of C26 | explicit partial derivatives; convexity and smoothness of a sum of squares; telescoping; projection for the existence of a best fit |
| C79 | integer, bool and string leaves, vectors and maps; extraction of integers from text with overflow | digit loop invariant; every text starts in one way; C44, C46 for the way through text |
| C77 | threaded kernels, a round of parallel training | C12/C13's ownership invariant for absence; for presence, runs of single tasks up to the conflicting accesses; what a task reads by induction over layers |
| C78 | parallel training, single accesses | invariant: the rest of the round from any state gives the same end; tasks do not depend on the parameter fields of their copies; C40's sums |
| C69 | models over convolution, pooling, dense, activation | a chain rule for any layer type, each layer's adjoint from C18, C23–C25 and C22 |

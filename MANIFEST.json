{
 "claims": [
  {
   "property": "C01",
   "status": "proved",
   "theorems": [
    "C01_tensor_addressing",
    "C01_matrix_addressing",
    "C01_overflowing_shape_out_of_storage"
   ],
   "note": ""
  },
  {
   "property": "C02",
   "status": "proved",
   "theorems": [
    "C02_single_write",
    "C02_single_write_matrix"
   ],
   "note": ""
  },
  {
   "property": "C03",
   "status": "proved",
   "theorems": [
    "C03_tensor_copy_ctor"
   ],
   "note": ""
  },
  {
   "property": "C04",
   "status": "partial",
   "theorems": [
    "C04_matrix_copy_ctor_partial",
    "C04_matrix_copy_after_resize_refuted"
   ],
   "note": "True for a matrix whose shape came from a sized constructor (C04_matrix_copy_ctor_partial); refuted for default constructor followed by resize: depth 0 makes the copy's shape empty (C04_matrix_copy_after_resize_refuted)."
  },
  {
   "property": "C05",
   "status": "partial",
   "theorems": [
    "C05_vector_copy_ctor_refuted",
    "C05_own_storage_partial"
   ],
   "note": "Refuted for every vector: Vector's copy constructor default-constructs the base, so the copy always has size 0 and no element is copied (Vector.hpp:94-98). Partial: the copy owns fresh storage and nothing existing changes; an empty vector is copied correctly."
  },
  {
   "property": "C06",
   "status": "partial",
   "theorems": [
    "C06_vector_copy_assign",
    "C06_tensor_copy_assign_same_size_partial",
    "C06_matrix_copy_assign_same_size_partial",
    "C06_copy_assign_to_larger_refuted",
    "C06_copy_assign_to_smaller_refuted",
    "C06_self_assign"
   ],
   "note": "Vector copy assignment proved for all sizes. Matrix/Tensor: proved for equal sizes; refuted for different sizes (the copy loop runs with the old size)."
  },
  {
   "property": "C07",
   "status": "proved",
   "theorems": [
    "C07_move_ctor",
    "C07_move_assign",
    "C07_self_move"
   ],
   "note": ""
  },
  {
   "property": "C08",
   "status": "proved",
   "theorems": [
    "C08_lifecycle",
    "C08_memory_is_strict",
    "C08_copies_in_history",
    "C08_shapes_in_history",
    "C08_contents_in_history"
   ],
   "note": ""
  },
  {
   "property": "C09",
   "status": "partial",
   "theorems": [
    "C09_tensor_resize",
    "C09_matrix_resize",
    "C09_vector_resize_partial",
    "C09_vector_resize_refuted"
   ],
   "note": "Tensor and Matrix resize proved; Vector::resize gives shape (1,w,1) instead of the constructor's (1,1,w): size and storage agree (partial), shape claim refuted."
  },
  {
   "property": "C10",
   "status": "proved",
   "theorems": [
    "C10_reshape",
    "C10_reshape_matrix"
   ],
   "note": ""
  },
  {
   "property": "C11",
   "status": "proved",
   "theorems": [
    "C11_fill",
    "C11_fill_generator",
    "C11_copy",
    "C11_copy_list",
    "C11_apply",
    "C11_apply_src",
    "C11_add_sub_mul",
    "C11_add_sub_mul_3",
    "C11_join",
    "C11_join_src"
   ],
   "note": ""
  },
  {
   "property": "C12",
   "status": "partial",
   "theorems": [
    "C12_const_arithmetic_refuted",
    "C12_empty_partial"
   ],
   "note": "Refuted for every non-empty operand: the result view has a null data pointer (undefined behaviour). Partial: on empty tensors the calls succeed."
  },
  {
   "property": "C13",
   "status": "proved",
   "theorems": [
    "C13_views_share_storage",
    "C13_view_sizes"
   ],
   "note": ""
  },
  {
   "property": "C14",
   "status": "proved",
   "theorems": [
    "C14_row_vector_times_matrix",
    "C14_row_vector_times_matrix_ret"
   ],
   "note": ""
  },
  {
   "property": "C15",
   "status": "proved",
   "theorems": [
    "C15_matrix_times_column_vector",
    "C15_matrix_times_column_vector_ret"
   ],
   "note": ""
  },
  {
   "property": "C16",
   "status": "partial",
   "theorems": [
    "C16_matrix_product_ret",
    "C16_matrix_product_inplace_partial",
    "C16_matrix_product_inplace_refuted"
   ],
   "note": "Returning form dot(A,B) proved. The in-place form dot(result,A,B) accumulates into result instead of setting it: characterised (partial) and refuted at every element that was non-zero before."
  },
  {
   "property": "C17",
   "status": "proved",
   "theorems": [
    "C17_outer_product",
    "C17_outer_product_ret"
   ],
   "note": ""
  },
  {
   "property": "C18",
   "status": "proved",
   "theorems": [
    "C18_transpose",
    "C18_transpose_inplace",
    "C18_transpose_twice"
   ],
   "note": ""
  },
  {
   "property": "C19",
   "status": "proved",
   "theorems": [
    "C19_inverse",
    "C19_inverse_ret"
   ],
   "note": ""
  },
  {
   "property": "C20",
   "status": "proved",
   "theorems": [
    "C20_inner_product"
   ],
   "note": ""
  },
  {
   "property": "C21",
   "status": "proved",
   "theorems": [
    "C21_argmax",
    "C21_argmin",
    "C21_empty",
    "C21_real_order_is_strict_weak"
   ],
   "note": ""
  },
  {
   "property": "C22",
   "status": "partial",
   "theorems": [
    "C22_axis_x_partial",
    "C22_axis_y_refuted"
   ],
   "note": "Axis::X proved for every matrix; Axis::Y refuted for every matrix with at least one row: the running index is read uninitialised (Tool.hpp:110)."
  },
  {
   "property": "C23",
   "status": "proved",
   "theorems": [
    "C23_statistics",
    "C23_statistics_any_scalar"
   ],
   "note": ""
  },
  {
   "property": "C24",
   "status": "partial",
   "theorems": [
    "C24_concat_variadic_partial",
    "C24_concat_container_refuted"
   ],
   "note": "Variadic concat(a,b,...) proved for any number of operands. concat(container) refuted for every container: the loop variable hides the result, which is never written (Tool.hpp:399-419)."
  },
  {
   "property": "C25",
   "status": "partial",
   "theorems": [
    "C25_block_loop_partial",
    "C25_full_width_refuted",
    "C25_one_column_refuted",
    "C25_width_one_refuted"
   ],
   "note": "Proved for rectangles of width w with 2 <= w < W; refuted for full-width rectangles (nothing visited) and one-column rectangles (last row missed)."
  },
  {
   "property": "C26",
   "status": "proved",
   "theorems": [
    "C26_multinomial"
   ],
   "note": ""
  },
  {
   "property": "C27",
   "status": "proved",
   "theorems": [
    "C27_every_history",
    "C27_every_state",
    "C27_destructor",
    "C27_observers",
    "C27_storage_is_strict"
   ],
   "note": ""
  },
  {
   "property": "C28",
   "status": "partial",
   "theorems": [
    "C28_copy_ctor_elements",
    "C28_copy_ctor_of_full_partial",
    "C28_copy_ctor_refuted",
    "C28_copy_assign_partial",
    "C28_self_assign"
   ],
   "note": "Copy assignment proved in full (elements, separate storage, every later history). Copy constructor: elements/separation proved; later histories proved when size()==capacity() of the source; refuted otherwise: the first append to the copy is out of bounds (Container.hpp:60-67 allocates size_ but copies capacity_)."
  },
  {
   "property": "C29",
   "status": "proved",
   "theorems": [
    "C29_reserve",
    "C29_append",
    "C29_reallocations"
   ],
   "note": ""
  },
  {
   "property": "C30",
   "status": "partial",
   "theorems": [
    "C30_move_partial",
    "C30_move_assign_partial",
    "C30_moved_from_size_refuted",
    "C30_moved_from_append_refuted"
   ],
   "note": "Transfer of the storage proved; 'moved-from is empty' refuted: the source keeps its size and capacity with a null pointer, and appending to it dereferences null (Container.hpp:69-77, 110-125)."
  },
  {
   "property": "C31",
   "status": "partial",
   "theorems": [
    "C31_own_element_room_partial",
    "C31_own_element_full_refuted"
   ],
   "note": "Proved while size()<capacity(); refuted for every full container: the argument is read after its storage was released (Container.hpp:177-186)."
  },
  {
   "property": "C32",
   "status": "partial",
   "theorems": [
    "C32_traversal_partial",
    "C32_iterator_plus_refuted"
   ],
   "note": "operator[], ++ and end() proved; operator+ refuted: *(begin()+n) is always the first element (Container.hpp:267, 295)."
  },
  {
   "property": "C33",
   "status": "proved",
   "theorems": [
    "C33_activation_is_textbook",
    "C33_activation_derivative",
    "C33_corner_not_differentiable",
    "C33_derivative_wherever_differentiable"
   ],
   "note": ""
  },
  {
   "property": "C34",
   "status": "partial",
   "theorems": [
    "C34_gelu_derivative_formula_partial",
    "C34_gelu_derivative_at_minus1_0_1_partial",
    "C34_gelu_derivative_refuted"
   ],
   "note": "Refuted: at x=2 the returned derivative is off by more than 0.04 (constants a and b swapped in y, ActivationLess.hpp:92-104). Partial: the true derivative formula, and agreement within 1e-6 at -1, 0, 1."
  },
  {
   "property": "C35",
   "status": "proved",
   "theorems": [
    "C35_ranges",
    "C35_monotone"
   ],
   "note": "Ranges and monotonicity for all reals (monotone for every activation except GELU and Swish, which are not monotone)."
  },
  {
   "property": "C36",
   "status": "proved",
   "theorems": [
    "C36_softmax_value",
    "C36_unstable_softmax_value",
    "C36_softmax_is_distribution"
   ],
   "note": ""
  },
  {
   "property": "C37",
   "status": "proved",
   "theorems": [
    "C37_activation_in_place",
    "C37_activation_derivative_in_place",
    "C37_activation_elementwise"
   ],
   "note": ""
  },
  {
   "property": "C38",
   "status": "proved",
   "theorems": [
    "C38_loss_values",
    "C38_loss_gradient",
    "C38_cce_derived_gradient"
   ],
   "note": ""
  },
  {
   "property": "C39",
   "status": "partial",
   "theorems": [
    "C39_mae_gradient_refuted",
    "C39_mae_negated_gradient_partial"
   ],
   "note": "Refuted for every length, target and prediction: wherever prediction differs from target the written value is minus the partial derivative (Loss.hpp:120-140). Partial: the written vector is exactly the negated gradient, and zero where prediction equals target."
  },
  {
   "property": "C40",
   "status": "proved",
   "theorems": [
    "C40_softmax_cross_entropy_gradient",
    "C40_nll_one_hot"
   ],
   "note": "Cross entropy without the 1e-9 guard inside the logarithm; the fed-back value is composed exactly as FullyConnected/backprop compose it."
  },
  {
   "property": "C41",
   "status": "partial",
   "theorems": [
    "C41_bce_loss_derivative_partial",
    "C41_sigmoid_bce_refuted"
   ],
   "note": "Refuted for every sample with sigmoid(x) != target: BCE's df is already the fused gradient and is multiplied by sigmoid' again. Partial: the loss derivative alone is the true gradient."
  },
  {
   "property": "C42",
   "status": "proved",
   "theorems": [
    "C42_loss_zero_iff_perfect"
   ],
   "note": ""
  },
  {
   "property": "C43",
   "status": "proved",
   "theorems": [
    "C43_grad_descent_rule",
    "C43_sto_grad_descent_rule"
   ],
   "note": "Over every history of updates, learning-rate changes and other activity; the learning rate used is the one in force at each call."
  },
  {
   "property": "C44",
   "status": "proved",
   "theorems": [
    "C44_momentum_rule"
   ],
   "note": ""
  },
  {
   "property": "C45",
   "status": "proved",
   "theorems": [
    "C45_nestorov_rule"
   ],
   "note": ""
  },
  {
   "property": "C46",
   "status": "proved",
   "theorems": [
    "C46_adagrad_rule",
    "C46_adagrad_step_bound"
   ],
   "note": ""
  },
  {
   "property": "C47",
   "status": "proved",
   "theorems": [
    "C47_rmsprop_rule",
    "C47_rmsprop_step_bound"
   ],
   "note": ""
  },
  {
   "property": "C48",
   "status": "partial",
   "theorems": [
    "C48_adam_rule_partial",
    "C48_adam_single_tensor_partial",
    "C48_adam_two_tensors_refuted"
   ],
   "note": "Proved with the iteration number counting update calls on all tensors (C48_adam_rule_partial), hence the textbook rule for one tensor; refuted for two tensors: the shared powers tbeta1_/tbeta2_ advance on every call (Adam.hpp:117-118)."
  },
  {
   "property": "C49",
   "status": "partial",
   "theorems": [
    "C49_update_safe_and_local",
    "C49_own_calls_decide_partial",
    "C49_adam_tensors_interfere_refuted"
   ],
   "note": "Proved for every optimizer except Adam; refuted for Adam (shared beta powers)."
  },
  {
   "property": "C50",
   "status": "partial",
   "theorems": [
    "C50_gradient_unchanged_partial",
    "C50_gradient_scaled",
    "C50_gradient_unchanged_refuted"
   ],
   "note": "Proved for Momentum, Nestorov, AdaGrad, RMSProp, Adam; refuted for GradDescent and StoGradDescent, which scale the caller's gradient in place (GradDescent.hpp:54-59, StoGradDescent.hpp:58-64)."
  },
  {
   "property": "C51",
   "status": "proved",
   "theorems": [
    "C51_construction",
    "C51_forward_value",
    "C51_forward_repeatable",
    "C51_raw_forward_value",
    "C51_raw_and_train_agree"
   ],
   "note": ""
  },
  {
   "property": "C52",
   "status": "partial",
   "theorems": [
    "C52_backward_gradient_partial",
    "C52_softmax_gradient_refuted",
    "C52_gelu_gradient_refuted"
   ],
   "note": "Proved for all 12 scalar activations with a correct df (all but GELU) at differentiable points, all sizes. Refuted for SoftMax (df is constant 1) and GELU (wrong derivative formula). Missing for the full claim: those two activations, where it is false."
  },
  {
   "property": "C53",
   "status": "proved",
   "theorems": [
    "C53_rounds_never_fail",
    "C53_update_gets_scaled_sum"
   ],
   "note": ""
  },
  {
   "property": "C54",
   "status": "partial",
   "theorems": [
    "C54_stochastic_uses_sample_partial",
    "C54_stochastic_uses_sample_refuted"
   ],
   "note": "False as stated: accumulated_ stays true after a batch, so later stochastic steps use the stale sums (refuted theorem over arbitrary batch histories). Proved when no accumulate() happened since reset()/construction."
  },
  {
   "property": "C55",
   "status": "proved",
   "theorems": [
    "C55_construction",
    "C55_raw_construction",
    "C55_memory_safe",
    "C55_raw_memory_safe"
   ],
   "note": "Construction (Train and Raw), output size formula, and absence of any access outside the tensors, for every geometry whose element counts fit size_t."
  },
  {
   "property": "C56",
   "status": "proved",
   "theorems": [
    "C56_forward_value",
    "C56_raw_and_train_agree",
    "C56_forward_is_correlation"
   ],
   "note": "Value proved in any arithmetic (order of evaluation of the code) and, in exact arithmetic, equal to the padded strided cross-correlation; Raw and Train agree. Only padding.height is used by the code; the geometry has one padding."
  },
  {
   "property": "C57",
   "status": "proved",
   "theorems": [
    "C57_backward_adds_gradient",
    "C57_backward_gradient"
   ],
   "note": "For every geometry incl. strides that do not divide; off_grid_zero (the internal buffer is zero between the strides) holds after construction and is preserved by every operation."
  },
  {
   "property": "C58",
   "status": "partial",
   "theorems": [
    "C58_first_batch_partial",
    "C58_reset_refuted",
    "C58_second_batch_refuted"
   ],
   "note": "False: Convolutional overrides neither reset() nor accumulate(), so gradients are never cleared (Convolutional.hpp:131-351). Refuted for every layer and history (leftover + new samples) and for two gradient-descent batches; proved for the first batch after construction."
  },
  {
   "property": "C59",
   "status": "proved",
   "theorems": [
    "C59_construction",
    "C59_raw_value",
    "C59_raw_value_is_maximum"
   ],
   "note": "For every geometry, activation and Num instance (C59_raw_value), and over R the folded value is a member of the window and >= every element of it (C59_raw_value_is_maximum); also construction with dividing strides."
  },
  {
   "property": "C60",
   "status": "partial",
   "theorems": [
    "C60_any_stride_constructs",
    "C60_non_dividing_stride_refuted",
    "C60_dividing_stride_safe_partial"
   ],
   "note": "False: for every stride that does not divide the input height or width, and every input tensor that owns exactly its elements, forward (Raw and Train) ends in an out-of-range access (MaxPooling.hpp). Any non-zero stride is accepted at construction. Safety proved for all dividing strides (forward both modes, backward)."
  },
  {
   "property": "C61",
   "status": "partial",
   "theorems": [
    "C61_train_ignores_input_refuted",
    "C61_new_layers_differ_refuted",
    "C61_agree_iff_partial"
   ],
   "note": "False: Train forward overwrites value with f(buff), so it does not depend on the input at all; for new layers with Identity the Train value is 0 and the Raw value the window maximum. Partial: exact condition under which the two modes agree."
  },
  {
   "property": "C62",
   "status": "proved",
   "theorems": [
    "C62_backward_routes_to_maximum"
   ],
   "note": "Over R, Identity activation: after any forward on x followed by backward(d), delta is d at the first maximum of each window and 0 elsewhere; first maximum exists in each window (first_max_exists)."
  },
  {
   "property": "C63",
   "status": "proved",
   "theorems": [
    "C63_every_topology_builds",
    "C63_feedforward_is_composition"
   ],
   "note": "For every list of plans (dense, convolution, pooling; any depth): C63_every_topology_builds constructs the network; C63_feedforward_is_composition: feedforward returns the composition of the layers' functions, every intermediate value is the prefix composition, only value, pre-activation and pooling-mask buffers change. A training-mode MaxPooling contributes f(buff_) (see C61)."
  },
  {
   "property": "C64",
   "status": "proved",
   "theorems": [
    "C64_feedforward_repeatable"
   ],
   "note": "Over every history of feedforward calls with any samples and of client steps outside the network's memory (inductive relation between): the same input values give the same tensor with the same values; all parameters, gradients, accumulators unchanged."
  },
  {
   "property": "C65",
   "status": "proved",
   "theorems": [
    "C65_backprop_is_gradient",
    "C65_nll_one_hot"
   ],
   "note": "Any mixture and number (>= 2) of fully connected and convolutional layers the shapes allow. Excluded, because their derivative is wrong in the code: GELU (C33), softmax in a hidden layer (C52), max pooling (C61), losses MAE/BCE/CCE without softmax (C39). Hypothesis `clean`: each convolution's buffer is zero off the stride grid, true of a new layer and preserved by backprop (part of the conclusion)."
  },
  {
   "property": "C66",
   "status": "partial",
   "theorems": [
    "C66_single_layer_refuted",
    "C66_empty_net_refuted",
    "C66_two_or_more_layers_partial"
   ],
   "note": "As stated it is false: backprop of every one-layer network is undefined behaviour (reads layer N-2 = 2^64-1), C66_single_layer_refuted, for any layer, trainer, memory. For two or more layers it succeeds, writes only the net and the trainer's delta, and changes no parameter (C66_two_or_more_layers_partial)."
  },
  {
   "property": "C67",
   "status": "proved",
   "theorems": [
    "C67_batch_schedule",
    "C67_each_sample_once_per_epoch"
   ],
   "note": "Equality of the modelled batch() with an explicit list of events (reset; feed/backprop/accumulate each sample; update 1/n), same results and same failures, any net, optimizer, memory; each sample exactly once per epoch."
  },
  {
   "property": "C68",
   "status": "proved",
   "theorems": [
    "C68_mini_batch_schedule",
    "C68_partition"
   ],
   "note": "Same for mini_batch(): floor(n/b) consecutive disjoint blocks of b samples per epoch; C68_partition shows that exactly the samples 0 .. b*floor(n/b)-1 are presented, once each, and the n mod b trailing ones never."
  },
  {
   "property": "C69",
   "status": "proved",
   "theorems": [
    "C69_stochastic_schedule",
    "C69_valid_samples",
    "C69_empty_data_undefined"
   ],
   "note": "Same for stochastic() with an arbitrary generator; all indices presented are valid; with no data the index is computed modulo 0, which is undefined (C69_empty_data_undefined)."
  },
  {
   "property": "C70",
   "status": "proved",
   "theorems": [
    "C70_normal",
    "C70_full",
    "C70_global",
    "C70_between_0_and_1"
   ],
   "note": "Any data set with n > 0 samples (n = 0 divides 0 by 0 and is excluded), network outputs described by an abstract prediction per sample that the modelled feedforward delivers; counters are unbounded in the model and the quotient is exact."
  },
  {
   "property": "C71",
   "status": "proved",
   "theorems": [
    "C71_checker_equals_trainer",
    "C71_mean_loss",
    "C71_single_sample"
   ],
   "note": "Any data set with n > 0 samples; the loss is any of the built-in losses; C71_checker_equals_trainer: both classes return the same number or fail in the same way."
  },
  {
   "property": "C72",
   "status": "partial",
   "theorems": [
    "C72_net_copy_refuted",
    "C72_built_net_copy_refuted",
    "C72_trainer_copy_refuted",
    "C72_trainer_move_refuted",
    "C72_trainer_move_without_loss_partial",
    "C72_trainer_copy_without_loss_partial"
   ],
   "note": "False: the implicit copy shares the layer pointers (and moving a network copies it), Training's defaulted copy and move share loss_; destroying both is an error for every network with a layer and every trainer with a loss, in every memory and either order. Proved: a trainer without a loss can be copied and moved."
  },
  {
   "property": "C73",
   "status": "proved",
   "theorems": [
    "C73_linear_least_squares"
   ],
   "note": "Exact arithmetic; a division by zero gives an arbitrary value (junk) and the result does not depend on it. Includes normal equations, uniqueness, that only the weight block changes and every temporary is released."
  },
  {
   "property": "C74",
   "status": "proved",
   "theorems": [
    "C74_polynomial_least_squares"
   ],
   "note": "Hypothesis distinct_points: n+1 different abscissae occur among the samples; full rank is derived from it (a polynomial of degree n with n+1 zeros is 0, by synthetic division)."
  },
  {
   "property": "C75",
   "status": "proved",
   "theorems": [
    "C75_linear_any_arithmetic",
    "C75_polynomial_any_arithmetic",
    "C75_linear",
    "C75_polynomial"
   ],
   "note": "Exact arithmetic: both equal the closed formula. Also for any arithmetic in which 0 + 1*a = a: batch and single predictions are identical, so no rounding differences."
  },
  {
   "property": "C76",
   "status": "partial",
   "theorems": [
    "C76_temporary_partial",
    "C76_lvalue_refuted"
   ],
   "note": "False for lvalues: Vector's copy constructor copies nothing, so init(w) reads uninitialised memory for every weight vector (C76_lvalue_refuted, all sizes). Proved for temporaries (C76_temporary_partial)."
  },
  {
   "property": "C77",
   "status": "proved",
   "theorems": [
    "C77_save_load",
    "C77_same_outputs",
    "C77_regression",
    "C77_pooling_settings"
   ],
   "note": "Networks of any depth of FullyConnected and Convolutional layers (both classes), and both regressions: save/load round trip gives the same plans, activations, weights and biases in fresh memory, and the same outputs for every accepted sample. The SF archive library is external (not in /repo): assumed to be a faithful sequence of items."
  },
  {
   "property": "C78",
   "status": "partial",
   "theorems": [
    "C78_loaded_pooling_refuted"
   ],
   "note": "Refuted for every network containing a (non-empty) pooling layer: after loading, every feedforward call is undefined behaviour, because prepare() of MaxPooling does not allocate value_."
  },
  {
   "property": "C79",
   "status": "proved",
   "theorems": [
    "C79_in_range",
    "C79_rand_max_fits",
    "C79_every_value"
   ],
   "note": "Model includes integral promotion, signed overflow (undefined) and unsigned wrap-around, any width >= 8 bits that holds RAND_MAX."
  },
  {
   "property": "C80",
   "status": "proved",
   "theorems": [
    "C80_unit_interval",
    "C80_in_range",
    "C80_ends"
   ],
   "note": "Exact arithmetic; both ends of the range are reached."
  },
  {
   "property": "C81",
   "status": "proved",
   "theorems": [
    "C81_split"
   ],
   "note": "Any hardware_concurrency() incl. 0; blocks are non-empty; (t-1)*min < size, i.e. t <= ceil(size/min)."
  },
  {
   "property": "C82",
   "status": "partial",
   "theorems": [
    "C82_header_value",
    "C82_accepted_large_enough_partial",
    "C82_images_partial",
    "C82_labels_partial",
    "C82_accepted_large_enough_refuted",
    "C82_short_file_refuted"
   ],
   "note": "C82_header_value proves the byte order part for every file. The size check part is false: count*rows*columns+16 is computed in 32 bits, so a 16-byte file announcing 2^32 pixels is accepted and read out of bounds (C82_accepted_large_enough_refuted), and files under 4 bytes are read out of bounds (C82_short_file_refuted). Where the product does not overflow: acceptance iff large enough, and the images and labels read are the announced bytes."
  },
  {
   "property": "C83",
   "status": "partial",
   "theorems": [
    "C83_resize_lvalue_partial",
    "C83_resize_rvalue_refuted"
   ],
   "note": "Proved for an lvalue argument; refuted for an rvalue: only the first new element gets the value, the following ones are built from the moved-from argument (std::forward in a loop, Container.hpp:130-157)."
  },
  {
   "property": "C84",
   "status": "partial",
   "theorems": [
    "C84_state_survives_tensor_refuted",
    "C84_unused_address_partial"
   ],
   "note": "Refuted for every size: the state tables are keyed by address and never cleaned, so after address reuse by a larger tensor the update reads past the old buffer (Interface.hpp:75-85). Partial: at an address never updated before, an update acts exactly like one of a new optimizer."
  },
  {
   "property": "C85",
   "status": "partial",
   "theorems": [
    "C85_dense_delta_shape",
    "C85_conv_before_dense_refuted",
    "C85_conv_before_dense_partial"
   ],
   "note": "False: FullyConnected's delta has shape (1,1,n) while Convolutional::backward indexes it as (F,OH,OW) (Convolutional.hpp:274-277): proved to read outside the tensor whenever F>1 or OH>1; works when F=OH=1."
  },
  {
   "property": "C86",
   "status": "partial",
   "theorems": [
    "C86_signed_refuted",
    "C86_nonnegative_outputs_partial",
    "C86_full_unsigned_range_refuted"
   ],
   "note": "False: a generator output that converts to a negative value gives results below min (C86_signed_refuted, for every signed type and range); the full range of an unsigned type divides by zero (C86_full_unsigned_range_refuted). Proved for unsigned types / nonnegative converted outputs."
  },
  {
   "property": "C87",
   "status": "proved",
   "theorems": [
    "C87_network_releases_what_it_took"
   ],
   "note": "Hypothesis expr_ok: sizes are size_t values, strides are not zero, a convolution has a filter. Storage of the Container members is not in this heap (C27-C32)."
  },
  {
   "property": "C88",
   "status": "partial",
   "theorems": [
    "C88_connect_partial",
    "C88_connect_same_object_refuted",
    "C88_shared_activation_refuted",
    "C88_loss_partial",
    "C88_loss_same_object_refuted"
   ],
   "note": "Proved for a new object (C88_connect_partial, C88_loss_partial). False for the object already in use and for an activation shared by two layers: the destruction is an error in every memory."
  },
  {
   "property": "C89",
   "status": "proved",
   "theorems": [
    "C89_batch_succeeds",
    "C89_mini_batch_succeeds",
    "C89_stochastic_succeeds"
   ],
   "note": "GradDescent; dense, convolution and pooling layers in any order the shapes allow, any number type."
  },
  {
   "property": "C90",
   "status": "partial",
   "theorems": [
    "C90_batch_descends",
    "C90_mini_batch_descends",
    "C90_stochastic_descends_partial",
    "C90_stochastic_after_batch_ignores_data_refuted"
   ],
   "note": "Dense and convolution layers, activations/losses whose coded derivative is right (as in C65). Batch and mini-batch training proved; a convolution does not reset its gradient tensors, so besides the gradient step it moves by lr/samples times its previous displacement - the theorems state exactly this (descent_step). Stochastic training proved as long as no dense layer has accumulated since it was created (accumulated_ is never reset by update, so after batch() it uses stale gradients, C54). C90_stochastic_after_batch_ignores_data_refuted shows why the restriction is needed: after batch training of a dense network, stochastic training has the same effect whatever the samples, targets, loss and generator are (FullyConnected::accumulated_ stays set), for every optimizer and number type."
  },
  {
   "property": "C91",
   "status": "proved",
   "theorems": [
    "C91_small_rate_decreases",
    "C91_loss_call_decreases"
   ],
   "note": "C91_small_rate_decreases: dense and convolution layers whose gradient tensors are zero (new layers); C91_loss_call_decreases: the calls loss, batch, loss for dense networks. With SoftMax at the end the hypothesis loss_shown says that the loss is the cross entropy on the targets (NLL/CCE with one-hot targets)."
  },
  {
   "property": "C92",
   "status": "partial",
   "theorems": [
    "C92_init_exact",
    "C92_successive_values_partial",
    "C92_own_state_refuted"
   ],
   "note": "The exact effect is proved for every network and generator (C92_init_exact). fill takes the generator by value: only state shared between copies advances from one tensor to the next. So the property holds for generators whose values depend on shared state (C92_successive_values_partial) and is false for those that keep their state in the object: all parameter tensors get the same values (C92_own_state_refuted, for every such generator and network)."
  },
  {
   "property": "C93",
   "status": "partial",
   "theorems": [
    "C93_unit_interval",
    "C93_lower_bound",
    "C93_exact_width_partial",
    "C93_exceeds_max_refuted",
    "C93_wide_range_refuted"
   ],
   "note": "Unit interval (C93_unit_interval) and lower bound (C93_lower_bound) hold for every generator output. The upper bound holds when max - min is exact (C93_exact_width_partial); otherwise rounding can push the result above max (C93_exceeds_max_refuted) and a range wider than the largest number gives NaN (C93_wide_range_refuted)."
  },
  {
   "property": "C94",
   "status": "partial",
   "theorems": [
    "C94_activation_finite_partial",
    "C94_softplus_overflows_refuted",
    "C94_selu_overflows_refuted"
   ],
   "note": "IEEE binary formats with precision >= 24 and emax >= 64; math library as a parameter under the contract libm_ok (met by a correctly rounded library, FloatLib.v). Proved for all activations (no NaN, range) and finiteness for all but SELU and SoftPlus; those two overflow on finite inputs (C94_softplus_overflows_refuted, C94_selu_overflows_refuted). Exact for double; for float the promotion of single subexpressions to double is not modelled."
  },
  {
   "property": "C95",
   "status": "partial",
   "theorems": [
    "C95_derivative_finite_partial",
    "C95_swish_nan_refuted",
    "C95_gelu_nan_refuted"
   ],
   "note": "Finite, and in [0,1] ([0,2] for SELU), for all activations but Swish and GELU, and for those on a stated domain (C95_derivative_finite_partial). Outside, NaN: C95_swish_nan_refuted for every x <= -emax, C95_gelu_nan_refuted whenever x*x overflows."
  },
  {
   "property": "C96",
   "status": "proved",
   "theorems": [
    "C96_softmax_probabilities",
    "C96_softmax_order"
   ],
   "note": "Every precision and exponent range with prec + 3 <= emax (float and double included), libm under the contract libm_ok. The order part assumes a monotone exp. No float is lost: finiteness for every finite input, sum within (1-u)^2/(1+u)^n - n eta and (1+u)^2/(1-u)^n + n eta."
  },
  {
   "property": "C97",
   "status": "partial",
   "theorems": [
    "C97_unstable_softmax_range_partial",
    "C97_unstable_softmax_nan_refuted"
   ],
   "note": "Holds when the sum of exponentials is finite and at least 1 (C97_unstable_softmax_range_partial). False otherwise: for every input with an element of at least emax (128 for float, 1024 for double) that output is NaN (C97_unstable_softmax_nan_refuted)."
  },
  {
   "property": "C98",
   "status": "proved",
   "theorems": [
    "C98_dot",
    "C98_vector_times_matrix",
    "C98_matrix_times_vector",
    "C98_matrix_product",
    "C98_matrix_product_inplace",
    "C98_integers_exact"
   ],
   "note": "accurate r K M e A ok (FloatSpec.v): finite result => operands finite and |r - e| <= roundings K M A; operands finite and A + roundings K M A < 2^emax => finite result. Any precision and exponent range. The in-place matrix product adds to the old contents (C16), C98_matrix_product_inplace bounds that."
  },
  {
   "property": "C99",
   "status": "proved",
   "theorems": [
    "C99_forward",
    "C99_backward",
    "C99_forward_finite"
   ],
   "note": "Forward against dense_pre, the exact affine map of C51/C52. Backward: gradients against their computed factors (the activation derivative at the computed pre-activation, C95)."
  },
  {
   "property": "C100",
   "status": "proved",
   "theorems": [
    "C100_forward",
    "C100_backward"
   ],
   "note": "Forward against correlate_at (C56). Backward against the exact partial derivatives of C57; the magnitude in the bound is the same partial derivative taken at the absolute values."
  },
  {
   "property": "C101",
   "status": "proved",
   "theorems": [
    "C101_losses_of_probabilities"
   ],
   "note": "prec >= 24 and 3 prec + 8 <= emax (float and double). The sums saturate, so the bound 2^(prec+6) does not depend on the number of elements. BCE and NLL: C103."
  },
  {
   "property": "C102",
   "status": "proved",
   "theorems": [
    "C102_distances_not_nan",
    "C102_msle_finite",
    "C102_perfect_prediction",
    "C102_mae_zero_iff",
    "C102_mae_accurate",
    "C102_mse_accurate"
   ],
   "note": "Overflow of MSE, MAE, log-cosh gives plus infinity, never NaN. MSLE finite for every finite non-negative data."
  },
  {
   "property": "C103",
   "status": "partial",
   "theorems": [
    "C103_bce_finite_partial",
    "C103_bce_float_nan_refuted",
    "C103_nll_finite_partial",
    "C103_nll_infinite_refuted",
    "C103_logcosh_overflow_refuted"
   ],
   "note": "BCE: finite when the type represents 1 - 1e-9 (prec >= 30, double): C103_bce_finite_partial. False in float: target 1, prediction 1 makes the loss NaN (C103_bce_float_nan_refuted, every size and every other element). NLL: never NaN, finite as soon as a target class got positive probability (C103_nll_finite_partial), plus infinity when none did (C103_nll_infinite_refuted). Log-cosh overflows once a difference exceeds emax + 1 (C103_logcosh_overflow_refuted)."
  },
  {
   "property": "C104",
   "status": "proved",
   "theorems": [
    "C104_derivatives_bounded",
    "C104_derivatives_any"
   ],
   "note": "The MAE sign is the opposite of the true derivative (C39); here only its exactness is claimed."
  },
  {
   "property": "C105",
   "status": "proved",
   "theorems": [
    "C105_batch_any_optimizer",
    "C105_mini_batch_any_optimizer",
    "C105_stochastic_any_optimizer",
    "C105_new_optimizer"
   ],
   "note": "Assumes only that the parameter tensors have different addresses (the optimizers' maps are keyed by address, C84) and, for an optimizer used before, that its buffers are as optimizer_for says - which every run leaves so again, and which holds of every new optimizer (C105_new_optimizer)."
  },
  {
   "property": "C106",
   "status": "partial",
   "theorems": [
    "C106_batch_follows_rule",
    "C106_mini_batch_follows_rule",
    "C106_stochastic_follows_rule_partial"
   ],
   "note": "Convolutions never reset their gradient tensors (C58): the rule is fed the derivative plus 1/|batch| of what was in the gradient tensor, and trained_by says so. Stochastic training is proved for dense layers whose accumulated flag is not set (as C90), hence partial. Adam's iteration number counts the calls for all tensors (C48); trained_by gives it exactly. See C90_stochastic_after_batch_ignores_data_refuted for what happens otherwise."
  },
  {
   "property": "C107",
   "status": "proved",
   "theorems": [
    "C107_evaluation_does_not_change_training"
   ],
   "note": "any network of at least two layers, any optimizer with any history, any number type; training calls use the trainer's data set, evaluation calls any data set; evaluation on other networks or trainers is outside the statement"
  },
  {
   "property": "C108",
   "status": "proved",
   "theorems": [
    "C108_batch_order",
    "C108_mini_batch_order"
   ],
   "note": "Exact (real) arithmetic. Networks with max pooling are excluded: its backward pass writes the buffer that the next forward pass in training mode reads (C61), so there the order does matter. The convolutions' spread buffers and stale gradient tensors may hold anything at the start."
  },
  {
   "property": "C109",
   "status": "partial",
   "theorems": [
    "C109_batch_resumes",
    "C109_mini_batch_resumes",
    "C109_stochastic_resumes_partial",
    "C109_convolution_resume_refuted"
   ],
   "note": "Batch and mini-batch training of networks of dense layers: proved for every number type. Stochastic training: proved if the network has not been trained in batches before saving (the accumulation flag is not in the archive: after a batch the uninterrupted program keeps using stale gradient sums, C90). Refuted for convolutions: their gradient tensors act as a momentum that is not in the archive; the theorem gives the exact difference for every network and data set. Networks with max pooling cannot be loaded at all (C78)."
  },
  {
   "property": "C110",
   "status": "proved",
   "theorems": [
    "C110_parameters_stay_finite"
   ],
   "note": "Formats with precision at least 24 and emax at least 5*prec+8 (float is 24/128, double 53/1024). The bounds on learning rates and gradients are hypotheses about the calls."
  },
  {
   "property": "C111",
   "status": "proved",
   "theorems": [
    "C111_any_gradient_stays_finite",
    "C111_step_bound",
    "C111_overflow_freezes",
    "C111_rmsprop_beta_zero_nan"
   ],
   "note": "Proved for AdaGrad and for RMSProp with 0 < beta < 1. The condition is needed: with beta = 0, after a gradient whose square overflows the next update computes infinity*0 and the parameter is NaN from then on (C111_rmsprop_beta_zero_nan, for every history of that form)."
  },
  {
   "property": "C112",
   "status": "proved",
   "theorems": [
    "C112_gradient_descent_accurate"
   ],
   "note": "The gradients are those the program computed (rounded); the theorem bounds the error the update itself adds."
  },
  {
   "property": "C113",
   "status": "proved",
   "theorems": [
    "C113_first_epoch_decreases",
    "C113_weight_decay",
    "C113_loss_call_decreases"
   ],
   "note": "Exact arithmetic; losses as in C65/C90 (MSE, LC, MSLE, and CCE or NLL after SoftMax; MAE's derivative has the wrong sign, C39). Convolutions' gradient tensors must be zero (they act as momentum, C58)."
  },
  {
   "property": "C114",
   "status": "proved",
   "theorems": [
    "C114_small_rate_decreases",
    "C114_any_use",
    "C114_after_any_use"
   ],
   "note": "Exact arithmetic. Momentum-type optimizers do not have this property (their accumulated velocity is added whatever the rate)."
  },
  {
   "property": "C115",
   "status": "proved",
   "theorems": [
    "C115_prediction_error"
   ],
   "note": "C115_prediction_error over the IEEE instance, libm_accurate lib c as contract of the math library (a correctly rounded library has it with c = 2 unit roundoffs: cr_lib_accurate). Error bound drift and condition safe are defined in FloatNetSpec.v. GELU, SELU, SoftPlus and the training class of max pooling (defective, C61) are outside the statement."
  },
  {
   "property": "C116",
   "status": "proved",
   "theorems": [
    "C116_same_class",
    "C116_same_accuracy"
   ],
   "note": "C116_same_class (Tool argmax on the network's output) and C116_same_accuracy (Accuracy::normal on a data set)."
  },
  {
   "property": "C117",
   "status": "partial",
   "theorems": [
    "C117_locked_partial",
    "C117_untouched_partial",
    "C117_ownership_partial",
    "C117_chained_swap_refuted",
    "C117_chained_assign_refuted"
   ],
   "note": "Programs that do not chain on the returned plain reference: shape, class, allocation and length of a live locked object never change (C117_locked_partial), untargeted objects keep all elements (C117_untouched_partial), ownership as in C08 (C117_ownership_partial). Refuted with chaining for every pair of shapes: locked.copy(locked.base()).swap(b) changes the shape (C117_chained_swap_refuted), locked.copy(locked.base()) = b ends in a double delete (C117_chained_assign_refuted). Container lockers are not modelled. Loading a locked object from an archive (Locker/Serialization.hpp) replaces its contents and is not among the programs."
  },
  {
   "property": "C118",
   "status": "proved",
   "theorems": [
    "C118_decreases",
    "C118_gradient_vanishes",
    "C118_convex",
    "C118_strongly_convex",
    "C118_online",
    "C118_weight_decay"
   ],
   "note": "Real arithmetic. smooth is the two-sided parabola bound (what an L-Lipschitz gradient gives); rounds are histories of optimizer calls on real memory, one call per tensor in any order. C118_decreases/_gradient_vanishes/_convex/_strongly_convex/_online for GradDescent, C118_weight_decay for StoGradDescent. Training itself meets rounds where its loss is smooth; ReLU networks are not convex, so for those only C89/C113 apply."
  },
  {
   "property": "C119",
   "status": "proved",
   "theorems": [
    "C119_momentum",
    "C119_best_point"
   ],
   "note": "C119_momentum bounds the sum of all gaps, C119_best_point the smallest."
  },
  {
   "property": "C120",
   "status": "proved",
   "theorems": [
    "C120_accelerated"
   ],
   "note": "The tensors hold the look-ahead points, where the gradients are taken; the bound is for these points."
  },
  {
   "property": "C121",
   "status": "proved",
   "theorems": [
    "C121_adagrad_regret"
   ],
   "note": "The constant 1e-9 is the one the code adds under the square root."
  },
  {
   "property": "C122",
   "status": "proved",
   "theorems": [
    "C122_vector",
    "C122_matrix",
    "C122_matrix_of_shape",
    "C122_tensor",
    "C122_tensor_of_shape",
    "C122_resize_by_shape",
    "C122_vector_reshape",
    "C122_views"
   ],
   "note": "Vector's constructors from a shape do not compile (this->data) and have no model."
  },
  {
   "property": "C123",
   "status": "partial",
   "theorems": [
    "C123_sigmoid_derivative_from_value",
    "C123_bce_derivative_partial",
    "C123_bce_derivative_refuted"
   ],
   "note": "The full statement, that binary_cross_entropy_derived is the derivative of binary_cross_entropy, is refuted by C123_bce_derivative_refuted (a defect of the code: p + (1e-9 - 1) where the loss has 1 - p + 1e-9); C123_bce_derivative_partial gives the exact error elsewhere."
  },
  {
   "property": "C124",
   "status": "proved",
   "theorems": [
    "C124_whole_program",
    "C124_simple_test",
    "C124_mnist_test",
    "C124_reported_shapes",
    "C124_dense_of_shapes"
   ],
   "note": "For convolutions in front of dense layers see C85 (training is undefined there, refuted). C124_simple_test and C124_mnist_test are the example programs (without their saving and loading: C77); the optimizer may be any of the seven classes."
  },
  {
   "property": "C125",
   "status": "proved",
   "theorems": [
    "C125_adaptive_training_stays_finite",
    "C125_training_stays_finite",
    "C125_gradient_descent_stays_finite",
    "C125_adaptive_program_stays_finite",
    "C125_program_stays_finite",
    "C125_examples_stay_finite"
   ],
   "note": "Dense layers only. The exponent conditions (FloatTrainSpec.v) are integer arithmetic on the topology; C125_examples_stay_finite discharges them for the repository's example networks in every format. Adam and Momentum are covered by C125_training_stays_finite, whose bound on the parameters depends on the gradients (bounded activations, few layers); C126 gives Adam a bound independent of the gradients."
  },
  {
   "property": "C126",
   "status": "proved",
   "theorems": [
    "C126_any_gradient_stays_finite",
    "C126_step_bound",
    "C126_overflow_freezes",
    "C126_training_stays_finite",
    "C126_program_stays_finite",
    "C126_default_rates",
    "C126_examples_stay_finite"
   ],
   "note": "Dense layers for the training and program theorems (as C125); the optimizer theorems range over any tensors. paced_adam states the condition on beta1, beta2; C126_default_rates shows the class's defaults meet it with 1/rho <= 75 in every format."
  },
  {
   "property": "C127",
   "status": "proved",
   "theorems": [
    "C127_sessions",
    "C127_program",
    "C127_solution_is_least_squares",
    "C127_program_recovers"
   ],
   "note": "C127_sessions is about any sequence of calls on an existing object, C127_program about construct/use/destroy; both for any Num instance (so also IEEE floats, infinities and NaNs). `solution` spells out (D^T D)^-1 D^T y by Gauss-Jordan elimination in the program's order of operations; C127_solution_is_least_squares and C127_program_recovers give its meaning over R (Num_Rj: any value for x/0). Data must not overlap the object's weights. Saving and loading the regression is C77."
  },
  {
   "property": "C128",
   "status": "proved",
   "theorems": [
    "C128_programs",
    "C128_undefined",
    "C128_observers",
    "C128_all_released",
    "C128_locked"
   ],
   "note": "Abstract machine in ContProgramSpec.v (lists, reported capacity, real room); C128_programs and C128_undefined together make it exact. `room` < capacity describes the copy-constructor defect of C28, `Gone` the moved-from state of C30. Element constructors do not throw; the size of a list stays below 2^64 (verdict TooBig otherwise). Arguments of emplace_back/resize are values outside the containers (own elements: C31; rvalues: C83). Locking is at the level of the types: what the locker does not offer is not a program (BadCall)."
  },
  {
   "property": "C129",
   "status": "proved",
   "theorems": [
    "C129_argmax",
    "C129_argmin",
    "C129_axis_x",
    "C129_accumulate",
    "C129_mean",
    "C129_std",
    "C129_nothing",
    "C129_one",
    "C129_multinomial"
   ],
   "note": "num/fin/val/roundings/accurate are the vocabulary of FloatSpec.v. One scalar type throughout (the forms of mean/std whose result type defaults to double are meant for double data). std: k = n or n - 1; the error of the mean enters through squares = sum (x - mean)^2 + n (mu - mean)^2, mu the mean the program computes."
  },
  {
   "property": "C130",
   "status": "proved",
   "theorems": [
    "C130_integral",
    "C130_stochastic_sample",
    "C130_floating",
    "C130_multinomial"
   ],
   "note": "occurs N P c: exactly c of the numbers 0..N-1 satisfy P (list without repetitions). Integers: exact, all integral types; floating and multinomial: exact real arithmetic. Whether the C library's rand() is uniform on its outputs is not claimed."
  },
  {
   "property": "C131",
   "status": "proved",
   "theorems": [
    "C131_gradient_error"
   ],
   "note": "Single-sample backprop (the gradient of a mini-batch is the average of these, C64). Dense layers; activations with bounded slope sensitivity (not GELU, SELU, SoftPlus, Swish), losses MSE, LC and CCE/NLL behind SoftMax; MSLE excluded. The bound is FloatGradSpec.gradient_err; cr_lib_cosh shows a correctly rounded cosh meets the contract."
  },
  {
   "property": "C132",
   "status": "proved",
   "theorems": [
    "C132_batch_follows",
    "C132_mini_batch_follows",
    "C132_stochastic_follows",
    "C132_loss_decreases",
    "C132_gradient_becomes_small"
   ],
   "note": "The rounds' errors are bounded explicitly (batch_error, stochastic_error) under explicit no-overflow conditions on each round's magnitudes; a round outside them ends what the theorem says about later rounds. The stochastic theorem needs layers that have not accumulated (C90 shows why). The curvature hypothesis of the two consequences is only needed along the steps taken."
  },
  {
   "property": "C133",
   "status": "proved",
   "theorems": [
    "C133_sample_loss",
    "C133_mean_loss",
    "C133_full_accuracy",
    "C133_global_accuracy"
   ],
   "note": "Losses MSE, MAE and CCE; the other losses of the checker in floats are only shown finite (C101-C104). The trainer's loss is the same function (C71_checker_equals_trainer, any numbers). cr_log_accurate: a correctly rounded logarithm has accuracy constant 2 unit roundoffs."
  },
  {
   "property": "C134",
   "status": "proved",
   "theorems": [
    "C134_reported_loss"
   ],
   "note": "C133 read before and after, C132 in between. The reading errors and the error of a round are explicit functions of the exact values (FloatReportSpec, FloatDescentSpec, FloatCheckSpec). The conditions on the intermediate networks are those of C132. Example: one round on a two-layer ReLU network in binary64 with rate 1/1024, where all conditions are met and the printed loss falls by at least 30."
  }
 ]
}
# A Rocq (Coq 8.16.1) model of Sigma-Ryden/TrixyNet and what is proved about it

The library is header-only C++ (`/repo/include/Trixy`).  Nothing was compiled or run: every
definition of the model was written by reading the source and carries the file and the lines it
models.  Properties are in `properties.jsonl` (C01...), the status of each is in `MANIFEST.json`.

## 1. Modelling decisions

* **Memory.**  Owning and viewing tensors are pointers into a heap.  `mem T` is the list of all
  blocks ever allocated; a block is freed or a list of cells; a cell is uninitialised or holds a
  value.  A pointer is null or (block, offset).  Programs are in the monad
  `M T A = mem T -> res (A * mem T)` where `res` is `Ok` or `UB kind`.  Null dereference, out of
  bounds, use of a freed block, reading an uninitialised element, freeing twice / freeing an interior
  pointer are *outcomes* (`UB k`), never totalised away.  `new T[n]` never fails (documented
  simplification) and leaves scalars uninitialised as C++ does.
* **size_t.**  `Z` with the wrap `mod 2^64` written out where the code multiplies or subtracts sizes
  (shape volumes, element addresses, convolution index arithmetic).
* **Scalars.**  `Class Num T` - operations, *no laws*.  Everything about loops, memory, order of
  evaluation is proved for every `Num T` (so it also holds of floats, where addition is not
  associative).  Algebraic / analytical claims ("is the derivative of", "minimises") are proved for the
  instance `R` (exact arithmetic).  Claims about rounding, overflow and NaN (C93-) are proved for the
  instance `Num_fl` (Float.v): IEEE-754 binary arithmetic of any precision and exponent range as formalised by
  Flocq, with infinities, NaN, signed zeros and gradual underflow.  The C math library is a record parameter;
  theorems assume the contract `libm_ok` (FloatSpec.v), which a correctly rounded library is proved to meet
  (FloatLib.v).  C++ promotes some intermediate `float` expressions to `double`; the model has one scalar type
  (simplification; exact for `double`).
* **Templates / overloads** are modelled at the instantiation the library itself uses
  (`Lique::Vector/Matrix/Tensor` over one precision, `Container`); functions whose body does not
  compile when instantiated are listed in section 4 and not modelled.
* **Virtual dispatch**: layers, activations, losses and optimizers are inductive types, one
  constructor per class in the library; user-written subclasses are outside the model, except in the
  files that are parametric in them (training loops, checker).
* **Refuted properties.**  Where the code violates the property the theorem is called `..._refuted`
  (a witness), next to a positive theorem (`..._partial`) for the largest part that does hold.

## 2. Trusted base

Coq's kernel (and coqchk); the reading of the C++ by the author; the C++ semantics built into
`Mem.v`.  `Print Assumptions` is run below every property theorem.  Heap/loop theorems are closed under
the global context or depend on functional extensionality only if listed; theorems on `R` depend on the
standard library's axioms of the reals (`ClassicalDedekindReals.sig_forall_dec`, `sig_not_dec`,
`FunctionalExtensionality.functional_extensionality_dep`, and `Classical_Prop.classic` through
Coquelicot).  See section 5 for the list per file.

Assumed contracts of code outside the repo or not modelled: the serialization framework SF is a
missing submodule (contract: an archive stores the given fields in order and gives them back; a span is
its length and its elements); generators (`std::mt19937` etc.) are arbitrary sequences of integers;
`std::exp` ... are the real functions in the analytical theorems and uninterpreted elsewhere.

## 3. Plan per property

| id | modelled by | how proved |
|----|-------------|-----------|
| C01 | `Lique` element address with the 2^64 wrap | arithmetic: bounds, injectivity, surjectivity by div/mod |
| C02 | store through `at` on the heap | heap frame lemma |
| C03-C06 | one definition per constructor / assignment of each class, on the heap | loop invariants; Matrix/Vector copy constructors, Tensor/Matrix copy assignment: refuted + partial |
| C07 | move constructors / assignments | direct execution, frame |
| C08 | small-step machine over an environment of objects + heap | invariant by induction over the operation list |
| C09,C10 | resize, reshape of each class | execution lemmas; Vector::resize shape deviation refuted |
| C11 | `Detail::FunctionDetail` loops, member and Linear forms | one loop lemma for element-wise loops with exact aliasing or disjoint operands |
| C12 | const add/sub/... | refuted (null write); self part |
| C13 | views as non-owning handles | frame, induction over view operations |
| C14-C18, C20 | Linear loops | loop invariants, any Num |
| C19 | Gauss-Jordan loops on the heap at R | invariant "row operations are invertible", columns cleared |
| C21-C26 | Tool loops | invariants; Axis::Y, concat(list), block_loop refuted + partial |
| C27-C32 | Container machine with raw/constructed cells | refinement to lists by induction over operations; C28(copy ctor) C30 C31 C32 refuted + partial |
| C33-C42 | activations and losses on R | derivative calculus (Coquelicot internally, `derivable_pt_lim` in statements); C34 C39 C41 refuted |
| C43-C50 | optimizers on the heap with the address-keyed table | invariant over update histories; C48 C49(Adam) C50 refuted + partial |
| C51-C54 | FullyConnected on the heap | loop lemmas composed, derivative of finite sums; C54 refuted |
| C55-C58 | Convolutional on the heap with wrap | index lemmas, sums; C58 refuted |
| C59-C62 | MaxPooling on the heap | window loop invariants; C60 C61 refuted |
| C63-C66 | list of layers | induction over layers; chain rule; C66 refuted for one layer |
| C67-C71 | training loops / checker over abstract network operations | traces by induction |
| C72 | ownership of layer/loss pointers | refuted |
| C73-C76 | regressions on the heap | normal equations + inverse theorem; C76 refuted for lvalues |
| C77-C78 | archive contract + serialize functions | round trip by induction over layers; C78 refuted |
| C79-C82 | integer arithmetic | lia/nia; C82 size check refuted |
| C83 | Container::resize(n, value) on the Container machine | execution lemma; the rvalue overload refuted |
| C84 | optimizer table keyed by address, tensor freed and address reused | refuted: a witness history |
| C85 | Convolution in front of a dense layer on the heap | refuted for every window that is not one column; partial for those that are |
| C86 | RandomIntegral over a generator with signed or full-range output | refuted + partial |
| C87 | constructors and destructors of the network, its layers and activations | block accounting by induction over the topology |
| C88 | connect / loss setters with explicit object identities | execution; same-object calls refuted |
| C89 | training loops of `Schedule.v` run over the real layers of `Net.v` with GradDescent | totality by an invariant carried through every epoch |
| C90 | as C89 at R | the batch step equals x - lr * mean gradient (C65 composed with the optimizer rule) |
| C91 | as C90 | first-order Taylor argument: a negative directional derivative gives a decrease |
| C92 | `init` with generator function objects (own state copied, shared state threaded) | loop lemma; own-state generators refuted |
| C93 | RandomFloating at `Num_fl` (IEEE) | monotonicity of rounding; witnesses above max and NaN |
| C94 | scalar activations at `Num_fl`, library contract `libm_ok` | bounds are representable, so rounding respects them; overflow of SoftPlus, SELU refuted |
| C95 | derivatives at `Num_fl` | as C94; NaN of Swish, GELU refuted |
| C96 | `act_f SoftMax` at `Num_fl` | sum of numbers in [0,1] (FloatError.v `unit_sum`), relative error of division and product |
| C97 | `unstable_softmax` at `Num_fl` | partial sums; NaN refuted for every large input |
| C98 | `lin_dot_*` at `Num_fl` | error of accumulation loops by induction (FloatAcc.v: `accu` composes steps, skipped steps, nested loops) |
| C99 | `fc_forward`, `fc_backward` at `Num_fl` | C51, C52 loop results + FloatAcc |
| C100 | `conv_forward`, `conv_backward` at `Num_fl` | C56, C57 loop results + FloatAcc on nested loops with skipped border positions |
| C101 | `loss_f` at `Num_fl` | C39 loop results + saturating sums (FloatLoss.v `sum_small`) |
| C102 | MSE, MAE, log-cosh, MSLE at `Num_fl` | monotone rounding, relative error of sums of non-negative numbers |
| C103 | BCE, NLL, log-cosh at `Num_fl` | partial; NaN / infinity refuted for every size |
| C104 | `loss_df` at `Num_fl` | interval lemmas (FloatAct.v `within`), exact sign of a rounded difference |
| C105 | `tr_batch`, `tr_mini_batch`, `tr_stochastic` with any `opt` | invariant: ready network + `OptimizerProofs.inv` over the names (layer, role) of the parameter tensors (OptTrain.v) |
| C106 | same, at `R` | abstract run of states (OptTrainReal.v), gradients from C90, rules from C43-C50 folded over the history |
| C107 | sequences of the modelled training and evaluation calls (SessionSpec.v) | networks that agree on everything the next forward pass reads stay so through training steps (Session.v), then the C105 runs are compared |
| C108 | two training runs at `R` on permuted data | gradient sums are sums of per-sample contributions that depend only on parameters and never-written buffer cells (Order.v); the update reads nothing else; C105 runs compared |
| C109 | `save_net`, `load_net` and two training runs in two memories | a relation on networks (same plans and parameters; after the batch's reset also the same sums and flags) preserved by every step (Resume.v); C77, C105; refutation for convolutions from C90 at `R` |
| C110 | every optimizer's element rule in `Num_fl` | an invariant of each class (buffer bounded by a geometric series, saturation: adding something of magnitude at most half an ulp of 2^J does not leave 2^J) over all histories (FloatOpt.v) |
| C111 | AdaGrad and RMSProp in `Num_fl` | the accumulator is a non-negative number or +infinity; the rounded inverse root times the gradient is at most (1+5u)/rho; an infinite accumulator gives an exact zero step; refutation: beta = 0 |
| C112 | GradDescent in `Num_fl` | the `accurate` calculus of FloatAcc.v applied to the history |
| C113 | a new optimizer of each class, one epoch of batch training | one update is affine in the learning rate with a direction of positive multiples of the negative gradient; derivative of the mean loss (C65) along the line; penalty as a quadratic form (AnyDescent.v) |
| C114 | AdaGrad/RMSProp after any sequence of uses | invariant: accumulators of squares are not negative; then as C113 |
| C115 | net_feedforward over IEEE numbers vs real_net | layer by layer: affine_accurate/conv_val_accurate (C99, C100) with input errors propagated, activations: Lipschitz constants + rounding analysis given libm accuracy, SoftMax: shift invariance, exp ratio bounds; induction over the layers |
| C116 | argmax and Accuracy::normal over IEEE numbers | C115 + the loop returns the strict maximum on finite numbers |
| C117 | Locker.v: histories of plain and locked objects; members that are not re-exported are not programs | invariant of C08 extended by a frame lemma per operation (which blocks it can change), induction over the history; refuted when chaining on the returned base reference |
| C118, C119, C120, C121 | ConvexSpec.v: `rounds` = histories (OptimizerSpec) in which every tensor is updated once per round, on the memory model with real numbers; smooth, convex, strongly convex objectives | the per-parameter recurrences C43-C46 turn the run into a path of points; Lyapunov functions (distance, heavy-ball average, Nesterov's estimate, AdaGrad's weighted distances) by induction over the rounds |
| C122 | Lique.v: all constructors, resize by shape, reshape, views on the memory model | weakest preconditions of alloc, fill and copy loops |
| C123 | Functions.v: the two free functions no class uses | real analysis; exact error term, counterexample for saturated predictions |
| C124 | PropProgram.v: `program` = build, init, trainer, loss, any list of calls, from any memory that holds the data | C63 (construction), C92 (initialisation), allocation of the trainer's delta, then the invariant of C107 over the calls |
| C125 | FloatTrainSpec.v: exponents (integers) of values, deltas, gradients; PropFloatTrain.v: sessions and whole programs in `Num_fl` | one sample: induction over the layers forward and backward with rounded sums that saturate at 2^(prec+1) terms; one update: invariant of C110/C111 per element; rounds and sessions: the trace semantics of C105/C107 carries `state_ok` |
| C126 | FloatAdam.v, PropFloatAdam.v: Adam's element step in `Num_fl` | invariant linking the rounded averages: v^2 <= K (s + tiny) with K = 1/((1-theta)(1-beta2)) up to roundings, by a weighted Cauchy-Schwarz (Titu) inequality per step; overflow of s gives inverse square root 0; training and programs by the engine of C125 |
| C127 | RegSolve.v (Gauss-Jordan and the normal equations in any arithmetic), RegSession.v (calls of a program on a regression), PropRegSession.v | pure functions for the eliminations proved equal to the memory programs by loop invariants; a relation `expects` gives the outcome of each call; induction over the call sequence with a frame (data unchanged, object's block, returned vectors); over R the same run is also described by C73/C74's theorem, determinism links the two |
| C128 | ContProgram.v (statements over many Container / ContainerLocker objects), ContProgramSpec.v (the same on lists), PropContProgram.v | refinement: an invariant (`good_state`: representation, exclusive ownership, no leak, foreign memory kept) preserved by every allowed statement, and every disallowed statement shown to fail; lockers by induction over the rest of the program |
| C129 | Tool.v over Num_fl (Float.v), FloatStat.v, PropFloatTool.v | search loop invariant for the NaN-aware specification; approximation calculus (`appR`) for sums of squares, exact identity for deviations from the computed mean; sign and monotonicity of rounded addition for sampling |
| C130 | Misc.v, Tool.v, Schedule.v, PropDistribution.v | counting: residues by bijection with an interval, intervals of outputs by floor/ceiling of the cumulative weights |
| C131 | FloatGradSpec.v: error of the gradients layer by layer; FloatDer.v: computed slopes of the activations; PropFloatGrad.v in `Num_fl` | induction over the layers backward on top of C115's forward bound, product and sum bounds per element, combined with the exact-arithmetic chain rule of C65 |
| C132 | FloatDescentSpec.v: the exact gradient by the chain rule, error of a round; FloatDescent.v: what a round leaves in the gradient tensors and parameters, any `Num`; PropFloatDescent.v in `Num_fl` | C131 per sample, summation bound over the batch, product bounds for 1/n and the learning rate, induction over the rounds; descent lemma for inexact steps, then telescoping |
| C133 | FloatCheckSpec.v: the terms of the losses, their error bounds and room, sums and means; PropFloatCheck.v: Checker.v's loops in `Num_fl` | C115's bound per output, error of one term (difference, square, absolute value, logarithm by mean-value bound), summation bound, division by n; range comparisons decided by the gap |
| C134 | FloatReportSpec.v: exact loss, reading error, squared gradient; PropFloatReport.v: chk_loss, tr_batch, chk_loss in sequence in `Num_fl` | C133 for the two readings (the working tensors changed by a reading do not matter), C132 and the descent lemma for the rounds, gradient identified with the true one at every round |

## 4. Not modelled

Out of the model, with the reason.

* **Does not compile when instantiated** (so no program observes it): `Range::View` / `Range::Unified`
  constructors that call `fill(first_, last_)` and the value constructors built on them, the shape
  constructors of `Lique::Vector` (Vector.hpp:40-58), the Raw constructor of `FullyConnected` that calls
  `.fll` (FullyConnected.hpp:62; the other Raw constructor is modelled), `UnifiedNet::remove`,
  `Training::update`, the regression trainers' `loss`, `Tool::mean` / `Tool::std` with an axis, optimizer
  `reset` with arguments and the `learning_rate()` getter.
* **Compile-time only**: `Require/*`, `Detail/*Meta*.hpp`, the macro files, `Base.hpp` forward
  declarations, `Functional/Id.hpp` (enumerations nothing reads), `Volume.hpp` (aliases of Shape;
  `Volume2D(s)` is `(s, s)`).
* **Serialization library SF**: a submodule that is absent from the repository.  The archive is a list
  of typed items; its byte encoding is not modelled.
* **Arithmetic**: integer parts wrap as C++ does; floating arithmetic is an abstract `Num` (any
  operations at all), exact reals, or (`Float*.v`, `PropFloat*.v`) IEEE-754 binary arithmetic through Flocq,
  rounding to nearest even, one NaN.  NaN payloads, other rounding modes, -ffast-math, x87 excess precision
  and the promotion of `float` subexpressions to `double` are not modelled.
* **Exceptions, `std::bad_alloc`, threads**: `new` succeeds; the library starts no thread itself.
* **Test programs** other than `mnist_reader.hpp`, the calls of simple_test and mnist_test (C124) and regression_test (C127, serialization C77), and the cases of `test/src/auto_tests.cpp` (`Conformance.v` evaluates the model on their inputs, over exact rationals, and finds the values they assert: a test of the model against the project's own expectations, not a claim); the timers and printing helpers; `try_cast`,
  `byte_cast`.
* **User-written** layers, activations, losses and optimizers (the training schedule and checker
  theorems C67-C71 quantify over arbitrary ones; the others are about the built-in classes).

## 5. Axioms per theorem (generated by tools/assumptions.py from Print Assumptions)

A = `ClassicalDedekindReals.sig_forall_dec`, B = `ClassicalDedekindReals.sig_not_dec`,
C = `Classical_Prop.classic`, F = `FunctionalExtensionality.functional_extensionality_dep`; all four are in
the standard library.  "closed" means closed under the global context.

| file | axioms | theorems |
|---|---|---|
| PropAnyDescent | A B C F | C113_first_epoch_decreases, C113_weight_decay, C113_loss_call_decreases, C114_small_rate_decreases, C114_any_use, C114_after_any_use |
| PropChecker | closed | C71_checker_equals_trainer |
| PropChecker | A B C F | C71_mean_loss, C71_single_sample, C70_normal, C70_full, C70_global |
| PropChecker | A F | C70_between_0_and_1 |
| PropConstruct | closed | C122_vector, C122_matrix, C122_matrix_of_shape, C122_tensor, C122_tensor_of_shape, C122_resize_by_shape, C122_vector_reshape, C122_views |
| PropContProgram | closed | C128_programs, C128_undefined, C128_observers, C128_all_released, C128_locked |
| PropContainer | closed | C27_every_history, C27_every_state, C27_destructor, C27_observers, C28_copy_ctor_elements, C28_copy_ctor_of_full_partial, C28_copy_ctor_refuted, C28_copy_assign_partial, C28_self_assign, C29_reserve, C29_append, C29_reallocations, C30_move_partial, C30_move_assign_partial, C30_moved_from_size_refuted, C30_moved_from_append_refuted, C31_own_element_room_partial, C31_own_element_full_refuted, C32_traversal_partial, C32_iterator_plus_refuted, C83_resize_lvalue_partial, C83_resize_rvalue_refuted, C27_storage_is_strict |
| PropConv | closed | C55_construction, C55_raw_construction, C55_memory_safe, C55_raw_memory_safe, C56_forward_value, C56_raw_and_train_agree, C85_dense_delta_shape, C85_conv_before_dense_refuted, C85_conv_before_dense_partial |
| PropConv | A B C F | C56_forward_is_correlation, C57_backward_adds_gradient, C57_backward_gradient, C58_first_batch_partial, C58_reset_refuted, C58_second_batch_refuted |
| PropConverge | A B C F | C118_decreases, C118_gradient_vanishes, C118_convex, C118_strongly_convex, C118_online, C119_momentum, C119_best_point, C120_accelerated, C121_adagrad_regret, C118_weight_decay |
| PropCopying | closed | C72_net_copy_refuted, C72_built_net_copy_refuted, C72_trainer_copy_refuted, C72_trainer_move_refuted, C72_trainer_move_without_loss_partial, C72_trainer_copy_without_loss_partial, C87_network_releases_what_it_took, C88_connect_partial, C88_connect_same_object_refuted, C88_shared_activation_refuted, C88_loss_partial, C88_loss_same_object_refuted |
| PropDescent | closed | C89_batch_succeeds, C89_mini_batch_succeeds, C89_stochastic_succeeds |
| PropDescent | A B C F | C90_batch_descends, C90_mini_batch_descends, C90_stochastic_descends_partial, C91_small_rate_decreases, C91_loss_call_decreases |
| PropDistribution | closed | C130_integral, C130_stochastic_sample |
| PropDistribution | A B C F | C130_floating, C130_multinomial |
| PropFC | closed | C51_construction, C51_forward_value, C51_forward_repeatable, C51_raw_forward_value, C51_raw_and_train_agree, C53_rounds_never_fail, C53_update_gets_scaled_sum, C54_stochastic_uses_sample_partial |
| PropFC | A B C F | C52_backward_gradient_partial, C52_softmax_gradient_refuted, C52_gelu_gradient_refuted, C54_stochastic_uses_sample_refuted |
| PropFloatAct | A B C F | C94_activation_finite_partial, C94_softplus_overflows_refuted, C94_selu_overflows_refuted, C95_derivative_finite_partial, C95_swish_nan_refuted, C95_gelu_nan_refuted |
| PropFloatAdam | A B C F | C126_any_gradient_stays_finite, C126_step_bound, C126_overflow_freezes, C126_training_stays_finite, C126_program_stays_finite, C126_default_rates, C126_examples_stay_finite |
| PropFloatCheck | A B C F | C133_sample_loss, C133_mean_loss, C133_full_accuracy, C133_global_accuracy |
| PropFloatDescent | A B C F | C132_batch_follows, C132_mini_batch_follows, C132_stochastic_follows, C132_loss_decreases, C132_gradient_becomes_small |
| PropFloatGrad | A B C F | C131_gradient_error |
| PropFloatLayers | A B C F | C99_forward, C99_backward, C99_forward_finite, C100_forward, C100_backward |
| PropFloatLinear | A B C F | C98_dot, C98_vector_times_matrix, C98_matrix_times_vector, C98_matrix_product, C98_matrix_product_inplace, C98_integers_exact |
| PropFloatLoss | A B C F | C101_losses_of_probabilities, C102_distances_not_nan, C102_msle_finite, C102_perfect_prediction, C102_mae_zero_iff, C102_mae_accurate, C102_mse_accurate, C103_bce_finite_partial, C103_bce_float_nan_refuted, C103_nll_finite_partial, C103_nll_infinite_refuted, C103_logcosh_overflow_refuted, C104_derivatives_bounded, C104_derivatives_any |
| PropFloatNet | A B C F | C115_prediction_error, C116_same_class, C116_same_accuracy |
| PropFloatOpt | A B C F | C110_parameters_stay_finite, C111_any_gradient_stays_finite, C111_step_bound, C111_overflow_freezes, C111_rmsprop_beta_zero_nan, C112_gradient_descent_accurate |
| PropFloatRandom | A B C F | C93_unit_interval, C93_lower_bound, C93_exact_width_partial, C93_exceeds_max_refuted, C93_wide_range_refuted |
| PropFloatReport | A B C F | C134_reported_loss |
| PropFloatSoftmax | A B C F | C96_softmax_probabilities, C96_softmax_order, C97_unstable_softmax_range_partial, C97_unstable_softmax_nan_refuted |
| PropFloatTool | A B C F | C129_argmax, C129_argmin, C129_axis_x, C129_accumulate, C129_mean, C129_std, C129_nothing, C129_one, C129_multinomial |
| PropFloatTrain | A B C F | C125_adaptive_training_stays_finite, C125_training_stays_finite, C125_gradient_descent_stays_finite, C125_adaptive_program_stays_finite, C125_program_stays_finite, C125_examples_stay_finite |
| PropFreeFunctions | A B C F | C123_sigmoid_derivative_from_value, C123_bce_derivative_partial, C123_bce_derivative_refuted |
| PropFunctions | A B C F | C33_activation_is_textbook, C33_activation_derivative, C33_corner_not_differentiable, C33_derivative_wherever_differentiable, C34_gelu_derivative_formula_partial, C34_gelu_derivative_at_minus1_0_1_partial, C34_gelu_derivative_refuted, C35_ranges, C35_monotone, C36_softmax_value, C36_unstable_softmax_value, C36_softmax_is_distribution, C38_loss_values, C38_loss_gradient, C38_cce_derived_gradient, C39_mae_gradient_refuted, C39_mae_negated_gradient_partial, C40_softmax_cross_entropy_gradient, C40_nll_one_hot, C41_bce_loss_derivative_partial, C41_sigmoid_bce_refuted, C42_loss_zero_iff_perfect |
| PropFunctions | closed | C37_activation_in_place, C37_activation_derivative_in_place, C37_activation_elementwise |
| PropInit | closed | C92_init_exact, C92_successive_values_partial, C92_own_state_refuted |
| PropLifecycle | closed | C08_lifecycle, C08_memory_is_strict, C08_copies_in_history, C08_shapes_in_history, C08_contents_in_history |
| PropLinear | closed | C14_row_vector_times_matrix, C14_row_vector_times_matrix_ret, C15_matrix_times_column_vector, C15_matrix_times_column_vector_ret, C16_matrix_product_ret, C16_matrix_product_inplace_partial, C17_outer_product, C17_outer_product_ret, C18_transpose, C18_transpose_inplace, C18_transpose_twice, C20_inner_product |
| PropLinear | A B C F | C16_matrix_product_inplace_refuted, C19_inverse, C19_inverse_ret |
| PropLique | closed | C01_tensor_addressing, C01_matrix_addressing, C01_overflowing_shape_out_of_storage, C02_single_write, C02_single_write_matrix, C03_tensor_copy_ctor, C04_matrix_copy_ctor_partial, C04_matrix_copy_after_resize_refuted, C05_vector_copy_ctor_refuted, C05_own_storage_partial, C06_vector_copy_assign, C06_tensor_copy_assign_same_size_partial, C06_matrix_copy_assign_same_size_partial, C06_copy_assign_to_larger_refuted, C06_copy_assign_to_smaller_refuted, C06_self_assign, C07_move_ctor, C07_move_assign, C07_self_move, C09_tensor_resize, C09_matrix_resize, C09_vector_resize_partial, C09_vector_resize_refuted, C10_reshape, C10_reshape_matrix, C11_fill, C11_fill_generator, C11_copy, C11_copy_list, C11_apply, C11_apply_src, C11_add_sub_mul, C11_add_sub_mul_3, C11_join, C11_join_src, C12_const_arithmetic_refuted, C12_empty_partial, C13_views_share_storage, C13_view_sizes |
| PropLocker | closed | C117_locked_partial, C117_untouched_partial, C117_ownership_partial, C117_chained_swap_refuted, C117_chained_assign_refuted |
| PropMisc | closed | C79_in_range, C79_rand_max_fits, C79_every_value, C86_signed_refuted, C86_nonnegative_outputs_partial, C86_full_unsigned_range_refuted, C81_split, C82_header_value, C82_accepted_large_enough_partial, C82_images_partial, C82_labels_partial, C82_accepted_large_enough_refuted, C82_short_file_refuted |
| PropMisc | A B C F | C80_unit_interval, C80_in_range, C80_ends |
| PropNet | closed | C63_every_topology_builds, C63_feedforward_is_composition, C64_feedforward_repeatable, C66_single_layer_refuted, C66_empty_net_refuted, C66_two_or_more_layers_partial |
| PropNetGrad | A B C F | C65_backprop_is_gradient, C65_nll_one_hot |
| PropOptTrain | closed | C105_batch_any_optimizer, C105_mini_batch_any_optimizer, C105_stochastic_any_optimizer, C105_new_optimizer |
| PropOptTrain | A B C F | C106_batch_follows_rule, C106_mini_batch_follows_rule, C106_stochastic_follows_rule_partial |
| PropOptimizers | closed | C49_update_safe_and_local, C49_own_calls_decide_partial, C50_gradient_unchanged_partial, C50_gradient_scaled, C84_state_survives_tensor_refuted, C84_unused_address_partial |
| PropOptimizers | A B C F | C50_gradient_unchanged_refuted, C43_grad_descent_rule, C43_sto_grad_descent_rule, C44_momentum_rule, C45_nestorov_rule, C46_adagrad_rule, C47_rmsprop_rule, C46_adagrad_step_bound, C47_rmsprop_step_bound, C48_adam_rule_partial, C48_adam_single_tensor_partial, C48_adam_two_tensors_refuted, C49_adam_tensors_interfere_refuted |
| PropOrder | A B C F | C108_batch_order, C108_mini_batch_order |
| PropPool | closed | C59_construction, C59_raw_value, C60_any_stride_constructs, C60_non_dividing_stride_refuted, C60_dividing_stride_safe_partial, C61_train_ignores_input_refuted, C61_new_layers_differ_refuted, C61_agree_iff_partial |
| PropPool | A B C F | C59_raw_value_is_maximum, C62_backward_routes_to_maximum |
| PropProgram | F | C124_whole_program, C124_simple_test, C124_mnist_test |
| PropProgram | closed | C124_reported_shapes, C124_dense_of_shapes |
| PropRegSession | closed | C127_sessions, C127_program |
| PropRegSession | A B C F | C127_solution_is_least_squares, C127_program_recovers |
| PropRegression | A B C F | C73_linear_least_squares, C74_polynomial_least_squares, C75_linear, C75_polynomial |
| PropRegression | closed | C75_linear_any_arithmetic, C75_polynomial_any_arithmetic, C76_temporary_partial, C76_lvalue_refuted |
| PropResume | F | C109_batch_resumes, C109_mini_batch_resumes, C109_stochastic_resumes_partial |
| PropResume | A B C F | C109_convolution_resume_refuted |
| PropSerial | closed | C77_save_load, C77_same_outputs, C77_regression, C77_pooling_settings, C78_loaded_pooling_refuted |
| PropSession | F | C107_evaluation_does_not_change_training |
| PropStale | F | C90_stochastic_after_batch_ignores_data_refuted |
| PropTool | closed | C21_argmax, C21_argmin, C21_empty, C22_axis_x_partial, C22_axis_y_refuted, C24_concat_variadic_partial, C24_concat_container_refuted, C25_block_loop_partial, C25_full_width_refuted, C25_one_column_refuted, C25_width_one_refuted, C26_multinomial, C23_statistics_any_scalar |
| PropTool | A B C F | C21_real_order_is_strict_weak, C23_statistics |
| PropTraining | closed | C67_batch_schedule, C67_each_sample_once_per_epoch, C68_mini_batch_schedule, C68_partition, C69_stochastic_schedule, C69_valid_samples, C69_empty_data_undefined |

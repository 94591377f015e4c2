{
 "claims": [
  {
   "property": "C01",
   "status": "proved",
   "theorems": [
    "C01_shape_construction",
    "C01_shape_rejects"
   ],
   "note": "All dimension lists with a product below 2^64."
  },
  {
   "property": "C02",
   "status": "partial",
   "theorems": [
    "C02_size_is_product_refuted",
    "C02_size_is_product_partial"
   ],
   "note": "REFUTED: the element count wraps modulo 2^64 and no constructor check exists; a wrapped tensor is then read out of bounds by at(). Partial: the size is the product modulo 2^64."
  },
  {
   "property": "C03",
   "status": "proved",
   "theorems": [
    "C03_reshape_ok",
    "C03_reshape_rejects",
    "C03_reshape_back"
   ],
   "note": "Full statement, including unchanged-on-throw and the round trip."
  },
  {
   "property": "C04",
   "status": "proved",
   "theorems": [
    "C04_addressing_bijection",
    "C04_row_major_order",
    "C04_flat_is_ravel"
   ],
   "note": "Bijection, and cells follow the lexicographic order of multi-indices."
  },
  {
   "property": "C05",
   "status": "proved",
   "theorems": [
    "C05_at_safe",
    "C05_at_write_rejects"
   ],
   "note": "Full statement, for reads and writes."
  },
  {
   "property": "C06",
   "status": "proved",
   "theorems": [
    "C06_read_after_write"
   ],
   "note": "Full statement."
  },
  {
   "property": "C07",
   "status": "proved",
   "theorems": [
    "C07_broadcast_shapes",
    "C07_broadcast_exists"
   ],
   "note": "Full statement; areBroadcastable agrees."
  },
  {
   "property": "C08",
   "status": "proved",
   "theorems": [
    "C08_commutative",
    "C08_associative",
    "C08_idempotent_neutral"
   ],
   "note": "Equality of outcomes: same shape or the same exception. No size bound for commutativity and associativity."
  },
  {
   "property": "C09",
   "status": "proved",
   "theorems": [
    "C09_binop",
    "C09_binop_rejects",
    "C09_four_operators"
   ],
   "note": "Any element function and any arithmetic; results of at most INT_MAX elements."
  },
  {
   "property": "C10",
   "status": "proved",
   "theorems": [
    "C10_inplace",
    "C10_inplace_rejects"
   ],
   "note": "Aliased operand included."
  },
  {
   "property": "C100",
   "status": "proved",
   "theorems": [
    "C100_read",
    "C100_write",
    "C100_every_position",
    "C100_outside_undefined"
   ],
   "note": "By the flat index lemma for every rank; outside the tensor operator[] is undefined."
  },
  {
   "property": "C101",
   "status": "partial",
   "theorems": [
    "C101_dense_partial",
    "C101_biases_checked",
    "C101_convolution",
    "C101_shapes_refuted",
    "C101_new_gradients_undefined",
    "C101_new_convolution_gradients_undefined",
    "C101_gradients",
    "C101_convolution_gradients",
    "C101_set_gradients"
   ],
   "note": "REFUTED: setWeights checks nothing (a 5x2 tensor is accepted by a 3->2 layer and forward throws afterwards) and setBiases checks only for shape (1, *), not the width. Proved: with fitting tensors forward is the affine map (convolution) of exactly the tensors set and no other state changes; a bias tensor not of shape (1, *) is rejected without effect; gradients are undefined to read before the first backward, afterwards they are the batch sums of the last backward; gradients that are set are what plain SGD applies."
  },
  {
   "property": "C102",
   "status": "proved",
   "theorems": [
    "C102_concat",
    "C102_positions"
   ],
   "note": "By induction over the first shape."
  },
  {
   "property": "C103",
   "status": "partial",
   "theorems": [
    "C103_partial",
    "C103_one_layer",
    "C103_one_result",
    "C103_refuted",
    "C103_adam_shares"
   ],
   "note": "REFUTED: true of SGD and RMSProp for every network, and of every optimizer when at most one layer has parameters (proved by a simulation). False of Adam with two parametric layers: they share the count of updates, so the second layer's first update is corrected as if it were the second (C103_refuted; weight -31/72 instead of -1/2)."
  },
  {
   "property": "C104",
   "status": "proved",
   "theorems": [
    "C104_random_tensor",
    "C104_fully_connected",
    "C104_convolution",
    "C104_dropout_mask",
    "C104_others_draw_nothing"
   ],
   "note": "Closed form of the drawing loop for an arbitrary generator; the engine is followed through the layers of a network."
  },
  {
   "property": "C105",
   "status": "partial",
   "theorems": [
    "C105_partial",
    "C105_convolution",
    "C105_relu_idle",
    "C105_refuted",
    "C105_deviation_refuted"
   ],
   "note": "REFUTED: weights come from Tensor::rand, which clamps the draws to 0..1, so no initial weight is negative and every negative draw becomes 0; the deviation is sqrt(2 / number of weights). Proved: the exact map from draws to weights, and that ReLU layers between new fully connected layers leave non-negative inputs' results unchanged."
  },
  {
   "property": "C106",
   "status": "partial",
   "theorems": [
    "C106_partial",
    "C106_signal",
    "C106_slope",
    "C106_refuted"
   ],
   "note": "REFUTED: true for batches of one row (C106_partial). The loss already returns the derivative with respect to the inputs of Softmax and the Softmax layer applies its Jacobian again; for two rows the resulting step can increase the loss for every small learning rate (C106_refuted). For any batch the exact slope of the loss is proved, and that the signal below Softmax never points uphill for its own inputs."
  },
  {
   "property": "C107",
   "status": "proved",
   "theorems": [
    "C107_chosen_rows",
    "C107_fewer_rows",
    "C107_alone"
   ],
   "note": "Every layer kind, in evaluation mode, without any law of arithmetic. Selections larger than the batch need the larger batch to fit as well (C107_chosen_rows); up to the size of the batch there is no further condition."
  },
  {
   "property": "C108",
   "status": "proved",
   "theorems": [
    "C108_layer",
    "C108_network",
    "C108_samples"
   ],
   "note": "Exact arithmetic. The MNIST example normalises rows of 128 features this way."
  },
  {
   "property": "C109",
   "status": "partial",
   "theorems": [
    "C109_partial",
    "C109_exists",
    "C109_step_partial",
    "C109_step_exists",
    "C109_refuted",
    "C109_first_image",
    "C109_first_exists"
   ],
   "note": "REFUTED: a convolution layer takes its gradients from the first image of the batch only (C109_refuted); C109_first_image says for every batch that they are those of the first image divided by the number of images. For networks of fully-connected, activation (including softmax) and flatten layers with either loss the property is proved (C109_partial, C109_step_partial) and nothing throws."
  },
  {
   "property": "C11",
   "status": "proved",
   "theorems": [
    "C11_scalar_ops",
    "C11_scalar_inplace",
    "C11_division_by_zero"
   ],
   "note": "operator-=(T) and operator*=(T) of Tensor do not compile in the source; the functions they were meant to call are the ones modelled."
  },
  {
   "property": "C110",
   "status": "partial",
   "theorems": [
    "C110_refuted",
    "C110_powers_of_two_partial",
    "C110_close",
    "C110_counting",
    "C110_many_ones"
   ],
   "note": "REFUTED: the mean of 41 ones is less than 1 and their variance positive, because the sum is multiplied by the rounded reciprocal of the count (C110_refuted). True parts: counts that are powers of two (C110_powers_of_two_partial), an error bound for every mean (C110_close). Counting by adding ones stops at 2^24 (C110_counting, C110_many_ones)."
  },
  {
   "property": "C111",
   "status": "proved",
   "theorems": [
    "C111_elementwise",
    "C111_sum",
    "C111_sum_axis",
    "C111_matmul",
    "C111_fully_connected",
    "C111_range",
    "C111_limit"
   ],
   "note": "float32 arithmetic of SpecFloat, operations rounded separately. C111_limit shows that the limit 2^24 is sharp."
  },
  {
   "property": "C112",
   "status": "partial",
   "theorems": [
    "C112_refuted",
    "C112_never_moves",
    "C112_moves_partial"
   ],
   "note": "REFUTED: with weight 1, gradient 1 and rate 2^-27 the weight stays 1 (C112_refuted). C112_never_moves: steps of at most 2^-27 of the weight are lost over every history, whereas over exact numbers the weight moves by their sum (C55_plain). True part: C112_moves_partial. Momentum and weight decay zero; operations rounded separately."
  },
  {
   "property": "C113",
   "status": "partial",
   "theorems": [
    "C113_refuted",
    "C113_only_gradients",
    "C113_recovers"
   ],
   "note": "REFUTED: C113_refuted gives a convolution and a fully connected layer whose gradients are changed by a failing pass. True part, for every network: C113_only_gradients and C113_recovers."
  },
  {
   "property": "C114",
   "status": "partial",
   "theorems": [
    "C114_evaluated_partial",
    "C114_no_flatten_partial",
    "C114_flatten_refuted",
    "C114_training_mode_refuted"
   ],
   "note": "REFUTED: C114_flatten_refuted (a Flatten layer given (batch, features) uses the shape of the last image, so one prediction makes the next training run throw) and C114_training_mode_refuted (predictions in training mode change batch normalisation's running statistics). True part: C114_evaluated_partial, and C114_no_flatten_partial for networks without Flatten."
  },
  {
   "property": "C115",
   "status": "partial",
   "theorems": [
    "C115_last_four_partial",
    "C115_files_partial",
    "C115_few",
    "C115_none",
    "C115_untrained",
    "C115_trained_throws",
    "C115_few_refuted",
    "C115_trained_refuted"
   ],
   "note": "REFUTED: C115_few_refuted (four batches, nothing is shown; for every network C115_few, and C115_none for no batch) and C115_trained_refuted (for all images C115_trained_throws). True part: C115_last_four_partial, C115_files_partial; C115_untrained for the program's network before training."
  },
  {
   "property": "C116",
   "status": "partial",
   "theorems": [
    "C116_training_partial",
    "C116_step_partial",
    "C116_gradients_partial",
    "C116_loss",
    "C116_refuted",
    "C116_float_refuted"
   ],
   "note": "REFUTED: C116_refuted (a convolution uses only the first image) and C116_float_refuted (float32 sums depend on the order). True part: in exact arithmetic without convolutions, C116_training_partial, C116_step_partial, C116_gradients_partial; C116_loss for every prediction."
  },
  {
   "property": "C117",
   "status": "proved",
   "theorems": [
    "C117_slice",
    "C117_slice_constructed",
    "C117_broadcast",
    "C117_end",
    "C117_equal",
    "C117_loop"
   ],
   "note": "All shapes and every number of increments, for both kinds of view; lifetime of the view an iterator refers to is not modelled."
  },
  {
   "property": "C118",
   "status": "partial",
   "theorems": [
    "C118_settled",
    "C118_certain_refuted"
   ],
   "note": "REFUTED: the cross-entropy clamps predictions to [1e-7, 1-1e-7], so a prediction of exactly 1 and 0 for a one-hot target still gets a gradient and every step moves the weights further (C118_certain_refuted). Proved for the mean squared error, and for the cross-entropy with targets inside the clamped range."
  },
  {
   "property": "C119",
   "status": "partial",
   "theorems": [
    "C119_where",
    "C119_update",
    "C119_parameters",
    "C119_predictions",
    "C119_skip",
    "C119_skip_flatten",
    "C119_flatten_refuted",
    "C119_training_mode_refuted"
   ],
   "note": "REFUTED: in full, because a Flatten layer keeps the shape of the failed sample (later training can then throw), and batch normalisation in training mode takes it into its running statistics. Proved: which samples were applied, for every failure; no parameter, optimizer or loss changes; without Flatten and outside training mode predictions and later training are as if the sample had not been shown; with Flatten whenever training works without remembered shapes."
  },
  {
   "property": "C12",
   "status": "proved",
   "theorems": [
    "C12_broadcast_view_iteration"
   ],
   "note": "Iteration yields exactly the elements at all target multi-indices in row-major order."
  },
  {
   "property": "C120",
   "status": "partial",
   "theorems": [
    "C120_patches",
    "C120_convolution",
    "C120_transpose",
    "C120_fit_refuted"
   ],
   "note": "REFUTED: only the last sentence: the number of positions is computed with a division that truncates towards zero, so with stride 2 a kernel one larger than the image is accepted. The rest is proved for all sizes that fit. The OpenMP pragmas on these loops are not active in the build and not modelled."
  },
  {
   "property": "C121",
   "status": "partial",
   "theorems": [
    "C121_epochs",
    "C121_samples",
    "C121_samples_failure",
    "C121_one_by_one",
    "C121_report",
    "C121_recompiled",
    "C121_recompile_refuted"
   ],
   "note": "REFUTED: only the last sentence, with momentum (C121_recompile_refuted): compile() replaces the optimizer and with it the momenta. The rest is proved for all networks."
  },
  {
   "property": "C122",
   "status": "proved",
   "theorems": [
    "C122_prediction",
    "C122_same_input",
    "C122_choice"
   ],
   "note": "Every layer kind and every activation. Convolution with one input channel; leaky ReLU slope at most 1 in size; Tanh for inputs up to 30 (it overflows from 64 on, C95); pooling without padding; batch normalisation and dropout in evaluation mode; dimension and size limits as stated in drift. Operations are taken as rounded one by one (no fused multiply-add), as in C92-C98."
  },
  {
   "property": "C123",
   "status": "partial",
   "theorems": [
    "C123_exact_partial",
    "C123_at_most_half",
    "C123_few",
    "C123_refuted"
   ],
   "note": "REFUTED: the mask is drawn from a normal distribution with mean 0 and variance 2 / (number of elements), cut off to [0,1], not from a uniform distribution. C123_refuted: an even-handed engine with the right variance for which nine ones come out as 2/3 on average at rate 0.25. What is true: the average is the input exactly if the share of draws above the rate is 1 - rate (C123_exact_partial); but at most half of the elements are kept whatever the rate (C123_at_most_half), and the expected number of kept elements in the whole tensor is at most 2/rate^2 however large the tensor (C123_few) - 32 elements at the MNIST example's rate 0.25. The last two are for real arithmetic and need only the symmetry or the variance of the draws, not normality."
  },
  {
   "property": "C124",
   "status": "proved",
   "theorems": [
    "C124_pair",
    "C124_uniform",
    "C124_pairings",
    "C124_dropout_differs"
   ],
   "note": "Proved for batches, any arithmetic and any new optimizer. C124_pairings is the general form (a pairing for the units at each layer boundary), C124_pair the case of two units, C124_uniform the case of constant weights. C124_dropout_differs shows that the exclusion of dropout is needed."
  },
  {
   "property": "C125",
   "status": "proved",
   "theorems": [
    "C125_adam",
    "C125_training",
    "C125_parameters",
    "C125_readme",
    "C125_linear",
    "C125_linear_example",
    "C125_evaluation",
    "C125_mnist",
    "C125_readme_network"
   ],
   "note": "Proved for every number of epochs allowed by the update counter of Adam (epochs x samples x layers at most INT_MAX), with separately rounded float32 operations. C125_adam is about the optimizer alone, C125_training about any network whose layers meet the bounds of [calms], C125_readme about the README's network, C125_linear and C125_linear_example about the linear regression example and its whole program, C125_mnist about the network of the MNIST example without its two batch normalisation layers (with them training is undefined, C84), on any image and label files. Batch normalisation and tanh are not among the layers. Regularisation strengths are 0 and the decay rates 0.9 and 0.999."
  },
  {
   "property": "C126",
   "status": "partial",
   "theorems": [
    "C126_own_networks_partial",
    "C126_shared_reading_partial",
    "C126_same_network_races",
    "C126_same_network_refuted",
    "C126_dropout_races",
    "C126_dropout_refuted"
   ],
   "note": "REFUTED: predict stores its input in the layers, so two threads that predict with one network race even in evaluation mode (C126_same_network_races, for every network whose first layer keeps its input); and all networks share one random engine, so threads with different networks race when both get to a Dropout layer in training mode (C126_dropout_races). True: threads that each use their own network, at most one of which draws random numbers, never race, and get what they would get alone, under every schedule (C126_own_networks_partial); the same for threads that predict with one network all of whose layers only read, that is Dropout and batch normalisation in evaluation mode (C126_shared_reading_partial). A layer object is one memory cell."
  },
  {
   "property": "C127",
   "status": "proved",
   "theorems": [
    "C127_shifted_image",
    "C127_half_stride"
   ],
   "note": "Holds in any arithmetic. Distances that are not multiples of the pooling strides are really excluded: C127_half_stride has an image moved by one pixel whose output is neither the old one nor the old one moved."
  },
  {
   "property": "C128",
   "status": "partial",
   "theorems": [
    "C128_same_prediction_partial",
    "C128_output_partial",
    "C128_channels_ignored",
    "C128_refuted"
   ],
   "note": "REFUTED: with more than one input channel the convolution ignores all but the first (C128_channels_ignored, for every number of channels above one). True for one input channel, with any number of kernels and samples, bit for bit (C128_same_prediction_partial, C128_output_partial)."
  },
  {
   "property": "C129",
   "status": "partial",
   "theorems": [
    "C129_prediction",
    "C129_loss",
    "C129_training",
    "C129_hidden_units",
    "C129_float_refuted"
   ],
   "note": "REFUTED: in float32 the order of the terms of a sum is visible (C129_float_refuted: the features 2^24, 1, -2^24 add up to 0 in one order and to 1 in another). In exact arithmetic it holds for predictions, losses and the whole of training (C129_prediction, C129_loss, C129_training, C129_hidden_units)."
  },
  {
   "property": "C13",
   "status": "partial",
   "theorems": [
    "C13_view_construction_refuted",
    "C13_view_construction_partial"
   ],
   "note": "REFUTED: a target of smaller rank than the source is accepted. Partial: exact when the target rank is at least the source rank."
  },
  {
   "property": "C130",
   "status": "proved",
   "theorems": [
    "C130_training"
   ],
   "note": "Exact arithmetic (RInf M), any later layers, any loss, any new optimizer; weights of the zero features unchanged when the optimizer is built without decay or penalties."
  },
  {
   "property": "C131",
   "status": "proved",
   "theorems": [
    "C131_training"
   ],
   "note": "Exact arithmetic (RInf M); inactive units of the first hidden layer; optimizers built without decay or penalties."
  },
  {
   "property": "C132",
   "status": "proved",
   "theorems": [
    "C132_merge",
    "C132_exists"
   ],
   "note": "Exact arithmetic; the rounding of a float32 network differs between the two forms (C122 bounds it)."
  },
  {
   "property": "C133",
   "status": "proved",
   "theorems": [
    "C133_dense",
    "C133_dense_exists",
    "C133_conv",
    "C133_conv_exists"
   ],
   "note": "Exact arithmetic. The convolution is the one of the code (stride 1, no padding, input channel 0, C45)."
  },
  {
   "property": "C134",
   "status": "proved",
   "theorems": [
    "C134_hidden",
    "C134_input"
   ],
   "note": "Exact arithmetic."
  },
  {
   "property": "C135",
   "status": "proved",
   "theorems": [
    "C135_dropout",
    "C135_flatten",
    "C135_flatten_twice",
    "C135_relu_twice"
   ],
   "note": "Dropout in evaluation mode, as predict uses it when the mode has been switched."
  },
  {
   "property": "C136",
   "status": "proved",
   "theorems": [
    "C136_flatten",
    "C136_relu",
    "C136_relu_float",
    "C136_rising",
    "C136_not_falling"
   ],
   "note": "Pooling without padding, as C47; values above minus infinity."
  },
  {
   "property": "C137",
   "status": "proved",
   "theorems": [
    "C137_float",
    "C137_prediction",
    "C137_choice",
    "C137_exists",
    "C137_attained"
   ],
   "note": "Exact arithmetic with a largest number (start value of max pooling); C137_float is the float32 statement, with the bounds of C122. Convolution as in the code (input channel 0). Batch normalisation in evaluation mode only."
  },
  {
   "property": "C138",
   "status": "partial",
   "theorems": [
    "C138_training_partial",
    "C138_step_partial",
    "C138_loss",
    "C138_refuted"
   ],
   "note": "REFUTED: with a convolution, whose backward pass uses only the first image and divides by the number of images (C109): repeating the only image halves the gradient. Proved for networks of fully connected, activation and flatten layers, in exact arithmetic, both losses and all three optimizers."
  },
  {
   "property": "C139",
   "status": "proved",
   "theorems": [
    "C139_prediction",
    "C139_choice",
    "C139_continuous",
    "C139_attained"
   ],
   "note": "Exact arithmetic with a largest number (start value of max pooling). Weights and biases of fully connected layers and convolutions change; batch normalisation keeps its values and is in evaluation mode. Convolution as in the code (input channel 0)."
  },
  {
   "property": "C14",
   "status": "partial",
   "theorems": [
    "C14_slice_view_refuted",
    "C14_slice_view_partial",
    "C14_any_start",
    "C14_rejects"
   ],
   "note": "REFUTED: the requested end is ignored. Partial: the view is the strided range from start to the end of the axis, for starts inside the axis (C14_slice_view_partial) and for arbitrary starts, negative ones counting from the end (C14_any_start)."
  },
  {
   "property": "C140",
   "status": "proved",
   "theorems": [
    "C140_prediction",
    "C140_new_network",
    "C140_float",
    "C140_negative_weight",
    "C140_softmax",
    "C140_swish_mish"
   ],
   "note": "Exact arithmetic with a largest number (start value of max pooling). Batch normalisation in evaluation mode with a positive variance plus epsilon. Dropout in training mode with a rate below 1 and the same engine state for both inputs. Convolution as in the code (input channel 0). C140_float: separately rounded operations, numbers kept in range by C122's bounds, Sigmoid if expf never falls (proved of a correctly rounded expf)."
  },
  {
   "property": "C141",
   "status": "partial",
   "theorems": [
    "C141_training",
    "C141_history",
    "C141_override",
    "C141_override_zero_refuted",
    "C141_float",
    "C141_float_refuted"
   ],
   "note": "REFUTED: a rate of 0 passed to a single call is not used: every override that is not positive counts as none, so the optimizer takes its usual step. Proved: an own rate of 0 freezes all parameters, for every network, data and outcome. Exact arithmetic; in float32 an infinite gradient times 0 is not a number and would reach the weight (C141_float_refuted), while with finite gradients plain SGD keeps every value (C141_float)."
  },
  {
   "property": "C142",
   "status": "proved",
   "theorems": [
    "C142_prediction",
    "C142_new_network",
    "C142_ranking",
    "C142_bias"
   ],
   "note": "Exact arithmetic with a positive largest number (start value of max pooling). Dropout in evaluation mode, or in training mode with a rate below 1 and the same engine state for both inputs. Convolution as in the code (input channel 0). Extends the second claim of C134 to pooling, training-mode dropout and the ranking behind Softmax."
  },
  {
   "property": "C143",
   "status": "proved",
   "theorems": [
    "C143_idle",
    "C143_new_network",
    "C143_linear",
    "C143_new_linear",
    "C143_negative_input",
    "C143_float"
   ],
   "note": "Exact arithmetic with a positive largest number (start value of max pooling). Extends C105_relu_idle from dense layers to all layers but batch normalisation. Dropout in evaluation mode, or in training mode with a rate below 1 and the same engine state. Convolution as in the code (input channel 0). float32: finite numbers kept in range by the bounds of C122, no Softmax, Tanh, Swish, Mish in the claim; Sigmoid if expf does not fall anywhere; dropout in evaluation mode."
  },
  {
   "property": "C144",
   "status": "proved",
   "theorems": [
    "C144_prediction",
    "C144_training",
    "C144_colours",
    "C144_gradient"
   ],
   "note": "A consequence of C45 and C46 (forward and backward read only channel 0 of the input) carried through all histories; describes what the code does, not what a user wants of a colour image. The images themselves only need to be consistent tensors of equal sizes."
  },
  {
   "property": "C145",
   "status": "proved",
   "theorems": [
    "C145_kernels",
    "C145_float"
   ],
   "note": "A consequence of C46 (the backward pass fills only the gradients of kernel 0, channel 0) carried through all training histories; a defect for any user who asks for more than one kernel. Proved for exact arithmetic with all three optimizers, and for float32 with SGD without momentum (C145_float); with weight decay the other weights do shrink, which is why penalties are excluded. C145_first_moves shows the first kernel does move."
  },
  {
   "property": "C146",
   "status": "proved",
   "theorems": [
    "C146_kernels_unused"
   ],
   "note": "A consequence of C45 (a convolution reads channel 0 of its input only): asking for many kernels in all but the last convolution costs time and memory and changes nothing. Together with C145 these kernels neither learn nor matter. C146_needed shows that they do count without the second convolution, and that the first kernel counts."
  },
  {
   "property": "C147",
   "status": "proved",
   "theorems": [
    "C147_prediction",
    "C147_predictions",
    "C147_training"
   ],
   "note": "A defect for users who pass these settings: C45 refutes the expected forward pass, this shows that nothing else in the library looks at them either. No hypothesis on the networks; each theorem gives back its own hypothesis, so it can be applied again for the next call."
  },
  {
   "property": "C15",
   "status": "proved",
   "theorems": [
    "C15_slice_view_safe",
    "C15_set_changes_one",
    "C15_step_bound_needed"
   ],
   "note": "Every start/end, positive steps with dimension+step at most INT_MAX (the quantifier of the property); C15_step_bound_needed shows the bound is needed."
  },
  {
   "property": "C16",
   "status": "partial",
   "theorems": [
    "C16_slice_refuted",
    "C16_slice_partial"
   ],
   "note": "REFUTED: for an inner dimension slice copies a contiguous block. Partial: correct when all preceding dimensions are 1, e.g. dimension 0."
  },
  {
   "property": "C17",
   "status": "proved",
   "theorems": [
    "C17_slice_in_bounds",
    "C17_slice_rank1"
   ],
   "note": "For every dimension; also says which block is copied."
  },
  {
   "property": "C18",
   "status": "proved",
   "theorems": [
    "C18_sum_all",
    "C18_sum_axis",
    "C18_sum_axis_rank1",
    "C18_sum_axis_rejects"
   ],
   "note": "Exact accumulation order for any arithmetic."
  },
  {
   "property": "C19",
   "status": "partial",
   "theorems": [
    "C19_sum_all_axes_refuted",
    "C19_sum_axes_partial",
    "C19_sum_all_axes_throws",
    "C19_sum_axes_rejects",
    "C19_slice"
   ],
   "note": "REFUTED: listing every axis throws invalid_argument instead of giving the total. Partial: exact for every other set of axes, duplicates allowed; an axis >= rank throws runtime_error."
  },
  {
   "property": "C20",
   "status": "proved",
   "theorems": [
    "C20_mean_axes",
    "C20_mean_axes_exact",
    "C20_grand_mean",
    "C20_grand_mean_exact",
    "C20_mean_every_axis"
   ],
   "note": "Any arithmetic (explicit order of additions), and over the reals the arithmetic mean."
  },
  {
   "property": "C21",
   "status": "proved",
   "theorems": [
    "C21_variance_axes",
    "C21_variance_exact",
    "C21_variance_all"
   ],
   "note": "Any arithmetic for any mean tensor; over the reals non-negative and zero iff the slice is constant."
  },
  {
   "property": "C22",
   "status": "proved",
   "theorems": [
    "C22_transpose",
    "C22_involution",
    "C22_rejects"
   ],
   "note": "Full statement."
  },
  {
   "property": "C23",
   "status": "proved",
   "theorems": [
    "C23_vec_vec",
    "C23_mat_mat",
    "C23_mat_vec",
    "C23_vec_mat",
    "C23_batch_mat",
    "C23_mat_batch",
    "C23_batched",
    "C23_rejects"
   ],
   "note": "All rank combinations, exact summation order, any arithmetic, results of at most INT_MAX elements."
  },
  {
   "property": "C24",
   "status": "partial",
   "theorems": [
    "C24_batch_broadcast_refuted",
    "C24_batch_mismatch_throws",
    "C24_equal_batch_partial"
   ],
   "note": "REFUTED: different batch dimensions always throw out_of_range. Partial: equal batch dimensions."
  },
  {
   "property": "C25",
   "status": "proved",
   "theorems": [
    "C25_identity_left",
    "C25_identity_right",
    "C25_transpose_product",
    "C25_associative",
    "C25_distributive_left",
    "C25_distributive_right"
   ],
   "note": "Over the reals; includes right distributivity."
  },
  {
   "property": "C26",
   "status": "proved",
   "theorems": [
    "C26_single_ownership",
    "C26_nothing_leaks",
    "C26_isolation",
    "C26_value_semantics",
    "C26_correct_use_is_defined"
   ],
   "note": "Every history from the empty program, allocations failing at will; also refinement to plain values, and no undefined behaviour under correct use."
  },
  {
   "property": "C27",
   "status": "partial",
   "theorems": [
    "C27_move_construction_partial",
    "C27_move_assignment_refuted",
    "C27_move_assignment_state",
    "C27_hollow_unusable"
   ],
   "note": "REFUTED: after move assignment the source keeps its old size() with no dimensions and no buffer; copying or writing it is undefined. Partial: move construction leaves a valid one-element tensor. The exact state after move assignment is proved."
  },
  {
   "property": "C28",
   "status": "partial",
   "theorems": [
    "C28_all_or_nothing_refuted",
    "C28_failed_assignment",
    "C28_same_shape_partial",
    "C28_failed_copy_construction"
   ],
   "note": "REFUTED: a failed a = b leaves a with b's shape over a's old buffer. Partial: all-or-nothing when the shapes are equal. The exact state after every failure is proved; failed copy construction changes nothing."
  },
  {
   "property": "C29",
   "status": "partial",
   "theorems": [
    "C29_value_list_refuted",
    "C29_value_list_partial"
   ],
   "note": "REFUTED: more values than elements are written past the buffer. Partial: correct for at most size() values."
  },
  {
   "property": "C30",
   "status": "proved",
   "theorems": [
    "C30_fill",
    "C30_new",
    "C30_identity",
    "C30_identity_rejects",
    "C30_random_range",
    "C30_rand_range"
   ],
   "note": "Every random stream. Determinism in the seed holds because the model is a function of the engine state and setSeed replaces it."
  },
  {
   "property": "C31",
   "status": "proved",
   "theorems": [
    "C31_equality",
    "C31_equivalence"
   ],
   "note": "Structural equality, and equivalence relation when the element comparison is one."
  },
  {
   "property": "C32",
   "status": "proved",
   "theorems": [
    "C32_relu_forward",
    "C32_leaky_forward",
    "C32_relu_backward",
    "C32_leaky_backward",
    "C32_exact",
    "C32_gradient",
    "C32_mismatch"
   ],
   "note": "Element formulas for any arithmetic; over the reals backward is the derivative times the gradient at every non-zero input."
  },
  {
   "property": "C33",
   "status": "proved",
   "theorems": [
    "C33_forward",
    "C33_backward",
    "C33_gradient",
    "C33_ranges"
   ],
   "note": "Over the reals: forward, backward = g * Derive f, differentiability, and ranges."
  },
  {
   "property": "C34",
   "status": "proved",
   "theorems": [
    "C34_distribution",
    "C34_shift_invariant",
    "C34_rank_throws",
    "C34_elements"
   ],
   "note": "Over the reals; also the exact formula for any arithmetic."
  },
  {
   "property": "C35",
   "status": "proved",
   "theorems": [
    "C35_gradient",
    "C35_jacobian"
   ],
   "note": "Full statement over the reals, as a directional-derivative identity and as the written-out Jacobian."
  },
  {
   "property": "C36",
   "status": "partial",
   "theorems": [
    "C36_short_gradient_refuted",
    "C36_short_gradient_reads_outside",
    "C36_low_rank_partial"
   ],
   "note": "REFUTED: a gradient of rank >= 2 with fewer elements is always read out of bounds. Partial: rank below two throws."
  },
  {
   "property": "C37",
   "status": "proved",
   "theorems": [
    "C37_compute",
    "C37_nonneg_zero",
    "C37_same_shape",
    "C37_gradient",
    "C37_compute_ops",
    "C37_gradient_ops",
    "C37_mismatch_throws"
   ],
   "note": "Value, non-negativity, zero iff equal, and exact derivative over the reals; formulas for any arithmetic; every other mismatch throws."
  },
  {
   "property": "C38",
   "status": "proved",
   "theorems": [
    "C38_value",
    "C38_finite",
    "C38_nonneg",
    "C38_value_ops"
   ],
   "note": "Over the reals: formula, a bound independent of the prediction, non-negativity. NaN predictions (no real value) pass through the clamp and are outside the statement."
  },
  {
   "property": "C39",
   "status": "partial",
   "theorems": [
    "C39_gradient_refuted",
    "C39_true_derivative",
    "C39_logits_partial",
    "C39_gradient_ops"
   ],
   "note": "REFUTED: gradient is (clamped p - t)/batch while the derivative is -t/(p batch). Partial: it is the derivative with respect to the inputs of a preceding softmax when target rows sum to 1. A model that ends in a Softmax layer applies the softmax Jacobian a second time."
  },
  {
   "property": "C40",
   "status": "proved",
   "theorems": [
    "C40_batch",
    "C40_single",
    "C40_rows_independent",
    "C40_wrong_width_throws",
    "C40_constructed"
   ],
   "note": "Forward normal forms for batched and single samples in any arithmetic; sizes below 2^31."
  },
  {
   "property": "C41",
   "status": "proved",
   "theorems": [
    "C41_batch",
    "C41_single"
   ],
   "note": "Batched and rank-1 samples. The rank-1 input gradient has correct values but shape (1,k), see C42."
  },
  {
   "property": "C42",
   "status": "partial",
   "theorems": [
    "C42_partial",
    "C42_single_sample",
    "C42_single_sample_refuted",
    "C42_flatten_undefined",
    "C42_dropout_undefined",
    "C42_batchnorm_undefined"
   ],
   "note": "REFUTED: a fully connected layer given a single sample of shape {k} returns a gradient of shape {1,k}; Flatten on (batch, features), eval-mode Dropout as constructed, and batch normalisation have undefined behaviour in backward. C42_partial proves the property for all other inputs of every layer kind."
  },
  {
   "property": "C43",
   "status": "partial",
   "theorems": [
    "C43_roundtrip_partial",
    "C43_rank_one_throws",
    "C43_refuted",
    "C43_rank_two_backward_undefined"
   ],
   "note": "REFUTED: a rank-2 input is passed through without being remembered, so backward restores the shape of an older input, or dereferences an empty optional on a fresh layer. Proved for every input of rank 3 or more after any history."
  },
  {
   "property": "C44",
   "status": "partial",
   "theorems": [
    "C44_update_before_backward",
    "C44_partial",
    "C44_every_kind",
    "C44_refuted"
   ],
   "note": "REFUTED: backward on an Activation, Flatten or Dropout layer that has not seen forward dereferences an empty optional (undefined behaviour). C44_every_kind says exactly which layer kinds throw."
  },
  {
   "property": "C45",
   "status": "partial",
   "theorems": [
    "C45_partial",
    "C45_computed",
    "C45_ignores_stride_padding_dilation",
    "C45_refuted",
    "C45_stride_padding_dilation_channels_refuted",
    "C45_bad_input_aborts",
    "C45_constructed"
   ],
   "note": "REFUTED: stride, padding and dilation are ignored and only input channel 0 is read. Proved for one input channel, stride 1, padding 0, dilation 1; C45_computed gives the result in every configuration. A wrong rank or channel count aborts through assert."
  },
  {
   "property": "C46",
   "status": "partial",
   "theorems": [
    "C46_partial",
    "C46_only_one_sample_and_channel",
    "C46_refuted"
   ],
   "note": "REFUTED: backward only covers sample 0 and output channel 0. Proved to be the gradient exactly when the batch and the output channels are both 1 (C46_partial and C46_only_one_sample_and_channel)."
  },
  {
   "property": "C47",
   "status": "partial",
   "theorems": [
    "C47_size_only",
    "C47_tiles",
    "C47_new",
    "C47_other_ranks",
    "C47_max_partial",
    "C47_padding_throws",
    "C47_padding_refuted"
   ],
   "note": "REFUTED: any positive padding makes forward throw out_of_range. Proved without padding: shape, windows inside the input, and the value is the first maximum, for every ordered element type (no NaN or minus infinity). With the one-argument constructor (stride = size) the output is h/s x w/s and every covered input position lies in exactly one window."
  },
  {
   "property": "C48",
   "status": "proved",
   "theorems": [
    "C48_routes",
    "C48_conserved",
    "C48_needs_forward"
   ],
   "note": "Routing in any arithmetic with the order of additions; conservation over the reals. Without padding (see C47)."
  },
  {
   "property": "C49",
   "status": "proved",
   "theorems": [
    "C49_training_output",
    "C49_standardised",
    "C49_statistics",
    "C49_constructed",
    "C49_other_ranks"
   ],
   "note": "Formula in any arithmetic; over the reals mean 0 and variance var/(var+eps) < 1."
  },
  {
   "property": "C50",
   "status": "proved",
   "theorems": [
    "C50_moving_averages",
    "C50_eval_changes_nothing",
    "C50_eval_output",
    "C50_rejected_batch",
    "C50_closed_form",
    "C50_nonnegative"
   ],
   "note": "Every sequence of training and eval forwards, any arithmetic; closed form and non-negativity over the reals. C50_rejected_batch: after any history, a batch that throws changes nothing evaluation uses."
  },
  {
   "property": "C51",
   "status": "partial",
   "theorems": [
    "C51_one_channel_partial",
    "C51_more_channels_throw",
    "C51_refuted"
   ],
   "note": "REFUTED: with more than one channel the running statistics grow to shape (1,f,1,f) and eval mode throws. Proved for one channel after any number of training forwards; C51_more_channels_throw covers every other case."
  },
  {
   "property": "C52",
   "status": "partial",
   "theorems": [
    "C52_always_undefined",
    "C52_refuted",
    "C52_needs_forward"
   ],
   "note": "REFUTED: backward indexes a rank-1 shape at position 1 after every training forward (C52_always_undefined). Nothing of the gradient claim is left to prove."
  },
  {
   "property": "C53",
   "status": "proved",
   "theorems": [
    "C53_new",
    "C53_eval_identity",
    "C53_training",
    "C53_training_any_arithmetic"
   ],
   "note": "Eval identity and the exact training formula in any arithmetic; 0 or x/(1-rate) over the reals."
  },
  {
   "property": "C54",
   "status": "partial",
   "theorems": [
    "C54_partial",
    "C54_rate_zero_partial",
    "C54_only_rate_zero",
    "C54_refuted",
    "C54_wrong_shape_throws"
   ],
   "note": "REFUTED: backward omits the factor 1/(1-rate). Proved up to that factor, and exactly for rate 0; C54_only_rate_zero shows no other rate works once an element is kept."
  },
  {
   "property": "C55",
   "status": "proved",
   "theorems": [
    "C55_history",
    "C55_velocity",
    "C55_plain"
   ],
   "note": "Every history, in any arithmetic, follows sgd_rule per parameter; closed forms over the reals (discounted sum without weight decay, plain gradient descent)."
  },
  {
   "property": "C56",
   "status": "proved",
   "theorems": [
    "C56_history",
    "C56_defined"
   ],
   "note": "Every history, in any arithmetic, follows rms_rule; over the reals the square average and centered variance stay non-negative and every denominator is positive."
  },
  {
   "property": "C57",
   "status": "proved",
   "theorems": [
    "C57_moments",
    "C57_rate"
   ],
   "note": "Closed forms of both moments over the reals; iteration count and learning rate per call in any arithmetic. At most INT_MAX calls."
  },
  {
   "property": "C58",
   "status": "partial",
   "theorems": [
    "C58_refuted",
    "C58_shared_refuted",
    "C58_step_partial",
    "C58_ratio"
   ],
   "note": "REFUTED: the step is multiplied by sqrt(1-b2^n)/(1-b1^n) on top of the corrected moments, and n counts optimize calls, not the updates of the parameter. The exact step is proved for every history."
  },
  {
   "property": "C59",
   "status": "partial",
   "theorems": [
    "C59_sgd",
    "C59_rms",
    "C59_adam_partial",
    "C59_adam_refuted",
    "C59_order"
   ],
   "note": "Proved for SGD and RMSProp. REFUTED for Adam: every call advances the one iteration count, so optimizing another tensor changes later updates; proved for Adam when the call numbers agree. The order within a call never matters."
  },
  {
   "property": "C60",
   "status": "partial",
   "theorems": [
    "C60_counts_partial",
    "C60_short",
    "C60_short_refuted",
    "C60_long_refuted"
   ],
   "note": "Count mismatch proved. REFUTED for shapes: a shorter gradient is read past its end (proved for every such gradient and all three optimizers), a longer or reshaped one is accepted."
  },
  {
   "property": "C61",
   "status": "proved",
   "theorems": [
    "C61_get_layer",
    "C61_get_no_layer",
    "C61_activation",
    "C61_no_layers",
    "C61_added_layer",
    "C61_composition",
    "C61_repeatable",
    "C61_vector"
   ],
   "note": "Composition in the order added (any mode), and in eval mode: fold of the layers' forwards, repeatability, vector overload element by element. Eval-mode batch normalisation and dropout included. Layers can be read back in the order they were added; any other position is undefined."
  },
  {
   "property": "C62",
   "status": "proved",
   "theorems": [
    "C62_weights",
    "C62_biases",
    "C62_direction"
   ],
   "note": "Every stored weight and bias gradient is the partial derivative of the MSE loss; also along every direction. Covers Flatten, Softmax and single-image single-output-channel Conv2D besides fully connected and element-wise activation layers. Over the reals; ReLU kinks excluded by smooth_run."
  },
  {
   "property": "C63",
   "status": "partial",
   "theorems": [
    "C63_partial",
    "C63_no_epochs",
    "C63_empty",
    "C63_empty_refuted",
    "C63_short_targets",
    "C63_mismatch_refuted",
    "C63_uncompiled",
    "C63_never_compiled"
   ],
   "note": "REFUTED in two parts: empty inputs throw invalid_argument (division of the loss by zero samples) instead of being a no-op, and fewer targets than inputs are read out of bounds (more targets are ignored silently). The epoch/sample order is proved as an equivalence with fit."
  },
  {
   "property": "C64",
   "status": "proved",
   "theorems": [
    "C64_last_switch_counts",
    "C64_every_layer",
    "C64_parameters"
   ],
   "note": "Any sequence of switches equals the last one, every layer with a mode is in it, parameters, gradients, loss, optimizer and random state are untouched."
  },
  {
   "property": "C65",
   "status": "proved",
   "theorems": [
    "C65_round_trip",
    "C65_float32",
    "C65_reals",
    "C65_wrong_magic"
   ],
   "note": "Each batch and every count must fit in an int (premises on INT_MAX). Proved for every element type in which scaled bytes compare as within [0,1]; float32 (SpecFloat) and the reals are shown to be such types."
  },
  {
   "property": "C66",
   "status": "proved",
   "theorems": [
    "C66_round_trip",
    "C66_bad_label",
    "C66_wrong_magic",
    "C66_batches",
    "C66_counter_overflow",
    "C66_batch_size"
   ],
   "note": "Same int-range premises; C66_counter_overflow shows the loop counter overflows (undefined behaviour) when they fail."
  },
  {
   "property": "C67",
   "status": "partial",
   "theorems": [
    "C67_images_refuted",
    "C67_header_refuted",
    "C67_missing_pixels_are_white",
    "C67_short_header",
    "C67_no_file",
    "C67_labels_partial"
   ],
   "note": "REFUTED: missing pixel bytes load as white pixels without an error (get() returns EOF, which becomes 255), and a file too short for its header is undefined behaviour. Truncated label files throw, and so do files that cannot be opened."
  },
  {
   "property": "C68",
   "status": "proved",
   "theorems": [
    "C68_linear",
    "C68_batched",
    "C68_sizes"
   ],
   "note": "The random engine is an arbitrary state machine. generateBatchedLinearDataset needs n + b to fit in an int (the rounding-up division)."
  },
  {
   "property": "C69",
   "status": "partial",
   "theorems": [
    "C69_apply_pair",
    "C69_matvec",
    "C69_matmat",
    "C69_reduction",
    "C69_reduction_refuted",
    "C69_adam",
    "C69_transpose_refuted",
    "C69_transpose_race",
    "C69_transpose_sequential",
    "C69_random_race",
    "C69_random_same_draw",
    "C69_random_sequential",
    "C69_im2col",
    "C69_col2im"
   ],
   "note": "REFUTED: the transpose loop shares its index vectors between threads: every transpose of two or more elements races, and a schedule losing an element is exhibited. createRandom races on the engine likewise. Run by one thread, both loops give the sequential result. Proved for every schedule and element type: pair-wise apply, matrix-vector, matrix-matrix, Adam's update, im2col and col2im. Simd reductions: any lane split over the reals; not in float (witness)."
  },
  {
   "property": "C70",
   "status": "partial",
   "theorems": [
    "C70_huge_refuted",
    "C70_apply_pair_partial",
    "C70_huge_does_nothing"
   ],
   "note": "REFUTED: with 2^31 elements nothing is computed and zeros are returned. Partial: at most INT_MAX elements."
  },
  {
   "property": "C71",
   "status": "proved",
   "theorems": [
    "C71_apply",
    "C71_reciprocal",
    "C71_apply_pair_rejects"
   ],
   "note": "Full statement for tensors of at most INT_MAX elements."
  },
  {
   "property": "C72",
   "status": "partial",
   "theorems": [
    "C72_forward",
    "C72_backward_partial",
    "C72_refuted"
   ],
   "note": "REFUTED: LeakyReLU, Swish and Mish reject the (1,m) gradient produced by the fully connected layer. Proved for ReLU, Sigmoid and Tanh."
  },
  {
   "property": "C73",
   "status": "partial",
   "theorems": [
    "C73_rank1_refuted",
    "C73_rank1_always",
    "C73_throws_partial"
   ],
   "note": "REFUTED: rank-1 prediction and target read the shape out of bounds. Partial: differing shapes and ranks above two throw."
  },
  {
   "property": "C74",
   "status": "partial",
   "theorems": [
    "C74_partial",
    "C74_refuted"
   ],
   "note": "REFUTED: the mask is drawn from a clamped normal distribution, so a non-positive draw drops the element even with rate 0. Proved when all draws are positive."
  },
  {
   "property": "C75",
   "status": "proved",
   "theorems": [
    "C75_images"
   ],
   "note": "Any arithmetic; f*f at most INT_MAX (the running statistics become f by f)."
  },
  {
   "property": "C76",
   "status": "partial",
   "theorems": [
    "C76_momentum_refuted",
    "C76_larger",
    "C76_unused_partial"
   ],
   "note": "REFUTED: state is keyed by address and never dropped; old momentum is applied, and a larger tensor reads past the old buffer. Proved for addresses no earlier call used (SGD, RMSProp)."
  },
  {
   "property": "C77",
   "status": "proved",
   "theorems": [
    "C77_gradient_descent"
   ],
   "note": "Over the reals, at samples where no ReLU or LeakyReLU input is exactly 0. The SGD optimizer is new before the training history; the history is any list of well-shaped samples."
  },
  {
   "property": "C78",
   "status": "proved",
   "theorems": [
    "C78_training_succeeds"
   ],
   "note": "Any arithmetic in which positive counts convert to non-zero values. Batch normalisation is outside the property because its backward is undefined (C51, C42)."
  },
  {
   "property": "C79",
   "status": "proved",
   "theorems": [
    "C79_small_steps_improve"
   ],
   "note": "Over the reals, at samples where no ReLU or LeakyReLU input is exactly 0; the optimizer is new."
  },
  {
   "property": "C80",
   "status": "proved",
   "theorems": [
    "C80_aligned",
    "C80_mismatch_accepted"
   ],
   "note": "C80_mismatch_accepted also records that files announcing different numbers of samples load without an error."
  },
  {
   "property": "C81",
   "status": "proved",
   "theorems": [
    "C81_picture",
    "C81_small",
    "C81_any_image",
    "C81_off_scale",
    "C81_level_or_off_scale"
   ],
   "note": "float tensors; every byte value is checked under float32 rounding inside the proof. C81_any_image and C81_off_scale cover all other images of that size; by C81_level_or_off_scale there is no third case."
  },
  {
   "property": "C82",
   "status": "partial",
   "theorems": [
    "C82_always_undefined",
    "C82_refuted"
   ],
   "note": "REFUTED: backward of a batch-normalisation layer after a training forward reads past the end of a dimension list (C52), so training is undefined on the first sample of every such network (C82_always_undefined)."
  },
  {
   "property": "C83",
   "status": "proved",
   "theorems": [
    "C83_training_succeeds",
    "C83_linear_example",
    "C83_float32",
    "C83_network"
   ],
   "note": "Any arithmetic in which positive counts convert to non-zero values; proved for float32 (C83_float32). The example's generators are arbitrary."
  },
  {
   "property": "C84",
   "status": "partial",
   "theorems": [
    "C84_always_undefined",
    "C84_refuted",
    "C84_whole_program",
    "C84_network"
   ],
   "note": "REFUTED: the example has two batch-normalisation layers, so its training is undefined for every pair of well-formed files (C84_always_undefined; C84_whole_program for the whole of main with what it prints). C84_network: the network is built as the program asks, with its loss and optimizer settings."
  },
  {
   "property": "C85",
   "status": "proved",
   "theorems": [
    "C85_tensors_consistent",
    "C85_tensors_wf",
    "C85_layers_consistent",
    "C85_networks_consistent",
    "C85_at_never_undefined"
   ],
   "note": "Induction over the inductive relation made (M_Api.v), which has one rule per call of the interface; objects moved from are left out (C26-C28 treat them on the heap). Layers and networks: the invariant covers every tensor they hold, and every buffer of the optimizers. Shapes changed through the mutable operator[] are excluded; see C86."
  },
  {
   "property": "C86",
   "status": "partial",
   "theorems": [
    "C86_larger_dimension_undefined",
    "C86_smaller_dimension_stale",
    "C86_refuted"
   ],
   "note": "REFUTED: operator[] returns a reference to the dimension and nothing recomputes size and strides. C86_refuted: {2,3} with [0] = 5 equals {5,3} but has size 6, and at({4,2}) reads outside the buffer. General: any larger value makes at() undefined at an accepted index (when no 64-bit overflow interferes), any smaller one stays in bounds with a stale size."
  },
  {
   "property": "C87",
   "status": "proved",
   "theorems": [
    "C87_views",
    "C87_dot",
    "C87_dot_rejects"
   ],
   "note": "The views of C87_dot are tied to the constructor by C87_views (conditions of C15)."
  },
  {
   "property": "C88",
   "status": "proved",
   "theorems": [
    "C88_matmul",
    "C88_as_copies",
    "C88_rejects",
    "C88_schedules"
   ],
   "note": "m*n <= INT_MAX; the constructor's views satisfy the hypotheses by C87_views."
  },
  {
   "property": "C89",
   "status": "proved",
   "theorems": [
    "C89_never_worse",
    "C89_best",
    "C89_single",
    "C89_converges",
    "C89_diverges"
   ],
   "note": "Over the reals. C89_best implies that the loss tends to the infimum over all weights. The dataset is a single batch; SGD over several batches is not claimed to converge."
  },
  {
   "property": "C90",
   "status": "proved",
   "theorems": [
    "C90_rmsprop",
    "C90_adam",
    "C90_centered"
   ],
   "note": "Over the reals. C90_centered proves the negative statement for centered RMSProp: a single step can exceed any bound."
  },
  {
   "property": "C91",
   "status": "proved",
   "theorems": [
    "C91_slice_view",
    "C91_broadcast_view",
    "C91_shape",
    "C91_shape_distinct",
    "C91_values",
    "C91_values_distinct",
    "C91_int_values",
    "C91_detail",
    "C91_detail_equal"
   ],
   "note": "Closed forms by loop invariant; injectivity by unique splitting at the commas. How one element is written is a parameter (default stream formatting of floats rounds to six digits, so it is not injective there). Rank at most 2^64. The views' texts show their own shape and that of the tensor they look at."
  },
  {
   "property": "C92",
   "status": "proved",
   "theorems": [
    "C92_growth",
    "C92_sum",
    "C92_sum_axis",
    "C92_matmul",
    "C92_fully_connected",
    "C92_convolution",
    "C92_fused",
    "C92_unfused_is_a_case"
   ],
   "note": "Flocq's correctness of rounding, then induction over the accumulation order of the code. Only hypothesis on values: the result element is finite."
  },
  {
   "property": "C93",
   "status": "proved",
   "theorems": [
    "C93_sigmoid",
    "C93_no_larger_than_input",
    "C93_backward",
    "C93_backward_never_nan"
   ],
   "note": "For every math library with the bounds of libm_like (SpecF32.v); exp, log, tanh rounded to nearest satisfy them (C93_case)."
  },
  {
   "property": "C94",
   "status": "proved",
   "theorems": [
    "C94_distribution",
    "C94_order"
   ],
   "note": "Same hypotheses on the math library; the order statement also needs a non-decreasing exp, which the correctly rounded one is."
  },
  {
   "property": "C95",
   "status": "partial",
   "theorems": [
    "C95_tanh_refuted",
    "C95_large_inputs_become_nan",
    "C95_tanh_partial"
   ],
   "note": "REFUTED: forward computes (exp(2x)-1)/(exp(2x)+1), which is inf/inf = NaN once exp(2x) overflows, in particular for every x >= 64 (C95_large_inputs_become_nan). Proved instead: a number in [-1,1] exactly when exp(2x) is not infinite."
  },
  {
   "property": "C96",
   "status": "proved",
   "theorems": [
    "C96_any_program",
    "C96_continued",
    "C96_fixed_addresses_suffice"
   ],
   "note": "Proved for all three optimizers and any calls; addresses of live parameters are assumed different from each other, as C++ guarantees."
  },
  {
   "property": "C97",
   "status": "partial",
   "theorems": [
    "C97_mse_never_nan",
    "C97_mse_finite",
    "C97_mse_of_itself",
    "C97_zero_means_equal_refuted",
    "C97_zero_means_close",
    "C97_mse_gradient",
    "C97_cross_entropy",
    "C97_cross_entropy_gradient",
    "C97_softmax_cross_entropy"
   ],
   "note": "REFUTED: a zero float32 MSE does not imply equality (two values 2^-80 apart); it implies a difference below 2^-59. Never NaN, sign, range and the cross-entropy bounds are proved. Separately rounded operations; log assumed in [-104,0] on (0,1], met by a correctly rounded log."
  },
  {
   "property": "C98",
   "status": "partial",
   "theorems": [
    "C98_sgd",
    "C98_rmsprop",
    "C98_adam",
    "C98_centered_rmsprop_refuted",
    "C98_adam_freezes"
   ],
   "note": "REFUTED for centered RMSProp: with the default settings and 1150 gradients of 19 the weight is NaN, because the rounded variance estimate becomes negative. Proved for SGD, RMSProp not centered and Adam, without penalties. Adam's corrected moments are computed in double as in C++; pow is any function meeting pow_like (a double between 0 and the base)."
  },
  {
   "property": "C99",
   "status": "partial",
   "theorems": [
    "C99_report",
    "C99_failure",
    "C99_empty",
    "C99_same_training",
    "C99_distinct",
    "C99_one_batch",
    "C99_final_loss_refuted",
    "C99_linear"
   ],
   "note": "REFUTED: the loss printed for an epoch is not the loss of the network the epoch leaves behind: each sample's loss is computed before the update for that sample, so on a single batch the last line shows the loss before the last update (a one-layer model reports 4 while its loss is 0), for every way of printing. Proved: the exact text of every successful run (one line per epoch from 0, average of the per-sample losses, in order), of every failed run (the lines of the finished epochs only) and of the empty dataset (a broken line, then the exception); reporting does not change training; reports determine the printed losses; on one batch line i is the loss after i epochs; for one linear layer at a small enough rate the reported losses never increase."
  }
 ]
}
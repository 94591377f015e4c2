{
 "C01": "All dimension lists with a product below 2^64.",
 "C02": "REFUTED: the element count wraps modulo 2^64 and no constructor check exists; a wrapped tensor is then read out of bounds by at(). Partial: the size is the product modulo 2^64.",
 "C03": "Full statement, including unchanged-on-throw and the round trip.",
 "C04": "Bijection, and cells follow the lexicographic order of multi-indices.",
 "C05": "Full statement, for reads and writes.",
 "C06": "Full statement.",
 "C07": "Full statement; areBroadcastable agrees.",
 "C08": "Equality of outcomes: same shape or the same exception. No size bound for commutativity and associativity.",
 "C09": "Any element function and any arithmetic; results of at most INT_MAX elements.",
 "C10": "Aliased operand included.",
 "C11": "operator-=(T) and operator*=(T) of Tensor do not compile in the source; the functions they were meant to call are the ones modelled.",
 "C12": "Iteration yields exactly the elements at all target multi-indices in row-major order.",
 "C13": "REFUTED: a target of smaller rank than the source is accepted. Partial: exact when the target rank is at least the source rank.",
 "C14": "REFUTED: the requested end is ignored. Partial: the view is the strided range from start to the end of the axis, for starts inside the axis (C14_slice_view_partial) and for arbitrary starts, negative ones counting from the end (C14_any_start).",
 "C15": [
  "proved",
  "Every start/end, positive steps with dimension+step at most INT_MAX (the quantifier of the property); C15_step_bound_needed shows the bound is needed."
 ],
 "C16": "REFUTED: for an inner dimension slice copies a contiguous block. Partial: correct when all preceding dimensions are 1, e.g. dimension 0.",
 "C17": "For every dimension; also says which block is copied.",
 "C18": "Exact accumulation order for any arithmetic.",
 "C29": "REFUTED: more values than elements are written past the buffer. Partial: correct for at most size() values.",
 "C30": "Every random stream. Determinism in the seed holds because the model is a function of the engine state and setSeed replaces it.",
 "C31": "Structural equality, and equivalence relation when the element comparison is one.",
 "C19": "REFUTED: listing every axis throws invalid_argument instead of giving the total. Partial: exact for every other set of axes, duplicates allowed; an axis >= rank throws runtime_error.",
 "C20": "Any arithmetic (explicit order of additions), and over the reals the arithmetic mean.",
 "C21": "Any arithmetic for any mean tensor; over the reals non-negative and zero iff the slice is constant.",
 "C22": "Full statement.",
 "C23": "All rank combinations, exact summation order, any arithmetic, results of at most INT_MAX elements.",
 "C24": "REFUTED: different batch dimensions always throw out_of_range. Partial: equal batch dimensions.",
 "C25": "Over the reals; includes right distributivity.",
 "C70": "REFUTED: with 2^31 elements nothing is computed and zeros are returned. Partial: at most INT_MAX elements.",
 "C71": "Full statement for tensors of at most INT_MAX elements.",
 "C32": "Element formulas for any arithmetic; over the reals backward is the derivative times the gradient at every non-zero input.",
 "C33": "Over the reals: forward, backward = g * Derive f, differentiability, and ranges.",
 "C34": "Over the reals; also the exact formula for any arithmetic.",
 "C35": "Full statement over the reals, as a directional-derivative identity and as the written-out Jacobian.",
 "C36": "REFUTED: a gradient of rank >= 2 with fewer elements is always read out of bounds. Partial: rank below two throws.",
 "C37": "Value, non-negativity, zero iff equal, and exact derivative over the reals; formulas for any arithmetic; every other mismatch throws.",
 "C38": "Over the reals: formula, a bound independent of the prediction, non-negativity. NaN predictions (no real value) pass through the clamp and are outside the statement.",
 "C39": "REFUTED: gradient is (clamped p - t)/batch while the derivative is -t/(p batch). Partial: it is the derivative with respect to the inputs of a preceding softmax when target rows sum to 1. A model that ends in a Softmax layer applies the softmax Jacobian a second time.",
 "C73": "REFUTED: rank-1 prediction and target read the shape out of bounds. Partial: differing shapes and ranks above two throw.",
 "C40": "Forward normal forms for batched and single samples in any arithmetic; sizes below 2^31.",
 "C41": "Batched and rank-1 samples. The rank-1 input gradient has correct values but shape (1,k), see C42.",
 "C43": "REFUTED: a rank-2 input is passed through without being remembered, so backward restores the shape of an older input, or dereferences an empty optional on a fresh layer. Proved for every input of rank 3 or more after any history.",
 "C45": "REFUTED: stride, padding and dilation are ignored and only input channel 0 is read. Proved for one input channel, stride 1, padding 0, dilation 1; C45_computed gives the result in every configuration. A wrong rank or channel count aborts through assert.",
 "C46": "REFUTED: backward only covers sample 0 and output channel 0. Proved to be the gradient exactly when the batch and the output channels are both 1 (C46_partial and C46_only_one_sample_and_channel).",
 "C72": "REFUTED: LeakyReLU, Swish and Mish reject the (1,m) gradient produced by the fully connected layer. Proved for ReLU, Sigmoid and Tanh.",
 "C47": "REFUTED: any positive padding makes forward throw out_of_range. Proved without padding: shape, windows inside the input, and the value is the first maximum, for every ordered element type (no NaN or minus infinity). With the one-argument constructor (stride = size) the output is h/s x w/s and every covered input position lies in exactly one window.",
 "C48": "Routing in any arithmetic with the order of additions; conservation over the reals. Without padding (see C47).",
 "C49": "Formula in any arithmetic; over the reals mean 0 and variance var/(var+eps) < 1.",
 "C50": "Every sequence of training and eval forwards, any arithmetic; closed form and non-negativity over the reals. C50_rejected_batch: after any history, a batch that throws changes nothing evaluation uses.",
 "C51": "REFUTED: with more than one channel the running statistics grow to shape (1,f,1,f) and eval mode throws. Proved for one channel after any number of training forwards; C51_more_channels_throw covers every other case.",
 "C52": "REFUTED: backward indexes a rank-1 shape at position 1 after every training forward (C52_always_undefined). Nothing of the gradient claim is left to prove.",
 "C53": "Eval identity and the exact training formula in any arithmetic; 0 or x/(1-rate) over the reals.",
 "C54": "REFUTED: backward omits the factor 1/(1-rate). Proved up to that factor, and exactly for rate 0; C54_only_rate_zero shows no other rate works once an element is kept.",
 "C74": "REFUTED: the mask is drawn from a clamped normal distribution, so a non-positive draw drops the element even with rate 0. Proved when all draws are positive.",
 "C75": "Any arithmetic; f*f at most INT_MAX (the running statistics become f by f).",
 "C55": "Every history, in any arithmetic, follows sgd_rule per parameter; closed forms over the reals (discounted sum without weight decay, plain gradient descent).",
 "C56": "Every history, in any arithmetic, follows rms_rule; over the reals the square average and centered variance stay non-negative and every denominator is positive.",
 "C57": "Closed forms of both moments over the reals; iteration count and learning rate per call in any arithmetic. At most INT_MAX calls.",
 "C58": "REFUTED: the step is multiplied by sqrt(1-b2^n)/(1-b1^n) on top of the corrected moments, and n counts optimize calls, not the updates of the parameter. The exact step is proved for every history.",
 "C59": "Proved for SGD and RMSProp. REFUTED for Adam: every call advances the one iteration count, so optimizing another tensor changes later updates; proved for Adam when the call numbers agree. The order within a call never matters.",
 "C60": "Count mismatch proved. REFUTED for shapes: a shorter gradient is read past its end (proved for every such gradient and all three optimizers), a longer or reshaped one is accepted.",
 "C76": "REFUTED: state is keyed by address and never dropped; old momentum is applied, and a larger tensor reads past the old buffer. Proved for addresses no earlier call used (SGD, RMSProp).",
 "C42": "REFUTED: a fully connected layer given a single sample of shape {k} returns a gradient of shape {1,k}; Flatten on (batch, features), eval-mode Dropout as constructed, and batch normalisation have undefined behaviour in backward. C42_partial proves the property for all other inputs of every layer kind.",
 "C44": "REFUTED: backward on an Activation, Flatten or Dropout layer that has not seen forward dereferences an empty optional (undefined behaviour). C44_every_kind says exactly which layer kinds throw.",
 "C61": "Composition in the order added (any mode), and in eval mode: fold of the layers' forwards, repeatability, vector overload element by element. Eval-mode batch normalisation and dropout included. Layers can be read back in the order they were added; any other position is undefined.",
 "C62": "Every stored weight and bias gradient is the partial derivative of the MSE loss; also along every direction. Covers Flatten, Softmax and single-image single-output-channel Conv2D besides fully connected and element-wise activation layers. Over the reals; ReLU kinks excluded by smooth_run.",
 "C63": "REFUTED in two parts: empty inputs throw invalid_argument (division of the loss by zero samples) instead of being a no-op, and fewer targets than inputs are read out of bounds (more targets are ignored silently). The epoch/sample order is proved as an equivalence with fit.",
 "C64": "Any sequence of switches equals the last one, every layer with a mode is in it, parameters, gradients, loss, optimizer and random state are untouched.",
 "C78": "Any arithmetic in which positive counts convert to non-zero values. Batch normalisation is outside the property because its backward is undefined (C51, C42).",
 "C77": "Over the reals, at samples where no ReLU or LeakyReLU input is exactly 0. The SGD optimizer is new before the training history; the history is any list of well-shaped samples.",
 "C79": "Over the reals, at samples where no ReLU or LeakyReLU input is exactly 0; the optimizer is new.",
 "C65": "Each batch and every count must fit in an int (premises on INT_MAX). Proved for every element type in which scaled bytes compare as within [0,1]; float32 (SpecFloat) and the reals are shown to be such types.",
 "C66": "Same int-range premises; C66_counter_overflow shows the loop counter overflows (undefined behaviour) when they fail.",
 "C67": "REFUTED: missing pixel bytes load as white pixels without an error (get() returns EOF, which becomes 255), and a file too short for its header is undefined behaviour. Truncated label files throw, and so do files that cannot be opened.",
 "C68": "The random engine is an arbitrary state machine. generateBatchedLinearDataset needs n + b to fit in an int (the rounding-up division).",
 "C80": "C80_mismatch_accepted also records that files announcing different numbers of samples load without an error.",
 "C81": "float tensors; every byte value is checked under float32 rounding inside the proof. C81_any_image and C81_off_scale cover all other images of that size; by C81_level_or_off_scale there is no third case.",
 "C26": "Every history from the empty program, allocations failing at will; also refinement to plain values, and no undefined behaviour under correct use.",
 "C27": "REFUTED: after move assignment the source keeps its old size() with no dimensions and no buffer; copying or writing it is undefined. Partial: move construction leaves a valid one-element tensor. The exact state after move assignment is proved.",
 "C28": "REFUTED: a failed a = b leaves a with b's shape over a's old buffer. Partial: all-or-nothing when the shapes are equal. The exact state after every failure is proved; failed copy construction changes nothing.",
 "C69": "REFUTED: the transpose loop shares its index vectors between threads: every transpose of two or more elements races, and a schedule losing an element is exhibited. createRandom races on the engine likewise. Run by one thread, both loops give the sequential result. Proved for every schedule and element type: pair-wise apply, matrix-vector, matrix-matrix, Adam's update, im2col and col2im. Simd reductions: any lane split over the reals; not in float (witness).",
 "C82": "REFUTED: backward of a batch-normalisation layer after a training forward reads past the end of a dimension list (C52), so training is undefined on the first sample of every such network (C82_always_undefined).",
 "C83": "Any arithmetic in which positive counts convert to non-zero values; proved for float32 (C83_float32). The example's generators are arbitrary.",
 "C84": "REFUTED: the example has two batch-normalisation layers, so its training is undefined for every pair of well-formed files (C84_always_undefined; C84_whole_program for the whole of main with what it prints). C84_network: the network is built as the program asks, with its loss and optimizer settings.",
 "C85": "Induction over the inductive relation made (M_Api.v), which has one rule per call of the interface; objects moved from are left out (C26-C28 treat them on the heap). Layers and networks: the invariant covers every tensor they hold, and every buffer of the optimizers. Shapes changed through the mutable operator[] are excluded; see C86.",
 "C86": "REFUTED: operator[] returns a reference to the dimension and nothing recomputes size and strides. C86_refuted: {2,3} with [0] = 5 equals {5,3} but has size 6, and at({4,2}) reads outside the buffer. General: any larger value makes at() undefined at an accepted index (when no 64-bit overflow interferes), any smaller one stays in bounds with a stale size.",
 "C87": "The views of C87_dot are tied to the constructor by C87_views (conditions of C15).",
 "C88": "m*n <= INT_MAX; the constructor's views satisfy the hypotheses by C87_views.",
 "C89": "Over the reals. C89_best implies that the loss tends to the infimum over all weights. The dataset is a single batch; SGD over several batches is not claimed to converge.",
 "C90": "Over the reals. C90_centered proves the negative statement for centered RMSProp: a single step can exceed any bound.",
 "C91": "Closed forms by loop invariant; injectivity by unique splitting at the commas. How one element is written is a parameter (default stream formatting of floats rounds to six digits, so it is not injective there). Rank at most 2^64. The views' texts show their own shape and that of the tensor they look at.",
 "C92": "Flocq's correctness of rounding, then induction over the accumulation order of the code. Only hypothesis on values: the result element is finite.",
 "C93": "For every math library with the bounds of libm_like (SpecF32.v); exp, log, tanh rounded to nearest satisfy them (C93_case).",
 "C94": "Same hypotheses on the math library; the order statement also needs a non-decreasing exp, which the correctly rounded one is.",
 "C95": "REFUTED: forward computes (exp(2x)-1)/(exp(2x)+1), which is inf/inf = NaN once exp(2x) overflows, in particular for every x >= 64 (C95_large_inputs_become_nan). Proved instead: a number in [-1,1] exactly when exp(2x) is not infinite.",
 "C96": "Proved for all three optimizers and any calls; addresses of live parameters are assumed different from each other, as C++ guarantees.",
 "C97": "REFUTED: a zero float32 MSE does not imply equality (two values 2^-80 apart); it implies a difference below 2^-59. Never NaN, sign, range and the cross-entropy bounds are proved. Separately rounded operations; log assumed in [-104,0] on (0,1], met by a correctly rounded log.",
 "C98": "REFUTED for centered RMSProp: with the default settings and 1150 gradients of 19 the weight is NaN, because the rounded variance estimate becomes negative. Proved for SGD, RMSProp not centered and Adam, without penalties. Adam's corrected moments are computed in double as in C++; pow is any function meeting pow_like (a double between 0 and the base).",
 "C99": "REFUTED: the loss printed for an epoch is not the loss of the network the epoch leaves behind: each sample's loss is computed before the update for that sample, so on a single batch the last line shows the loss before the last update (a one-layer model reports 4 while its loss is 0), for every way of printing. Proved: the exact text of every successful run (one line per epoch from 0, average of the per-sample losses, in order), of every failed run (the lines of the finished epochs only) and of the empty dataset (a broken line, then the exception); reporting does not change training; reports determine the printed losses; on one batch line i is the loss after i epochs; for one linear layer at a small enough rate the reported losses never increase.",
 "C100": "By the flat index lemma for every rank; outside the tensor operator[] is undefined.",
 "C101": "REFUTED: setWeights checks nothing (a 5x2 tensor is accepted by a 3->2 layer and forward throws afterwards) and setBiases checks only for shape (1, *), not the width. Proved: with fitting tensors forward is the affine map (convolution) of exactly the tensors set and no other state changes; a bias tensor not of shape (1, *) is rejected without effect; gradients are undefined to read before the first backward, afterwards they are the batch sums of the last backward; gradients that are set are what plain SGD applies.",
 "C102": "By induction over the first shape.",
 "C103": "REFUTED: true of SGD and RMSProp for every network, and of every optimizer when at most one layer has parameters (proved by a simulation). False of Adam with two parametric layers: they share the count of updates, so the second layer's first update is corrected as if it were the second (C103_refuted; weight -31/72 instead of -1/2).",
 "C104": "Closed form of the drawing loop for an arbitrary generator; the engine is followed through the layers of a network.",
 "C105": "REFUTED: weights come from Tensor::rand, which clamps the draws to 0..1, so no initial weight is negative and every negative draw becomes 0; the deviation is sqrt(2 / number of weights). Proved: the exact map from draws to weights, and that ReLU layers between new fully connected layers leave non-negative inputs' results unchanged.",
 "C106": "REFUTED: true for batches of one row (C106_partial). The loss already returns the derivative with respect to the inputs of Softmax and the Softmax layer applies its Jacobian again; for two rows the resulting step can increase the loss for every small learning rate (C106_refuted). For any batch the exact slope of the loss is proved, and that the signal below Softmax never points uphill for its own inputs.",
 "C107": "Every layer kind, in evaluation mode, without any law of arithmetic. Selections larger than the batch need the larger batch to fit as well (C107_chosen_rows); up to the size of the batch there is no further condition.",
 "C108": "Exact arithmetic. The MNIST example normalises rows of 128 features this way.",
 "C109": "REFUTED: a convolution layer takes its gradients from the first image of the batch only (C109_refuted); C109_first_image says for every batch that they are those of the first image divided by the number of images. For networks of fully-connected, activation (including softmax) and flatten layers with either loss the property is proved (C109_partial, C109_step_partial) and nothing throws.",
 "C110": "REFUTED: the mean of 41 ones is less than 1 and their variance positive, because the sum is multiplied by the rounded reciprocal of the count (C110_refuted). True parts: counts that are powers of two (C110_powers_of_two_partial), an error bound for every mean (C110_close). Counting by adding ones stops at 2^24 (C110_counting, C110_many_ones).",
 "C111": "float32 arithmetic of SpecFloat, operations rounded separately. C111_limit shows that the limit 2^24 is sharp.",
 "C112": "REFUTED: with weight 1, gradient 1 and rate 2^-27 the weight stays 1 (C112_refuted). C112_never_moves: steps of at most 2^-27 of the weight are lost over every history, whereas over exact numbers the weight moves by their sum (C55_plain). True part: C112_moves_partial. Momentum and weight decay zero; operations rounded separately.",
 "C113": "REFUTED: C113_refuted gives a convolution and a fully connected layer whose gradients are changed by a failing pass. True part, for every network: C113_only_gradients and C113_recovers.",
 "C114": "REFUTED: C114_flatten_refuted (a Flatten layer given (batch, features) uses the shape of the last image, so one prediction makes the next training run throw) and C114_training_mode_refuted (predictions in training mode change batch normalisation's running statistics). True part: C114_evaluated_partial, and C114_no_flatten_partial for networks without Flatten.",
 "C115": "REFUTED: C115_few_refuted (four batches, nothing is shown; for every network C115_few, and C115_none for no batch) and C115_trained_refuted (for all images C115_trained_throws). True part: C115_last_four_partial, C115_files_partial; C115_untrained for the program's network before training.",
 "C116": "REFUTED: C116_refuted (a convolution uses only the first image) and C116_float_refuted (float32 sums depend on the order). True part: in exact arithmetic without convolutions, C116_training_partial, C116_step_partial, C116_gradients_partial; C116_loss for every prediction.",
 "C117": "All shapes and every number of increments, for both kinds of view; lifetime of the view an iterator refers to is not modelled.",
 "C118": "REFUTED: the cross-entropy clamps predictions to [1e-7, 1-1e-7], so a prediction of exactly 1 and 0 for a one-hot target still gets a gradient and every step moves the weights further (C118_certain_refuted). Proved for the mean squared error, and for the cross-entropy with targets inside the clamped range.",
 "C119": "REFUTED: in full, because a Flatten layer keeps the shape of the failed sample (later training can then throw), and batch normalisation in training mode takes it into its running statistics. Proved: which samples were applied, for every failure; no parameter, optimizer or loss changes; without Flatten and outside training mode predictions and later training are as if the sample had not been shown; with Flatten whenever training works without remembered shapes.",
 "C120": "REFUTED: only the last sentence: the number of positions is computed with a division that truncates towards zero, so with stride 2 a kernel one larger than the image is accepted. The rest is proved for all sizes that fit. The OpenMP pragmas on these loops are not active in the build and not modelled.",
 "C121": "REFUTED: only the last sentence, with momentum (C121_recompile_refuted): compile() replaces the optimizer and with it the momenta. The rest is proved for all networks.",
 "C122": "Every layer kind and every activation. Convolution with one input channel; leaky ReLU slope at most 1 in size; Tanh for inputs up to 30 (it overflows from 64 on, C95); pooling without padding; batch normalisation and dropout in evaluation mode; dimension and size limits as stated in drift. Operations are taken as rounded one by one (no fused multiply-add), as in C92-C98.",
 "C123": "REFUTED: the mask is drawn from a normal distribution with mean 0 and variance 2 / (number of elements), cut off to [0,1], not from a uniform distribution. C123_refuted: an even-handed engine with the right variance for which nine ones come out as 2/3 on average at rate 0.25. What is true: the average is the input exactly if the share of draws above the rate is 1 - rate (C123_exact_partial); but at most half of the elements are kept whatever the rate (C123_at_most_half), and the expected number of kept elements in the whole tensor is at most 2/rate^2 however large the tensor (C123_few) - 32 elements at the MNIST example's rate 0.25. The last two are for real arithmetic and need only the symmetry or the variance of the draws, not normality.",
 "C124": "Proved for batches, any arithmetic and any new optimizer. C124_pairings is the general form (a pairing for the units at each layer boundary), C124_pair the case of two units, C124_uniform the case of constant weights. C124_dropout_differs shows that the exclusion of dropout is needed.",
 "C125": "Proved for every number of epochs allowed by the update counter of Adam (epochs x samples x layers at most INT_MAX), with separately rounded float32 operations. C125_adam is about the optimizer alone, C125_training about any network whose layers meet the bounds of [calms], C125_readme about the README's network, C125_linear and C125_linear_example about the linear regression example and its whole program, C125_mnist about the network of the MNIST example without its two batch normalisation layers (with them training is undefined, C84), on any image and label files. Batch normalisation and tanh are not among the layers. Regularisation strengths are 0 and the decay rates 0.9 and 0.999.",
 "C126": "REFUTED: predict stores its input in the layers, so two threads that predict with one network race even in evaluation mode (C126_same_network_races, for every network whose first layer keeps its input); and all networks share one random engine, so threads with different networks race when both get to a Dropout layer in training mode (C126_dropout_races). True: threads that each use their own network, at most one of which draws random numbers, never race, and get what they would get alone, under every schedule (C126_own_networks_partial); the same for threads that predict with one network all of whose layers only read, that is Dropout and batch normalisation in evaluation mode (C126_shared_reading_partial). A layer object is one memory cell.",
 "C127": "Holds in any arithmetic. Distances that are not multiples of the pooling strides are really excluded: C127_half_stride has an image moved by one pixel whose output is neither the old one nor the old one moved.",
 "C128": "REFUTED: with more than one input channel the convolution ignores all but the first (C128_channels_ignored, for every number of channels above one). True for one input channel, with any number of kernels and samples, bit for bit (C128_same_prediction_partial, C128_output_partial).",
 "C129": "REFUTED: in float32 the order of the terms of a sum is visible (C129_float_refuted: the features 2^24, 1, -2^24 add up to 0 in one order and to 1 in another). In exact arithmetic it holds for predictions, losses and the whole of training (C129_prediction, C129_loss, C129_training, C129_hidden_units).",
 "C130": "Exact arithmetic (RInf M), any later layers, any loss, any new optimizer; weights of the zero features unchanged when the optimizer is built without decay or penalties.",
 "C131": "Exact arithmetic (RInf M); inactive units of the first hidden layer; optimizers built without decay or penalties.",
 "C132": "Exact arithmetic; the rounding of a float32 network differs between the two forms (C122 bounds it).",
 "C133": "Exact arithmetic. The convolution is the one of the code (stride 1, no padding, input channel 0, C45).",
 "C134": "Exact arithmetic.",
 "C135": "Dropout in evaluation mode, as predict uses it when the mode has been switched.",
 "C136": "Pooling without padding, as C47; values above minus infinity.",
 "C137": "Exact arithmetic with a largest number (start value of max pooling); C137_float is the float32 statement, with the bounds of C122. Convolution as in the code (input channel 0). Batch normalisation in evaluation mode only.",
 "C138": "REFUTED: with a convolution, whose backward pass uses only the first image and divides by the number of images (C109): repeating the only image halves the gradient. Proved for networks of fully connected, activation and flatten layers, in exact arithmetic, both losses and all three optimizers.",
 "C139": "Exact arithmetic with a largest number (start value of max pooling). Weights and biases of fully connected layers and convolutions change; batch normalisation keeps its values and is in evaluation mode. Convolution as in the code (input channel 0).",
 "C140": "Exact arithmetic with a largest number (start value of max pooling). Batch normalisation in evaluation mode with a positive variance plus epsilon. Dropout in training mode with a rate below 1 and the same engine state for both inputs. Convolution as in the code (input channel 0). C140_float: separately rounded operations, numbers kept in range by C122's bounds, Sigmoid if expf never falls (proved of a correctly rounded expf).",
 "C141": "REFUTED: a rate of 0 passed to a single call is not used: every override that is not positive counts as none, so the optimizer takes its usual step. Proved: an own rate of 0 freezes all parameters, for every network, data and outcome. Exact arithmetic; in float32 an infinite gradient times 0 is not a number and would reach the weight (C141_float_refuted), while with finite gradients plain SGD keeps every value (C141_float).",
 "C142": "Exact arithmetic with a positive largest number (start value of max pooling). Dropout in evaluation mode, or in training mode with a rate below 1 and the same engine state for both inputs. Convolution as in the code (input channel 0). Extends the second claim of C134 to pooling, training-mode dropout and the ranking behind Softmax.",
 "C143": "Exact arithmetic with a positive largest number (start value of max pooling). Extends C105_relu_idle from dense layers to all layers but batch normalisation. Dropout in evaluation mode, or in training mode with a rate below 1 and the same engine state. Convolution as in the code (input channel 0). float32: finite numbers kept in range by the bounds of C122, no Softmax, Tanh, Swish, Mish in the claim; Sigmoid if expf does not fall anywhere; dropout in evaluation mode.",
 "C144": "A consequence of C45 and C46 (forward and backward read only channel 0 of the input) carried through all histories; describes what the code does, not what a user wants of a colour image. The images themselves only need to be consistent tensors of equal sizes.",
 "C145": "A consequence of C46 (the backward pass fills only the gradients of kernel 0, channel 0) carried through all training histories; a defect for any user who asks for more than one kernel. Proved for exact arithmetic with all three optimizers, and for float32 with SGD without momentum (C145_float); with weight decay the other weights do shrink, which is why penalties are excluded. C145_first_moves shows the first kernel does move.",
 "C146": "A consequence of C45 (a convolution reads channel 0 of its input only): asking for many kernels in all but the last convolution costs time and memory and changes nothing. Together with C145 these kernels neither learn nor matter. C146_needed shows that they do count without the second convolution, and that the first kernel counts.",
 "C147": "A defect for users who pass these settings: C45 refutes the expected forward pass, this shows that nothing else in the library looks at them either. No hypothesis on the networks; each theorem gives back its own hypothesis, so it can be applied again for the next call."
}
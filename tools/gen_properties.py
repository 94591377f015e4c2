#!/usr/bin/env python3
"""Source of truth for properties.jsonl (run: python3 tools/gen_properties.py)."""
import json, os
P = []
def p(id, title, statement, quantifier, why, anchors):
    P.append(dict(id=id, title=title, statement=statement, quantifier=quantifier, why_tests_cant=why, anchors=anchors))

S="smart_dnn/"
p("C01","Shape construction is total and row-major",
 "Constructing a Shape from a list of dimensions succeeds exactly when the list is non-empty and every dimension is positive, and throws std::invalid_argument otherwise. On success rank() is the number of dimensions, getDimensions() returns them unchanged, size() is their product and getStride()[i] is the product of the dimensions after i.",
 "every list of int dimensions of any rank whose product is below 2^64",
 "The set of ranks and dimensions is infinite; tests sample a few shapes.",
 [S+"Shape/Shape.hpp:Shape", S+"Shape/Shape.hpp:calculateSize", S+"Shape/Shape.hpp:calculateStride", S+"Shape/Shape.hpp:validateDimensions"])
p("C02","size() equals the product of the dimensions for every accepted Shape",
 "Whenever a Shape is successfully constructed, size() is the true product of its dimensions (an overflowing product is rejected, as reshape does).",
 "every list of positive int dimensions, including products at and above 2^64",
 "Needs dimension products beyond 2^64; no test can allocate those, and the failure needs exact modular arithmetic.",
 [S+"Shape/Shape.hpp:calculateSize", S+"Shape/Shape.hpp:reshape"])
p("C03","reshape preserves the data and the element count",
 "reshape(dims) succeeds exactly when dims is a valid shape with the same number of elements; it then changes only dimensions and strides, never the data or its order, so reshaping back restores the tensor exactly. When it fails it throws and the tensor is unchanged.",
 "every tensor and every requested dimension list",
 "All pairs of shapes, including products that overflow size_t, and the unchanged-on-failure clause.",
 [S+"Shape/Shape.hpp:reshape", S+"Tensor/Tensor.impl.hpp:reshape", S+"Tensor/AdvancedTensorOperations.hpp:reshape"])
p("C04","Multi-index addressing is a bijection onto the buffer",
 "at(indices) addresses exactly one buffer cell for every in-range multi-index; distinct multi-indices address distinct cells; every cell is addressed; consecutive cells follow row-major order.",
 "every shape and every pair of multi-indices",
 "Injectivity and surjectivity over all shapes and ranks.",
 [S+"Shape/ShapeOperations.hpp:computeFlatIndex", S+"Tensor/TensorDataCPU.impl.hpp:at"])
p("C05","at() is memory safe for every index vector",
 "at(indices) either returns a cell inside the tensor's buffer or throws (invalid_argument when the number of indices differs from the rank, out_of_range when some index is negative or not below its dimension); it never touches memory outside the buffer.",
 "every tensor built by a constructor with a representable size, and every vector of ints",
 "All index vectors, including negative, oversized and wrong-rank ones.",
 [S+"Shape/ShapeOperations.hpp:computeFlatIndex", S+"Tensor/TensorDataCPU.impl.hpp:at"])
p("C06","at() read-after-write",
 "After at(i) = v, at(i) reads v, at(j) for every other in-range j is unchanged, and shape is unchanged.",
 "every tensor, value and pair of multi-indices",
 "Frame condition over all other cells.",
 [S+"Tensor/TensorDataCPU.impl.hpp:at"])
p("C07","broadcastShapes implements right-aligned broadcasting",
 "broadcastShapes(a,b) right-aligns the two shapes, pads the shorter with ones, and succeeds exactly when in every position the dimensions are equal or one of them is 1; each result dimension is then the larger one. It throws invalid_argument otherwise, and areBroadcastable agrees with it.",
 "every pair of shapes of any ranks",
 "All pairs of ranks and dimensions.",
 [S+"Shape/ShapeOperations.hpp:broadcastShapes", S+"Shape/ShapeOperations.hpp:areBroadcastable"])
p("C08","Broadcasting is a commutative, associative, idempotent join",
 "broadcastShapes(a,b) = broadcastShapes(b,a) (same result or both throw); broadcastShapes(a,a)=a; grouping does not matter for three shapes; Shape{1} is neutral.",
 "every two or three shapes",
 "Algebraic laws over an infinite domain.",
 [S+"Shape/ShapeOperations.hpp:broadcastShapes"])
p("C09","Tensor + - * / are exact broadcasted element-wise operations",
 "For a op b: if the shapes broadcast, the result has the broadcast shape and its element at every multi-index is op applied to the elements of a and b at that index (using index 0 on broadcast axes); otherwise it throws invalid_argument. No read or write leaves a buffer.",
 "every pair of tensors, every scalar type and arithmetic (including IEEE float), results with at most INT_MAX elements",
 "All shapes, values and scalar arithmetics.",
 [S+"Tensor/TensorOperations.hpp:add", S+"Tensor/TensorOperations.hpp:subtract", S+"Tensor/TensorOperations.hpp:multiply", S+"Tensor/TensorOperations.hpp:divide", S+"Tensor/BroadcastView.hpp:BroadcastView"])
p("C10","In-place tensor operators agree with the out-of-place ones",
 "a op= b succeeds exactly when broadcasting b against a does not enlarge a; then a keeps its shape and its data equals that of a op b. Otherwise it throws and a is left unchanged. a op= a (aliased operand) gives the same result as with a separate copy.",
 "every pair of tensors including the aliased pair, every scalar arithmetic",
 "Aliasing, unchanged-on-throw, all shapes.",
 [S+"Tensor/TensorOperations.hpp:addInPlace", S+"Tensor/TensorOperations.hpp:subtractInPlace", S+"Tensor/TensorOperations.hpp:multiplyInPlace", S+"Tensor/TensorOperations.hpp:divideInPlace"])
p("C11","Scalar operators act on every element and reject division by zero",
 "t op s keeps the shape and applies op to every element; t / s and t /= s throw invalid_argument when s == 0, leaving t unchanged; s - t is (-1*x)+s and s / t is s/x element-wise, s op t keeps the shape.",
 "every tensor and scalar",
 "All tensors and scalars, unchanged-on-throw.",
 [S+"Tensor/TensorOperations.hpp:applyScalarImpl", S+"Tensor/TensorOperations.hpp:divideScalarImpl", S+"Tensor/Tensor.impl.hpp:operator-", S+"Tensor/TensorOperations.hpp:inverseDivideScalar"])
p("C12","Broadcast view iteration covers the target exactly once in row-major order",
 "Iterating a BroadcastView from begin() to end() terminates after exactly size() steps, visits the multi-indices of the target shape in row-major order, and every dereference is inside the source buffer.",
 "every source tensor and broadcastable target shape",
 "Termination and bounds for every shape pair.",
 [S+"Tensor/BroadcastView.hpp:Iterator", S+"Tensor/BroadcastView.hpp:mapIndex"])
p("C13","A BroadcastView can only be built onto a shape its source broadcasts to",
 "Constructing a BroadcastView of a tensor onto a target shape throws unless broadcasting the tensor's shape with the target yields the target itself.",
 "every tensor and target shape",
 "All shape pairs, including sources of higher rank than the target.",
 [S+"Tensor/BroadcastView.hpp:calculateBroadcastFactors", S+"Shape/ShapeOperations.hpp:areBroadcastable"])
p("C14","SliceView selects start, start+step, ... below end on every axis",
 "A SliceView over [start,end) with a step on every axis has extent ceil((end-start)/step) per axis, and its element at k is the tensor element at start+k*step.",
 "every tensor, slice list and positive step list",
 "All slices, in particular ends smaller than the dimension.",
 [S+"Tensor/SliceView.hpp:SliceView", S+"Tensor/SliceView.hpp:calculateSlicedShape"])
p("C15","SliceView never reads outside the source tensor",
 "Every element yielded by iterating a SliceView (built with positive steps) lies inside the source buffer and the iteration stops after exactly size() elements; set() through the view changes exactly that one source element.",
 "every tensor, any start/end values (negative, oversized), positive steps with dimension + step at most INT_MAX",
 "All start/end combinations and shapes.",
 [S+"Tensor/SliceView.hpp:mapIndex", S+"Tensor/SliceView.hpp:Iterator", S+"Tensor/SliceView.hpp:set"])
p("C16","slice(dim, index) returns the sub-tensor at that index",
 "t.slice(dim,index) has the dimensions of t without dim, and its element at a multi-index is t's element with index inserted at position dim.",
 "every tensor of rank at least 2, every dim below rank and index below that dimension",
 "All dims and indices; a test on dim 0 says nothing about dim 1.",
 [S+"Tensor/Tensor.impl.hpp:slice"])
p("C17","slice() never reads outside the buffer for valid arguments",
 "For 0 <= dim < rank and 0 <= index < shape[dim], slice copies only cells of the tensor's own buffer.",
 "every tensor, dim and index",
 "All shapes; needs an arithmetic argument.",
 [S+"Tensor/Tensor.impl.hpp:slice"])
p("C18","Total and per-axis sums",
 "sum(t) is the left-to-right sum of the data as a one-element tensor. sum(t,axis) removes the axis and each result element is the sum, in increasing order along the axis, of the corresponding elements; a rank-1 tensor sums to shape {1}; an axis >= rank throws runtime_error.",
 "every tensor and axis, every scalar arithmetic (exact accumulation order)",
 "All shapes and axes; the accumulation order matters for float.",
 [S+"Tensor/TensorOperations.hpp:sum", S+"Tensor/AdvancedTensorOperations.hpp:sum"])
p("C19","Sum over a set of axes",
 "sum(t,axes) removes the listed axes and each result element is the sum of all elements of t that agree with it on the remaining axes; an invalid axis throws. This holds for every set of axes, including all of them.",
 "every tensor and list of axes",
 "All subsets of axes, including the full set.",
 [S+"Tensor/AdvancedTensorOperations.hpp:sum", S+"Tensor/AdvancedTensorOperations.hpp:incrementIndices"])
p("C20","Mean over axes",
 "mean(t,axes) for a proper non-empty set of axes keeps the rank with 1 on the reduced axes, and each element is the sum over those axes times 1/(number of reduced elements); mean(t) is the grand mean of shape {1}. In exact arithmetic these are arithmetic means.",
 "every tensor and duplicate-free list of axes",
 "All shapes and axis sets.",
 [S+"Tensor/AdvancedTensorOperations.hpp:mean"])
p("C21","Variance over axes",
 "variance(t, mean(t,axes), axes) has the shape of the mean and each element is the average squared deviation from the mean over those axes; in exact arithmetic it is non-negative and zero exactly when the slice is constant.",
 "every tensor and proper non-empty set of axes",
 "All shapes, axis sets and values.",
 [S+"Tensor/AdvancedTensorOperations.hpp:variance", S+"Tensor/AdvancedTensorOperations.hpp:mean"])
p("C22","transpose swaps two axes and is an involution",
 "transpose(t,i,j) swaps dimensions i and j, and its element at a multi-index is t's element with positions i and j swapped; transposing twice restores t; an axis >= rank throws invalid_argument.",
 "every tensor and pair of axes",
 "All shapes and axis pairs.",
 [S+"Tensor/AdvancedTensorOperations.hpp:transpose"])
p("C23","matmul computes inner products for every supported rank combination",
 "matmul of 1Dx1D, 2Dx2D, 1Dx2D, 2Dx1D, 3Dx2D, 2Dx3D and equal-rank batched tensors returns the documented shape with each entry the sum over the contracted index, in increasing order, of products; mismatched inner dimensions or unsupported ranks throw invalid_argument; no access leaves a buffer.",
 "every pair of tensors, every scalar arithmetic",
 "All ranks and dimensions.",
 [S+"Tensor/AdvancedTensorOperations.hpp:matmul", S+"Tensor/AdvancedTensorOperations.hpp:matrixMatrixMul", S+"Tensor/AdvancedTensorOperations.hpp:batchedMatmul"])
p("C24","Batched matmul broadcasts batch dimensions",
 "For equal ranks >= 3 whose batch dimensions are equal or 1, matmul returns the broadcasted batch product (the result shape takes the maximum of the batch dimensions).",
 "every pair of batched tensors",
 "All batch shapes, including size-1 against size-n.",
 [S+"Tensor/AdvancedTensorOperations.hpp:batchedMatmul"])
p("C25","Matrix algebra laws",
 "In exact arithmetic: matmul(identity(n), A) = A = matmul(A, identity(m)); transpose(matmul(A,B)) = matmul(transpose(B), transpose(A)); matmul is associative and distributes over +.",
 "every conformable matrices over the reals",
 "Algebraic laws over all sizes.",
 [S+"Tensor/AdvancedTensorOperations.hpp:matmul", S+"Tensor/AdvancedTensorOperations.hpp:transpose", S+"Tensor/TensorFactory.hpp:identity"])
p("C26","Tensor lifecycle: single ownership of every buffer",
 "In any history of constructions, copies, copy/move assignments, move constructions, element writes, reshapes and destructions, no two live tensors ever share a buffer, no buffer is freed twice or leaked, and writing one tensor never changes another.",
 "every finite sequence of tensor lifecycle operations",
 "Arbitrary histories and aliasing.",
 [S+"Tensor/TensorData.hpp:TensorData", S+"Tensor/TensorDataCPU.impl.hpp:operator=", S+"Tensor/Tensor.impl.hpp:Tensor"])
p("C27","Moved-from tensors stay usable",
 "After a tensor is moved from (by construction or by assignment) it is still a valid tensor whose size() matches its buffer.",
 "every tensor and both kinds of move",
 "Needs the state after move in every history.",
 [S+"Tensor/Tensor.impl.hpp:Tensor(Tensor&&)", S+"Tensor/Tensor.hpp:operator=(Tensor&&)", S+"Shape/Shape.hpp:operator=(Shape&&)"])
p("C28","Copy assignment is all-or-nothing when allocation fails",
 "If memory allocation fails during a = b, a is left as it was before the assignment.",
 "every pair of tensors and every allocation failure point",
 "Allocation failure cannot be provoked reliably in tests.",
 [S+"Tensor/TensorDataCPU.impl.hpp:operator="])
p("C29","Constructing from a value list is memory safe and complete",
 "Tensor(shape, {values}) stores the values in row-major order, zero-filling the rest when fewer values than elements are given, and never writes outside the buffer.",
 "every shape and value list of any length",
 "Value lists longer than the shape.",
 [S+"Tensor/TensorDataCPU.impl.hpp:TensorData(Shape,initializer_list)"])
p("C30","Factories: zeros, ones, fill, identity, rand",
 "zeros/ones/fill give every element that value; a tensor constructed from a shape alone is zero everywhere; identity(n) is n x n with 1 on the diagonal and 0 elsewhere and throws for n <= 0; rand(shape) and randn(shape,min,max) have every element in [min,max] whatever the random stream, and the same seed gives the same tensor.",
 "every shape, size, range with min <= max and every random stream",
 "All random streams and sizes.",
 [S+"Tensor/TensorFactory.hpp:identity", S+"Tensor/TensorOperations.hpp:createRandom", S+"RandomEngine.hpp:getHeRandRange"])
p("C31","Tensor equality is structural",
 "a == b exactly when the shapes have the same dimensions and the elements compare equal position by position; a != b is its negation; with reflexive element comparison == is an equivalence relation.",
 "every pair of tensors",
 "All pairs.",
 [S+"Tensor/TensorDataCPU.impl.hpp:operator=="])
p("C32","ReLU and LeakyReLU forward and backward",
 "ReLU forward is max(0,x) element-wise and LeakyReLU forward is x for x>0 and alpha*x otherwise; where the input is non-zero their backward is the derivative of forward times the incoming gradient; shapes are preserved; LeakyReLU/Swish/Mish backward throws on a shape mismatch.",
 "every input and gradient tensor",
 "All shapes and reals; derivatives are limits.",
 [S+"Activations/ReLU.hpp:ReLU", S+"Activations/LeakyReLU.hpp:LeakyReLU"])
p("C33","Sigmoid, Tanh, Swish and Mish backward is the derivative of forward",
 "For each smooth activation, backward(x,g) is element-wise g * f'(x) where f is what forward computes; sigmoid outputs lie strictly in (0,1) and tanh outputs strictly in (-1,1).",
 "every real input and gradient, every shape",
 "Derivatives and ranges over all reals.",
 [S+"Activations/Sigmoid.hpp:Sigmoid", S+"Activations/Tanh.hpp:Tanh", S+"Activations/Swish.hpp:Swish", S+"Activations/Mish.hpp:Mish"])
p("C34","Softmax rows are probability distributions",
 "Softmax forward on a tensor of rank >= 2 gives, per batch entry, strictly positive values summing to 1, preserves the order of the inputs, and is unchanged when a constant is added to a whole row; rank < 2 throws invalid_argument.",
 "every real input tensor",
 "All batch sizes, feature counts and reals.",
 [S+"Activations/Softmax.hpp:forward"])
p("C35","Softmax backward is the Jacobian-vector product of softmax",
 "For gradOutput of the input's shape, Softmax backward is the transpose-Jacobian of the row-wise softmax applied to the gradient (so it is the true derivative).",
 "every real input and gradient of any shape of rank >= 2",
 "A derivative statement over all sizes.",
 [S+"Activations/Softmax.hpp:backward"])
p("C36","Softmax backward rejects a mismatched gradient",
 "Softmax backward throws, rather than reading outside the gradient's buffer, when gradOutput has fewer elements than the input.",
 "every input and gradient of rank >= 2",
 "Out-of-bounds reads are invisible to value tests.",
 [S+"Activations/Softmax.hpp:backward"])
p("C37","MSE loss and its gradient",
 "MSELoss compute is the mean of squared differences: non-negative and zero exactly when prediction equals target; gradient is its exact derivative with respect to the prediction; a rank-1 target (n) is accepted for a prediction (n,1,...,1); every other shape mismatch throws.",
 "every prediction and target",
 "All shapes, reals, derivative.",
 [S+"Loss/MSELoss.hpp:compute", S+"Loss/MSELoss.hpp:gradient"])
p("C38","Categorical cross-entropy value",
 "CategoricalCrossEntropyLoss compute is minus the batch average of sum target*log(clamped prediction), clamped to [1e-7, 1-1e-7]; it is finite for every prediction, and non-negative for non-negative targets.",
 "every 2D prediction and target",
 "All reals including 0 and negative predictions.",
 [S+"Loss/CategoricalCrossEntropyLoss.hpp:compute"])
p("C39","Categorical cross-entropy gradient is the derivative of the loss",
 "CategoricalCrossEntropyLoss gradient is the derivative of compute with respect to the prediction.",
 "every prediction strictly inside the clamp range and every target",
 "A derivative statement.",
 [S+"Loss/CategoricalCrossEntropyLoss.hpp:gradient"])
p("C40","Fully connected forward is xW + b per row",
 "FullyConnectedLayer forward on (batch,in) returns (batch,out) with entry (i,j) = sum_k x(i,k) W(k,j) + b(j); on a rank-1 (in) input it returns (out); an input of the wrong width throws. Rows are independent of each other.",
 "every batch size, layer size, input, weights, biases",
 "All sizes and values.",
 [S+"Layers/FullyConnectedLayer.hpp:forward"])
p("C41","Fully connected backward is the gradient",
 "After forward(x), backward(g) returns the gradient with respect to x and stores the gradients with respect to weights and biases: for every direction, the directional derivative of <g, forward> equals the inner product with the returned/stored gradients.",
 "every batch size, layer size, x, W, b, g over the reals",
 "A derivative statement over all sizes.",
 [S+"Layers/FullyConnectedLayer.hpp:backward"])
p("C42","A layer's input gradient has the shape of its input",
 "For every layer, backward(gradOutput) with gradOutput shaped like the forward output returns a gradient with the shape of the forward input.",
 "every layer kind and accepted input, including rank-1 inputs",
 "All layers and input ranks.",
 [S+"Layers/FullyConnectedLayer.hpp:backward", S+"Layers/FlattenLayer.hpp:backward", S+"Layer.hpp:Layer"])
p("C43","Flatten forward/backward round trip",
 "Flatten forward turns (batch, ...) into (batch, features) with the same data and backward restores the shape of the most recent forward input.",
 "every history of forward calls followed by backward",
 "Depends on the history of calls, not on one call.",
 [S+"Layers/FlattenLayer.hpp:forward", S+"Layers/FlattenLayer.hpp:backward"])
p("C44","backward before forward is rejected",
 "Calling backward on a layer that has not seen forward throws an exception.",
 "every layer kind in its initial state and every gradient",
 "Undefined behaviour may go unnoticed in a test.",
 [S+"Layers/ActivationLayer.hpp:backward", S+"Layers/FlattenLayer.hpp:backward", S+"Regularisation/DropoutLayer.hpp:backward", S+"Layers/Conv2DLayer.hpp:backward"])
p("C45","Conv2D forward is the cross-correlation of input and kernels",
 "Conv2DLayer forward returns (batch, outChannels, H', W') where each entry is the bias plus the sum over all input channels and kernel positions of input*weight, with H', W' and the sampled positions following stride, padding and dilation.",
 "every layer configuration and input",
 "All channel counts, strides, paddings, dilations.",
 [S+"Layers/Conv2DLayer.hpp:forward"])
p("C46","Conv2D backward is the gradient of forward",
 "Conv2DLayer backward returns/stores the gradients of forward with respect to input, weights and biases for every batch element and channel.",
 "every layer configuration, input and gradient",
 "All batches and channels; derivative.",
 [S+"Layers/Conv2DLayer.hpp:backward"])
p("C47","MaxPooling forward takes the window maximum",
 "With stride >= 1, 1 <= poolSize <= input extent and no padding, MaxPooling2D forward returns for each window its maximum element (attained, and not smaller than any element of the window); padding widens the input with values that never win. Inputs of another rank are rejected with an exception and leave the layer unchanged.",
 "every input of rank 4, pool size, stride and padding",
 "All sizes and values.",
 [S+"Regularisation/MaxPooling2DLayer.hpp:forward", S+"Regularisation/MaxPooling2DLayer.hpp:findMaxInPoolWindow"])
p("C48","MaxPooling backward routes each gradient to the winning position",
 "MaxPooling2D backward adds each output gradient to the first maximal position of its window and nothing elsewhere; the total gradient is conserved in exact arithmetic.",
 "every input and gradient",
 "Conservation over all overlapping windows.",
 [S+"Regularisation/MaxPooling2DLayer.hpp:backward"])
p("C49","BatchNorm training output is normalised per feature",
 "In training mode on (batch, features), each output feature is gamma*(x-mean)/sqrt(var+eps)+beta: in exact arithmetic with gamma=1, beta=0 its batch mean is 0 and its batch variance is var/(var+eps) <= 1. Inputs of rank other than 2 and 4 are rejected with runtime_error.",
 "every batch and feature count and input",
 "All sizes and values.",
 [S+"Regularisation/BatchNormalizationLayer.hpp:forward"])
p("C50","BatchNorm running statistics are exponential moving averages",
 "After any sequence of training forwards the running mean/variance of each feature is the exponential moving average of the batch statistics; eval-mode forwards do not change them, and neither does a training batch that is rejected.",
 "every sequence of training/eval forwards of (batch, features) inputs",
 "Histories of calls.",
 [S+"Regularisation/BatchNormalizationLayer.hpp:forward"])
p("C51","BatchNorm works in eval mode after training on images",
 "After training-mode forwards on rank-4 inputs, eval-mode forward on such inputs normalises every channel with its running statistics.",
 "every channel count and history with at least one training forward",
 "Needs a train-then-eval history with more than one channel.",
 [S+"Regularisation/BatchNormalizationLayer.hpp:forward", S+"Regularisation/BatchNormalizationLayer.hpp:reshapeForBroadcast"])
p("C52","BatchNorm backward is well defined and is the gradient of forward",
 "After a training forward, backward(g) reads only valid memory and returns the derivative of <g, forward> with respect to the input.",
 "every input and gradient",
 "Undefined behaviour may appear to work in tests; derivative.",
 [S+"Regularisation/BatchNormalizationLayer.hpp:backward"])
p("C53","Dropout forward",
 "In eval mode Dropout is the identity. In training mode each output element is either 0 or the input times 1/(1-rate), for every random stream, and the shape is preserved.",
 "every input, rate and random stream",
 "All random streams.",
 [S+"Regularisation/DropoutLayer.hpp:forward"])
p("C54","Dropout backward is the gradient of the sampled forward",
 "After a training forward, backward(g) is the derivative of <g, forward> for the mask that was sampled.",
 "every input, gradient, rate and mask",
 "A derivative statement for every mask.",
 [S+"Regularisation/DropoutLayer.hpp:backward"])
p("C55","SGD update rule over any history",
 "Each SGD step updates every parameter by the documented rule (weight decay, momentum with dampening, optional Nesterov); after any number of steps the momentum buffer is the discounted sum of past gradients. A positive learning-rate override replaces the rate for that call only.",
 "every sequence of optimize calls, gradients and options",
 "Histories of arbitrary length.",
 [S+"Optimizers/SGDOptimizer.hpp:optimize"])
p("C56","RMSProp update rule over any history",
 "Each RMSProp step follows the documented rule; in exact arithmetic with 0<=alpha<=1 and epsilon>0 the running square average stays non-negative and the non-centered denominator is positive, and the centered variance estimate is non-negative, so no step divides by zero or takes the root of a negative number.",
 "every sequence of gradients",
 "Invariant over all histories.",
 [S+"Optimizers/RMSPropOptimizer.hpp:optimize"])
p("C57","Adam update rule over any history",
 "AdamOptimizer keeps for every parameter the exponential moving averages of gradients and squared gradients; the second moment stays non-negative; the learning rate follows 1/(1+decay*iteration) unless overridden.",
 "every sequence of optimize calls",
 "Histories of arbitrary length.",
 [S+"Optimizers/AdamOptimizer.hpp:optimize"])
p("C58","Adam takes the textbook bias-corrected step",
 "Every Adam step changes a parameter by lr*mHat/(sqrt(vHat)+eps) with bias correction by the number of updates that parameter has received.",
 "every history, options, number of layers sharing the optimizer",
 "Depends on how many layers share the optimizer.",
 [S+"Optimizers/AdamOptimizer.hpp:updateTensor", S+"Optimizers/AdamOptimizer.hpp:updateParameter", S+"Optimizers/AdamOptimizer.hpp:updateLearningRate"])
p("C59","Optimizer state is per tensor",
 "Optimizing one tensor never changes the state kept for, or the later updates of, a different tensor; the order of tensors in one call does not matter.",
 "every set of tensors at distinct addresses and every history",
 "All interleavings of calls.",
 [S+"Optimizers/SGDOptimizer.hpp:momentumBuffers", S+"Optimizers/RMSPropOptimizer.hpp:squaredGrads", S+"Optimizers/AdamOptimizer.hpp:m"])
p("C60","Optimizers reject mismatched arguments",
 "optimize throws invalid_argument, changing nothing, when the number of weights and gradients differ, and also when a gradient's shape differs from its weight's.",
 "every argument list",
 "Out-of-bounds reads are invisible to value tests.",
 [S+"Optimizers/SGDOptimizer.hpp:updateTensor", S+"Optimizers/AdamOptimizer.hpp:updateTensor", S+"Optimizers/RMSPropOptimizer.hpp:updateTensor"])
p("C61","predict is the composition of the layers in order",
 "predict(x) applies every layer's forward in the order added; predict on a vector returns the predictions in order; in eval mode a second predict of the same input returns the same output and no parameter changes.",
 "every model and input (eval mode)",
 "All models; statefulness.",
 [S+"SmartDNN/SmartDNN.impl.hpp:predict"])
p("C62","Back-propagation computes the gradient of the loss",
 "For a model of fully connected and smooth activation layers with MSE loss, after forward, loss gradient and backward on one sample, the stored weight and bias gradients of every layer are the partial derivatives of the loss.",
 "every depth, layer sizes, batch, parameters, input and target over the reals",
 "Chain rule over arbitrary depth.",
 [S+"SmartDNN/SmartDNN.impl.hpp:train", S+"SmartDNN/SmartDNN.impl.hpp:backward"])
p("C63","train performs epochs x samples updates in order",
 "train(inputs,targets,epochs) processes every sample once per epoch in order, updating after each; epochs <= 0 changes nothing; a mismatch between inputs and targets is rejected; empty inputs are a no-op.",
 "every dataset, epoch count, model",
 "All dataset sizes including empty and mismatched.",
 [S+"SmartDNN/SmartDNN.impl.hpp:train"])
p("C64","trainingMode/evalMode reach every layer",
 "After evalMode() (trainingMode()) every layer behaves in eval (training) mode, whatever the earlier sequence of mode changes and layers added before the call; parameters are untouched.",
 "every model and sequence of mode switches",
 "Histories.",
 [S+"SmartDNN/SmartDNN.impl.hpp:setTrainingMode", S+"Layer.hpp:setTrainingMode"])
p("C65","MNIST image loading round trip",
 "For every well-formed IDX image file, loading yields the images in order, in batches of batchSize (the last possibly smaller), each pixel byte/255 within [0,1]; a wrong magic number throws; the pixel-range exception is never raised in float32.",
 "every image set, batch size >= 1 and sample limit",
 "All files and batch sizes.",
 [S+"Datasets/MNistLoader.hpp:loadImages", S+"Datasets/MNistLoader.hpp:readInt"])
p("C66","MNIST label loading",
 "For every well-formed IDX label file, each label becomes a one-hot row of width 10, in order and batched like the images; a label byte above 9 throws out_of_range; the number of batches is ceil(n/batchSize).",
 "every label file, batch size >= 1 and sample limit",
 "All files and batch sizes.",
 [S+"Datasets/MNistLoader.hpp:loadLabels"])
p("C67","Truncated MNIST files are detected",
 "Loading a file with fewer bytes than its header (or the requested number of samples) announces throws, and so does a file that cannot be opened.",
 "every truncated file",
 "All truncation points.",
 [S+"Datasets/MNistLoader.hpp:loadImages", S+"Datasets/MNistLoader.hpp:loadLabels"])
p("C68","Synthetic dataset sizes",
 "generateLinearDataset(n) returns n input/target pairs of shape {1}; generateBatchedLinearDataset(n,b) returns ceil(n/b) batches of at most b rows totalling n, inputs and targets aligned.",
 "every n >= 0 and b >= 1 and random stream",
 "All sizes.",
 [S+"Datasets/SampleGenerator.hpp:generateLinearDataset", S+"Datasets/SampleGenerator.hpp:generateBatchedLinearDataset"])
p("C69","Parallel loops give the same result under every schedule",
 "Every loop marked as a parallel loop (pair-wise apply, matrix products, Adam's parameter update, transpose, random tensors, the patch functions of the convolution layer) gives the sequential result for every assignment and interleaving of iterations to threads.",
 "every schedule",
 "All interleavings.",
 [S+"Tensor/AdvancedTensorOperations.hpp:applyPair", S+"Tensor/AdvancedTensorOperations.hpp:matrixMatrixMul", S+"Tensor/AdvancedTensorOperations.hpp:transpose", S+"Optimizers/AdamOptimizer.hpp:updateTensor", S+"Layers/Conv2DLayer.hpp:im2col", S+"Layers/Conv2DLayer.hpp:col2im"])
p("C70","Element-wise operations work for every tensor size",
 "The pair-wise apply used by LeakyReLU/Swish/Mish backward applies the function to every element for every tensor size.",
 "every tensor, including more than INT_MAX elements",
 "Needs tensors above 2^31 elements.",
 [S+"Tensor/AdvancedTensorOperations.hpp:applyPair"])
p("C71","apply applies the function to every element",
 "apply(t,f), in-place apply and sqrt keep the shape and give f of every element in order; reciprocal is 1/x away from zero and 1/epsilon within epsilon of it; pair-wise apply throws invalid_argument on different shapes.",
 "every tensor and function",
 "All tensors and functions.",
 [S+"Tensor/TensorOperations.hpp:apply", S+"Tensor/AdvancedTensorOperations.hpp:applyPair", S+"Tensor/AdvancedTensorOperations.hpp:reciprocal"])
p("C72","A non-batched model trains with every activation",
 "A model FullyConnected -> activation -> FullyConnected accepts rank-1 samples and can be trained on them with any of the provided element-wise activations.",
 "every layer size, sample and element-wise activation",
 "Combination of layers and input ranks.",
 [S+"Layers/FullyConnectedLayer.hpp:backward", S+"Layers/ActivationLayer.hpp:backward", S+"Activations/LeakyReLU.hpp:backward"])
p("C73","Cross-entropy rejects inputs that are not two-dimensional",
 "CategoricalCrossEntropyLoss compute and gradient throw when prediction and target have different shapes or are not 2D, and never read outside the shape.",
 "every prediction and target of any rank",
 "An unchecked shape index is undefined behaviour a value test does not see.",
 [S+"Loss/CategoricalCrossEntropyLoss.hpp:compute", S+"Loss/CategoricalCrossEntropyLoss.hpp:gradient"])
p("C74","Dropout with rate 0 keeps every element",
 "A Dropout layer constructed with rate 0 returns its input unchanged in training mode.",
 "every input and random stream",
 "Depends on the sampled mask; a test sees one stream.",
 [S+"Regularisation/DropoutLayer.hpp:forward", S+"Tensor/TensorFactory.hpp:rand"])
p("C75","BatchNorm training forward on images normalises per channel",
 "In training mode on (batch, channels, height, width), each output channel is gamma*(x-mean)/sqrt(var+eps)+beta with the mean and variance of that channel over batch, height and width.",
 "every batch, channel count, image size and input",
 "All sizes and values.",
 [S+"Regularisation/BatchNormalizationLayer.hpp:forward"])
p("C76","A new tensor starts with fresh optimizer state",
 "A tensor that comes to life at the address of a destroyed tensor is optimized as by an optimizer that has never seen it: no momentum or moment of the old tensor is applied to it, and no memory outside the kept state is read.",
 "every history of an optimizer that outlives a tensor",
 "Depends on the allocator reusing an address.",
 [S+"Optimizers/SGDOptimizer.hpp:momentumBuffers", S+"Optimizers/RMSPropOptimizer.hpp:squaredGrads", S+"Optimizers/AdamOptimizer.hpp:m"])
p("C77","A training step with plain SGD is a step of gradient descent",
 "For a model of fully connected, activation, Flatten and single-channel Conv2D layers compiled with MSE and SGD without momentum and weight decay, after any amount of training, training on one more sample moves every weight and bias by minus the learning rate times the partial derivative of that sample's loss.",
 "every such model, training history, sample, learning rate over the reals",
 "Chain rule over arbitrary depth combined with arbitrary histories.",
 [S+"SmartDNN/SmartDNN.impl.hpp:train", S+"Optimizers/SGDOptimizer.hpp:updateTensor"])
p("C78","Training on well-shaped data runs to completion",
 "For a model of fully connected, activation, Flatten (rank above two), Conv2D, unpadded MaxPooling2D and training-mode Dropout layers whose shapes fit together, compiled with MSE or categorical cross-entropy and a new SGD, RMSProp or Adam optimizer, train on any number of samples of the right shapes for any number of epochs finishes without exception or undefined behaviour and keeps the shape of every parameter.",
 "every such model, dataset, epoch count (up to INT_MAX optimizer calls), random stream and arithmetic (floating point included)",
 "All models and histories; undefined behaviour may go unnoticed in a test.",
 [S+"SmartDNN/SmartDNN.impl.hpp:train", S+"Layer.hpp:Layer", S+"Optimizer.hpp:Optimizer"])
p("C79","A small enough SGD step reduces the sample's loss",
 "For the models of C77, unless every stored gradient of the sample is zero, there is a learning-rate bound below which training on the sample once strictly reduces its loss.",
 "every such model and sample over the reals",
 "Needs the exact gradient of an arbitrary model.",
 [S+"SmartDNN/SmartDNN.impl.hpp:train", S+"Optimizers/SGDOptimizer.hpp:updateTensor"])
p("C80","Images and labels loaded together stay aligned",
 "For valid image and label files announcing the same number of samples, loadData returns equally many image and label batches, batch by batch of the same height, and row j of batch k in both lists belongs to sample k*batchSize+j.",
 "every pair of files, batch size >= 1 and sample limit",
 "All files and batch sizes.",
 [S+"Datasets/MNistLoader.hpp:loadData"])
p("C81","ASCII rendering of a loaded image",
 "toAsciiArt of a tensor whose last two dimensions are at least 28 x 28 and whose elements are scaled bytes returns 28 lines of 28 characters, each the palette entry of its pixel's brightness (byte*10/255, at most 9); a smaller image throws. For elements that are not scaled bytes the level is ten times the element without its fraction, and an element that is not finite, clearly negative or huge is undefined behaviour.",
 "every float image tensor of rank 2 or more",
 "All images and ranks; every byte value under float32 rounding.",
 [S+"Datasets/MNistLoader.hpp:toAsciiArt"])
p("C82","Training with batch normalisation",
 "Training a network that contains a batch-normalisation layer on data of the right shapes completes, whatever the other layers, loss, optimizer and data.",
 "every stack of layers with at least one batch-normalisation layer in training mode, every input and target of the right shapes, every number of epochs",
 "The failure is undefined behaviour in a read past the end of a dimension list, which a test may not notice; it must be known for every network and input.",
 [S+"SmartDNN/SmartDNN.impl.hpp:train", S+"Regularisation/BatchNormalizationLayer.hpp:backward"])
p("C83","Training on single samples",
 "A network of fully connected layers and ReLU, Sigmoid or Tanh activations trains to completion on samples without a batch dimension, keeping every parameter's shape; in particular the linear-regression example ends with a one-element prediction.",
 "every depth, width, loss, optimizer, number of samples and epochs, all parameter values, every sequence of random numbers",
 "All networks, histories and random draws.",
 [S+"SmartDNN/SmartDNN.impl.hpp:train", S+"Layers/FullyConnectedLayer.hpp:backward", "examples/SimpleLinearRegressionModel.cpp:main"])
p("C84","The MNIST example trains",
 "The MNIST example program completes its training for every pair of well-formed data files.",
 "every image and label file with at least 1000 images of 28 x 28 pixels and labels 0 to 9, every sequence of random numbers",
 "All data files and random draws; running the program needs the data set, and the undefined behaviour may go unnoticed.",
 ["examples/MNistModel.cpp:main"])
p("C85","Every tensor a program can obtain is consistent",
 "Whatever sequence of calls on tensors, factories, layers, optimizers, networks and data loaders produced it, a tensor has at least one dimension, all dimensions positive, the size and row-major strides of its dimensions (in size_t arithmetic), and a buffer of exactly size() elements; at() on it returns or throws when the element count is representable.",
 "every finite sequence of calls, including calls that throw, all arguments, all random numbers, all data files",
 "All histories of calls of any length.",
 [S+"Tensor/Tensor.hpp:Tensor", S+"Tensor/TensorData.hpp:TensorData", S+"Shape/Shape.hpp:Shape", S+"SmartDNN.hpp:SmartDNN"])
p("C86","A Shape's size always matches its dimensions",
 "After assigning a dimension through the Shape's operator[], size(), the strides and tensors built from the shape match the new dimensions.",
 "every shape, position and new value",
 "All shapes and values; the out-of-bounds access may go unnoticed in a run.",
 [S+"Shape/Shape.hpp:operator[]"])
p("C87","Dot product of slice views",
 "For two views of the same shape dotProductSlice returns the sum, in row-major order, of the products of the elements the views show; for views of different shapes it throws invalid_argument.",
 "all tensors, slice ranges, positive steps and element values",
 "All shapes, start and step combinations.",
 [S+"Tensor/AdvancedTensorOperations.hpp:dotProductSlice", S+"Tensor/SliceView.hpp:SliceView"])
p("C88","Matrix product of slice views",
 "For views of shapes (m,k) and (k,n) matrixMatrixMulSlice returns the product of the matrices the views show, the same as multiplying copies of the slices, under every schedule of its parallel loop; for other shapes it throws invalid_argument.",
 "all tensors, slice ranges, positive steps, element values and schedules",
 "All shapes, start and step combinations and all interleavings of the parallel iterations.",
 [S+"Tensor/AdvancedTensorOperations.hpp:matrixMatrixMulSlice", S+"Tensor/SliceView.hpp:SliceView"])
p("C89","Training a linear model reaches the best possible loss",
 "A network of one fully connected layer compiled with MSELoss and SGD without momentum and weight decay, trained on one batch x of N samples with o outputs: if lr*(sum of squares of x + N) <= N*o no epoch increases the loss; if 2*lr*(sum of squares of x + N) <= N*o the loss after e epochs exceeds the loss of any other weights and biases by at most their squared distance from the initial ones divided by 2*lr*e. On one sample the loss is multiplied by (1 - 2*lr*(sum of squares of x + 1)/o)^2 in every epoch, so it tends to zero below lr = o/(sum of squares of x + 1) and diverges above.",
 "all batch and layer sizes, inputs, targets, initial weights, learning rates and numbers of epochs (real arithmetic)",
 "A statement about all numbers of epochs, and about all competing weights.",
 [S+"Layers/FullyConnectedLayer.hpp:backward", S+"Optimizers/SGDOptimizer.hpp:optimize", S+"SmartDNN/SmartDNN.impl.hpp:train", S+"Loss/MSELoss.hpp:gradient"])
p("C90","Adaptive optimizer steps are bounded whatever the gradients",
 "With RMSProp (not centered) every step moves each weight by at most lr / (sqrt(1 - alpha) * (1 - momentum)), and with Adam (no penalties, 1 - beta2 <= (1 - beta1)^2 as for the defaults) by at most lr * (1 - beta1) * sqrt(beta2 / ((beta2 - beta1^2) * (1 - beta2))), up to the clamp at the smallest float, whatever gradients were given before and now. Centered RMSProp has no such bound.",
 "all histories of calls, gradients, tensors, learning rates and admissible options (real arithmetic)",
 "A bound over all gradient histories.",
 [S+"Optimizers/RMSPropOptimizer.hpp:updateTensor", S+"Optimizers/AdamOptimizer.hpp:updateParameter"])
p("C91","The text form identifies the shape and the printed values",
 "Writing a shape gives its dimensions in order, in decimal, as \"(2, 3)\", and two shapes with the same text have the same dimensions. The data text of a tensor lists all its values in storage order, and when values are written faithfully (always for integers) equal texts mean equal values. The detailed text gives the shape and the first ten values with an ellipsis when there are more: two detailed texts agree exactly when the shapes agree and the first ten values are written alike.",
 "all shapes, all tensors, all ways of writing an element that produce no comma, bracket or empty text",
 "Injectivity speaks about all pairs of shapes or tensors.",
 [S+"Shape/Shape.hpp:toString", S+"Tensor/TensorDataCPU.impl.hpp:toDataString", S+"Tensor/Tensor.impl.hpp:toDetailedString"])
p("C92","float32 sums, matrix products and layer outputs are accurate",
 "With float32 elements, whenever the result is finite, sum and sum along an axis of n numbers differ from the exact sum by at most ((1 + 2^-24)^(n-1) - 1) times the sum of absolute values; each element of a matrix product, of a fully connected layer's output and of a one-channel convolution's output differs from the exact value by at most the corresponding bound for its number of terms, plus the error of products too small for full precision. The bound factor is at most 2*n*2^-24 for n up to 2^23. The bound for inner products also holds if the compiler fuses multiplications with additions.",
 "all shapes and all float32 values (including subnormal ones)",
 "Rounding errors over all inputs; tests compare a few sums with a tolerance.",
 [S+"Tensor/AdvancedTensorOperations.hpp:sum", S+"Tensor/AdvancedTensorOperations.hpp:matmul", S+"Layers/FullyConnectedLayer.hpp:forward", S+"Layers/Conv2DLayer.hpp:forward"])
p("C93","Activations do not turn finite float32 numbers into NaN or infinity",
 "On finite float32 inputs Sigmoid gives numbers in [0,1]; ReLU, LeakyReLU with |alpha| <= 1, Swish and Mish give finite numbers no larger in absolute value than the input. On finite inputs and gradients the backward passes of ReLU, LeakyReLU, Sigmoid and Tanh give finite numbers no larger than the gradient, those of Swish and Mish never give NaN.",
 "all tensors of finite float32 values, up to the largest; all math libraries with the stated bounds",
 "The extreme float values are where it would fail; tests use small numbers.",
 [S+"Activations/Sigmoid.hpp:forward", S+"Activations/ReLU.hpp:forward", S+"Activations/LeakyReLU.hpp:forward", S+"Activations/Swish.hpp:forward", S+"Activations/Mish.hpp:forward"])
p("C94","Softmax in float32 returns a probability distribution",
 "For every batch of finite float32 values each output is a number in [0,1], never NaN, and the outputs of a batch entry of n elements add up to 1 up to 4*((1 + 2^-24)^n - 1). If the library's exp does not decrease, a larger input never gets a smaller output.",
 "all shapes of rank at least two and all finite float32 values",
 "Overflow of exp and accumulated rounding depend on the values.",
 [S+"Activations/Softmax.hpp:forward"])
p("C95","Tanh of finite float32 numbers is a number in [-1,1]",
 "The Tanh activation maps every finite float32 input to a number in [-1,1].",
 "all tensors of finite float32 values",
 "Fails only for large inputs, where exp(2x) overflows.",
 [S+"Activations/Tanh.hpp:forward"])
p("C96","results do not depend on memory addresses",
  "Running the same program (any sequence of train, predict and mode switches on a compiled network, from the same random state) gives the same outputs, the same failures and the same trained weights wherever the allocator places the layers and their tensors, although the optimizers key their state by address.",
  "every network, optimizer, sequence of calls and pair of assignments of distinct addresses to the parameters",
  "A test sees the addresses of a few runs; the claim compares all placements.",
  [S+"SmartDNN/SmartDNN.impl.hpp:train",S+"Optimizers/AdamOptimizer.hpp:optimize",S+"Optimizers/SGDOptimizer.hpp:optimize",S+"Optimizers/RMSPropOptimizer.hpp:optimize"])
p("C97","float32 losses are numbers, and zero means equal",
 "On finite float32 predictions and targets MSELoss is never NaN and never negative, finite when the entries are at most 2^50, and exactly zero when the prediction equals the target; a zero loss means that they are equal; the gradient of each element has the sign of prediction minus target. CategoricalCrossEntropyLoss of predictions that are not NaN (infinite or out of range allowed) and targets in [0,1] is a number in [0, 2^32] and its gradients are in [-1,1]; so Softmax followed by it gives finite loss and gradients for all finite inputs.",
 "all shapes and all finite float32 values; every log that maps (0,1] into [-104,0]",
 "Overflow, underflow and rounding depend on the values.",
 [S+"Loss/MSELoss.hpp:compute", S+"Loss/CategoricalCrossEntropyLoss.hpp:compute"])
p("C98","Training in float32 keeps the weights finite",
 "With learning rates in [0,1], decay rates at most 1 - 2^-10, epsilon at least 2^-40, no penalties and gradients at most 2^30 in absolute value, SGD, RMSProp (centered or not) and Adam leave every weight a finite float32 number of at most 2^127 after every history of calls. A single gradient of at least 2^70 stops Adam for that weight: its value never changes again.",
 "all histories of calls, tensors, admissible options and gradients",
 "Needs all histories; the failure of the centered variant appears after a thousand steps.",
 [S+"Optimizers/SGDOptimizer.hpp:optimize", S+"Optimizers/RMSPropOptimizer.hpp:updateTensor", S+"Optimizers/AdamOptimizer.hpp:updateParameter"])
p("C99", "What training reports",
  "Training writes one line per epoch to the standard output, 'Epoch e - Loss: [v]', numbered from 0, where v is the average over the dataset of the losses of the samples; reading the report tells the user how well the network does.",
  "every network, dataset, number of epochs, loss, optimizer and way of printing numbers; every failure in the middle of training",
  "The text depends on every intermediate loss of a training run, and on where a run fails; a test sees one run and usually does not look at the output. Whether the printed value is the loss of the trained network or of an earlier one cannot be seen on runs that have converged.",
  [S+"SmartDNN/SmartDNN.impl.hpp:train"])
p("C100", "Access by position agrees with access by index",
  "For every tensor and index inside it, reading or writing the element at its row-major position with operator[] reads or writes the same element as at(index); the positions from 0 to size-1 reach every element exactly once, and any other position is outside the tensor.",
  "every tensor of every rank, size and element type, every index and position, every written value",
  "The agreement involves the stride computation for every rank and shape; tests compare a handful of positions of small tensors, and an access outside the tensor is undefined and often goes unnoticed.",
  [S+"Tensor/TensorData.hpp:operator[]", S+"Tensor/TensorDataCPU.impl.hpp:at", S+"Tensor/Tensor.hpp:at"])
p("C101", "Parameters that are set are the ones that are used",
  "Setting the weights and biases of a dense or convolution layer makes the next forward compute with exactly these and changes nothing else; tensors that do not fit the layer are rejected and leave it unchanged; the gradients read from a layer are those of the last backward (or the ones set), and gradients that were set are what the next update applies.",
  "every layer size, batch size, parameter, gradient and input tensor, every element type, every learning rate",
  "The tests set parameters of one or two small layers and check one forward. That no other state changes, and that every tensor of a wrong shape is refused, ranges over all tensors.",
  [S+"Layers/FullyConnectedLayer.hpp:setWeights", S+"Layers/FullyConnectedLayer.hpp:setBiases", S+"Layers/FullyConnectedLayer.hpp:getWeightGradients", S+"Layers/Conv2DLayer.hpp:setWeights"])
p("C102", "Joining shapes",
  "Concatenating two shapes gives the shape whose dimensions are those of the first followed by those of the second; its size is the product of the sizes, and the joint index of two elements has the position of the first times the size of the second shape plus the position of the second.",
  "every two shapes of any ranks whose joint size is representable, every pair of indices",
  "The position arithmetic must hold for every rank and every pair of shapes; no test of the library covers it.",
  [S+"Shape/ShapeOperations.hpp:concat"])
p("C103", "One optimizer serves all layers as if each had its own",
  "Training a network that was compiled with one new optimizer gives the same layers as updating each layer with a new optimizer of its own with the same settings.",
  "every network of any number of layers, every dataset and number of epochs, every optimizer and its settings",
  "The shared state accumulates over all layers and all updates of a training run; a test compares one short run at most, and the difference appears only with several parametric layers.",
  [S+"SmartDNN.hpp:SmartDNN", S+"SmartDNN/SmartDNN.impl.hpp:updateWeights", S+"Optimizers/AdamOptimizer.hpp:optimize", S+"Optimizers/SGDOptimizer.hpp:optimize", S+"Optimizers/RMSPropOptimizer.hpp:optimize"])
p("C104", "Random tensors, initial weights and dropout masks are successive draws of one generator",
  "A random tensor holds the next draws of the generator in row-major order; a new layer's weights are the next draws and its biases are zero; the mask of a dropout layer in a network comes from the draws that follow those of the layers before it, and no other layer draws. So a program's random numbers are determined by its seed, and none is used twice.",
  "every generator and every state of it, every shape, every network and position of the dropout layer in it",
  "Tests run with one seed and cannot tell which draw went where; a number used twice or a skipped one looks as random as the right one.",
  [S+"RandomEngine.hpp:getHeRandRange", S+"Tensor/TensorOperations.hpp:createRandom", S+"Layers/FullyConnectedLayer.hpp:FullyConnectedLayer", S+"Layers/Conv2DLayer.hpp:initializeWeights", S+"Regularisation/DropoutLayer.hpp:forward"])
p("C105", "He initialisation of weights",
  "Each initial weight of a fully connected or convolution layer is a draw from the normal distribution with deviation sqrt(2 / number of inputs), so that weights of both signs occur and ReLU units are active for about half of the inputs.",
  "every layer size and every generator",
  "Weights are random; a test can check a range for one seed but not the map from draws to weights for every generator.",
  [S+"RandomEngine.hpp:getHeRandRange", S+"Tensor/TensorFactory.hpp:rand", S+"Layers/FullyConnectedLayer.hpp:FullyConnectedLayer", S+"Layers/Conv2DLayer.hpp:initializeWeights"])
p("C106", "Training a classifier with Softmax outputs and categorical cross-entropy reduces the loss",
  "For a network of a fully connected layer followed by Softmax, compiled with categorical cross-entropy and plain SGD, every small enough training step on a batch reduces the loss of that batch, unless the prediction is already the target.",
  "every number of rows, inputs and classes, all weights, inputs and targets whose rows sum to one, every small enough learning rate",
  "Tests train one network for some steps and look at whether the loss went down; whether it goes down for every batch depends on the product of three derivatives that the layers and the loss compute separately.",
  [S+"Activations/Softmax.hpp:backward", S+"Loss/CategoricalCrossEntropyLoss.hpp:gradient", S+"Layers/FullyConnectedLayer.hpp:backward", S+"SmartDNN/SmartDNN.impl.hpp:train", S+"Optimizers/SGDOptimizer.hpp:optimize"])
p("C107", "In evaluation mode each row of a batch is predicted independently of the others",
  "In evaluation mode, predicting any selection of the rows of a batch, in any order and with repetitions, gives that selection of the rows of the prediction for the whole batch; in particular each row of the prediction is the prediction for that row alone.",
  "every network of layers whose shapes fit, every batch, every selection of rows, every element type and every arithmetic",
  "Tests predict single samples or one fixed batch; rows could influence each other through sums over the batch, strides or index arithmetic for shapes and positions no test uses.",
  [S+"SmartDNN/SmartDNN.impl.hpp:predict", S+"Layers/FullyConnectedLayer.hpp:forward", S+"Layers/Conv2DLayer.hpp:forward", S+"Activations/Softmax.hpp:forward", S+"Regularisation/BatchNormalizationLayer.hpp:forward", S+"Regularisation/MaxPooling2DLayer.hpp:forward"])
p("C108", "In training mode batch normalisation of a single row returns its shift",
  "A batch-normalisation layer in training mode returns its shift vector for every input of one feature row. Hence a network in training mode that contains such a layer gives the same prediction to all samples that are passed one at a time.",
  "all layer parameters and inputs, every network around the layer",
  "Tests run the layer on batches of several rows, or on one row without comparing two inputs.",
  [S+"Regularisation/BatchNormalizationLayer.hpp:forward", S+"SmartDNN/SmartDNN.impl.hpp:predict", "examples/MNistModel.cpp:main"])
p("C109", "The gradient of a batch is the average of the gradients of its rows",
  "Propagating a batch back leaves, in every layer with parameters, gradients that are the averages of the gradients each row leaves when it is propagated alone; so one plain gradient-descent step on a batch gives the average of the parameters the steps on the single rows give.",
  "every network whose layers fit, every loss, batch size, batch and targets, in exact arithmetic",
  "Tests check the gradients of one fixed batch per layer against formulas; a factor 1/N too many or too few, or rows that are skipped, need a comparison over all batch sizes through a whole network.",
  [S+"SmartDNN/SmartDNN.impl.hpp:train", S+"Layers/FullyConnectedLayer.hpp:backward", S+"Layers/Conv2DLayer.hpp:backward", S+"Loss/MSELoss.hpp:gradient", S+"Loss/CategoricalCrossEntropyLoss.hpp:gradient"])
p("C110", "In float32 the mean of equal numbers is that number",
  "The mean of a float32 tensor whose elements are all equal is that element, and its variance is zero. This is false of the code, which multiplies the sum by a rounded reciprocal. It holds for counts that are powers of two while the sum is exact, and the error of a mean is bounded for every tensor.",
  "every float32 tensor of a good shape, every count, every libm",
  "Tests take the mean of a handful of numbers and compare with a tolerance; which counts go wrong depends on how their reciprocals round.",
  [S+"Tensor/AdvancedTensorOperations.hpp:mean", S+"Tensor/AdvancedTensorOperations.hpp:variance", S+"Tensor/TensorOperations.hpp:sum"])
p("C111", "Whole numbers are added and multiplied exactly in float32 up to 2^24",
  "Elementwise sums, differences and products, total sums, sums along an axis, matrix products and fully connected layers of float32 tensors with whole-number elements give exactly the whole-number result, provided the sums of absolute values do not exceed 2^24. The limit cannot be raised: 2^24+1 is not a float32 value.",
  "every float32 tensor with whole-number elements, every shape, every libm",
  "Tests use small whole numbers and exact comparison; whether exactness extends to every tensor up to a stated limit cannot be sampled.",
  [S+"Tensor/TensorOperations.hpp:add", S+"Tensor/TensorOperations.hpp:sum", S+"Tensor/AdvancedTensorOperations.hpp:matmul", S+"Layers/FullyConnectedLayer.hpp:forward"])
p("C112", "In float32 a step of gradient descent along a non-zero gradient changes the weight",
  "A step of plain SGD with a positive rate along a non-zero gradient changes the weight. This is false in float32: steps below 2^-27 times the weight are lost, however many of them are made. Steps of at least 2^-22 times the weight move it, towards lower loss.",
  "every history of optimizer calls, every learning rate and override, every weight and gradient in the stated ranges, every libm",
  "Tests make a few large steps; a weight that stays still for ever is only visible over unbounded histories and for particular ratios of rate, gradient and weight.",
  [S+"Optimizers/SGDOptimizer.hpp:optimize"])
p("C113", "A backward pass that fails leaves the network as it was",
  "If backward throws (for example because the gradient has the wrong shape), the network is unchanged. This is false of the stored gradients: a convolution is left with partly filled gradients, a fully connected layer with a new weight gradient and the old bias gradient. Everything else is unchanged, and the next backward pass that succeeds gives the result it would have given without the failed one.",
  "every network, every pair of gradients, every outcome of the first pass",
  "The state left by an exception depends on where it is thrown; tests check that it is thrown, not what it leaves behind.",
  [S+"Layers/Conv2DLayer.hpp:backward", S+"Layers/FullyConnectedLayer.hpp:backward", S+"Regularisation/BatchNormalizationLayer.hpp:backward", S+"SmartDNN/SmartDNN.impl.hpp:backward"])
p("C114", "Predictions made between two training runs do not change the second",
  "After evalMode(), any predictions, successful or not, and trainingMode(), training gives the result it would have given without the predictions. This is false for Flatten layers that receive (batch, features), which use the shape of an earlier input, and for predictions made in training mode with batch normalisation. It holds whenever training works for the network without remembered inputs, and for networks without Flatten whenever training works.",
  "every network, every list of predictions with any outcomes, every dataset and number of epochs",
  "The effect depends on the whole history of calls before the training run.",
  [S+"SmartDNN/SmartDNN.impl.hpp:predict", S+"SmartDNN/SmartDNN.impl.hpp:train", S+"SmartDNN/SmartDNN.impl.hpp:evalMode", S+"Layers/FlattenLayer.hpp:forward"])
p("C115", "At its end the MNIST program shows its predictions for the last four batches",
  "When training has finished, the program writes, for each of the last four batches of test images, latest first, the picture of the first image, the network's prediction for the batch and the true labels. This is false with fewer than five batches (nothing is shown; with none the behaviour is undefined), and for the program's own network, which throws on the first prediction because of the images it has seen in training. It holds for every network in evaluation mode that predicts the batches, and every pair of files with at least 33 images.",
  "every network, every pair of image and label files, every text written before",
  "The bound of the loop is computed in unsigned arithmetic from the number of batches; running the program needs the data set.",
  ["examples/MNistModel.cpp:main", S+"Datasets/MNistLoader.hpp:toAsciiArt"])
p("C116", "The order of the samples within a batch does not affect training",
  "Putting the samples of a batch, and their targets alike, in another order changes neither the loss, nor the gradients, nor the network after the update, nor anything training prints. This is false of the code with a convolution, whose backward pass uses only the first image, and in float32, where sums depend on the order. It holds in exact arithmetic for every network without convolutions, every loss, every optimizer and every number of batches and epochs.",
  "every network whose layers fit, every loss and optimizer, all batches, every permutation of each of them, every number of epochs",
  "There are N! orders of a batch; tests train on one order of fixed data.",
  [S+"SmartDNN/SmartDNN.impl.hpp:train", S+"Layers/FullyConnectedLayer.hpp:backward", S+"Layers/Conv2DLayer.hpp:backward", S+"Loss/MSELoss.hpp:gradient", S+"Loss/CategoricalCrossEntropyLoss.hpp:gradient"])
p("C117", "Iterators of views visit every element once, in order, and stay at the end",
  "Starting from begin(), the k-th position of an iterator over a slice or broadcast view is the k-th element in row-major order; the iterator equals end() exactly when every element has been passed; from then on incrementing leaves it there and dereferencing throws out_of_range. Two iterators of a view are equal exactly when they are at the same position or both at the end. A range-based loop over a view runs its body once per element and ends.",
  "all tensors, slices, steps and target shapes a view can be made with; every number of increments",
  "Tests iterate over one small view to its end; carries between dimensions of every rank and increments past the end are not covered.",
  [S+"Tensor/BroadcastView.hpp:Iterator", S+"Tensor/SliceView.hpp:Iterator"])
p("C118", "A network that already fits its data is left unchanged by training",
  "If a network without dropout and batch normalisation predicts the target of every training sample exactly, then training with a new SGD, RMSprop or Adam optimizer without weight decay or penalties changes no parameter and no prediction in exact arithmetic, for any number of epochs, and the report repeats the same loss, 0 for the mean squared error.",
  "all networks of fully connected, activation, flatten, convolution and pooling layers, all samples, shapes, learning rates, momenta and numbers of epochs",
  "A test trains one network that does not yet fit; that no combination of layers, loss and optimizer moves a finished one needs every gradient path and every optimizer state.",
  [S+"SmartDNN/SmartDNN.impl.hpp:train", S+"Loss/MSELoss.hpp:gradient", S+"Loss/CategoricalCrossEntropyLoss.hpp:gradient", S+"Optimizers/AdamOptimizer.hpp:optimize"])
p("C119", "A sample that makes training fail leaves what was learnt before it, and can be skipped",
  "When train() fails, it fails at one sample: the samples before it, in order and over all earlier epochs, have been applied in full, and the network is as the failing sample left it. An exception never comes from the update, so the failing sample changes no parameter, no optimizer state and not the loss function. A caller who catches the exception gets the predictions as before that sample, and training on other samples gives the network it would have given had the bad sample never been shown.",
  "all networks, datasets, numbers of epochs, optimizers, losses, scalar types and positions of the failing sample",
  "A test shows one bad sample to one network; which layers keep traces of a failed sample depends on where in the pass it fails.",
  [S+"SmartDNN/SmartDNN.impl.hpp:train", S+"SmartDNN/SmartDNN.impl.hpp:updateWeights", S+"Layers/FlattenLayer.hpp:forward", S+"Regularisation/BatchNormalizationLayer.hpp:forward"])
p("C120", "The patch functions of the convolution layer give the convolution its constructor describes",
  "The layer contains two functions nothing calls yet: one lists, as a matrix, what the kernel sees at every output position of every image and channel, with stride, padding and dilation; the other adds such patches back into images. The kernels as rows times the first matrix, plus the biases, is the convolution the constructor's arguments describe (which forward does not compute, see C45), and the second function is the transpose of the first, as a backward pass needs. A kernel that does not fit the padded image should be refused, but is not always.",
  "all batch sizes, channel counts, image and kernel sizes, strides, paddings and dilations that fit; every scalar type with commutative multiplication (transpose: over the reals)",
  "The functions are private and not called, so no test can reach them; index arithmetic with five parameters.",
  [S+"Layers/Conv2DLayer.hpp:im2col", S+"Layers/Conv2DLayer.hpp:col2im"])
p("C121", "Training may be split into several calls",
  "Training for a + b epochs gives the same network as training for a epochs and then calling train() again for b epochs; one epoch over a dataset is one call for its first part and one for the rest, down to one call per sample; and a failure in the first part is the failure of the whole. The calls print the same losses, but each counts its epochs from 0. Compiling again between the calls with an optimizer of the same settings should not matter; it does not with SGD without momentum, but with momentum the gathered state is lost.",
  "all networks, losses, optimizers, datasets, splits and numbers of epochs, for every scalar type, whether or not training succeeds",
  "A test compares one split of one dataset; state that a call could reset or leave behind (counters, momenta, running statistics, generator) is only excluded by reasoning over all of it.",
  [S+"SmartDNN/SmartDNN.impl.hpp:train", S+"SmartDNN.hpp:compile", S+"Optimizers/SGDOptimizer.hpp:optimize"])
p("C122", "A float32 prediction is close to the prediction in exact arithmetic",
  "Compare a float32 network with the network that has exactly the same weights but calculates with real numbers. Both predict, all float32 outputs are finite, and they differ from the exact outputs by at most a bound that is computed from the weights layer by layer, from the largest input and from the accuracy of the exponential, logarithm and tangent functions; it does not depend on the batch size. If the exact network puts one class ahead of the others by more than twice the bound, the float32 network chooses the same class.",
  "all stacks of dense, convolution (one input channel), activation (all seven kinds; Tanh on inputs up to 30), flatten and max pooling layers and, in evaluation mode, batch normalisation and dropout layers, all finite weights and inputs, and all mathematical libraries of a given accuracy",
  "Errors of rounding, overflow and underflow accumulate over the layers in a way that depends on all weights and inputs; tests compare a few outputs with a tolerance that somebody guessed.",
  [S+"SmartDNN/SmartDNN.impl.hpp:predict", S+"Layers/FullyConnectedLayer.hpp:forward", S+"Layers/Conv2DLayer.hpp:forward", S+"Activations/Softmax.hpp:forward", S+"Activations/Sigmoid.hpp:forward", S+"Activations/Tanh.hpp:forward", S+"Activations/Mish.hpp:forward", S+"Regularisation/BatchNormalizationLayer.hpp:forward", S+"Regularisation/MaxPooling2DLayer.hpp:forward"])
p("C123", "On average, dropout returns its input",
  "In training mode a dropout layer keeps each element with probability 1 - rate and divides what it keeps by 1 - rate, so that the average of the output over the random choices is the input, for every tensor and every rate.",
  "all tensors, all rates between 0 and 1, and all random engines, seen as a set of equally likely states",
  "It is a statement about averages over the states of the random engine; a test with one seed sees one mask, and the effect of a wrong distribution depends on the number of elements.",
  [S+"Regularisation/DropoutLayer.hpp:forward", S+"RandomEngine.hpp:getHeRandRange", S+"Tensor/TensorFactory.hpp:rand", "examples/MNistModel.cpp:main"])
p("C124", "Hidden units that start equal stay equal",
  "If two units between two dense layers start with the same incoming weights, the same bias and the same outgoing weights, training keeps them equal, whatever the data, the loss, the optimizer and the number of epochs. In particular a network of dense layers that is given constant weights (setWeights) never gets hidden units that differ, so a wide hidden layer does the work of one unit. Only a layer between the two that treats units differently, such as dropout, can separate them.",
  "all networks, pairs of units joined by an activation applied element by element, losses, new optimizers with any settings, samples, epochs and all arithmetics including float32",
  "It is an invariant of training of any length; a test trains a few steps, and a rounding difference between the two units would show up only for particular data.",
  [S+"SmartDNN/SmartDNN.impl.hpp:train", S+"Layers/FullyConnectedLayer.hpp:backward", S+"Layers/FullyConnectedLayer.hpp:setWeights", S+"Optimizers/AdamOptimizer.hpp:optimize", S+"Optimizers/SGDOptimizer.hpp:optimize", S+"Optimizers/RMSPropOptimizer.hpp:optimize"])
p("C125", "Training with Adam in float32 never produces NaN or infinity",
  "Training with Adam at its default decay rates keeps every parameter finite and below a bound that is known in advance, whatever the data within a stated range and however many epochs are run; afterwards every prediction is finite. For the network of the README's quick start, with the default options of Adam, inputs of at most 2^37 in batches of 64 rows and targets of at most 1, the parameters stay below 2^26 and the predictions within 1. The linear regression example prints a finite prediction, whatever weights and data are drawn. The MNIST example without its batch normalisation layers trains with finite parameters on any image and label files.",
  "all networks of dense, convolution, max pooling, flatten, dropout, ReLU, leaky ReLU, sigmoid and softmax layers whose sizes meet the stated bounds, both losses, all samples within range, all numbers of epochs up to the limit of the update counter, all states of the random engine, all math libraries within stated accuracy",
  "Overflow needs particular data and long runs: a test that trains without NaN says nothing about other data or one more epoch.",
  ["README.md:Getting Started", "examples/SimpleLinearRegressionModel.cpp:main", "examples/MNistModel.cpp:main", S+"Regularisation/MaxPooling2DLayer.hpp:backward", S+"SmartDNN/SmartDNN.impl.hpp:train", S+"Optimizers/AdamOptimizer.hpp:optimize", S+"Layers/FullyConnectedLayer.hpp:backward", S+"Layers/Conv2DLayer.hpp:backward", S+"Activations/Softmax.hpp:backward", S+"Loss/MSELoss.hpp:gradient"])
p("C126", "Networks can be used from several threads",
  "Threads that train, predict with and switch the mode of networks get, under every schedule, what the same calls return in a single thread, without data races.",
  "all numbers of threads, all networks, all lists of calls, all interleavings of their memory accesses",
  "A race shows up in a test only under a rare schedule, and one that passes says nothing about the others.",
  [S+"SmartDNN/SmartDNN.impl.hpp:train", S+"SmartDNN/SmartDNN.impl.hpp:predict", S+"RandomEngine.hpp:getInstance", S+"Layers/FullyConnectedLayer.hpp:forward", S+"Regularisation/DropoutLayer.hpp:forward"])
p("C127", "Moving an image moves what the network sees in it",
  "For a network of convolution, pooling, activation (not Softmax), batch-normalisation and dropout layers (the last two in evaluation mode), an image moved by a multiple of the product of the pooling strides gives the old output moved by that multiple, wherever both are visible.",
  "all such networks, all images and batch sizes, all distances in both directions, any arithmetic",
  "Every position, distance and combination of layers would have to be tried; an error at one border or stride shows nowhere else.",
  [S+"Layers/Conv2DLayer.hpp:forward", S+"Regularisation/MaxPooling2DLayer.hpp:forward", S+"Regularisation/BatchNormalizationLayer.hpp:forward", S+"Layers/ActivationLayer.hpp:forward", S+"SmartDNN/SmartDNN.impl.hpp:predict"])
p("C128", "A convolution that covers the whole image is a fully connected layer",
  "Replacing a convolution whose kernel is as large as its input, and the Flatten layer after it, by Flatten and a fully connected layer with the same numbers does not change any prediction.",
  "all convolutions, kernel sizes, numbers of channels and samples, all layers before and after, any arithmetic",
  "Holds only if the order of the terms of the sums, the layout of kernels and the flattening agree for all sizes.",
  [S+"Layers/Conv2DLayer.hpp:forward", S+"Layers/FlattenLayer.hpp:forward", S+"Layers/FullyConnectedLayer.hpp:forward", S+"SmartDNN/SmartDNN.impl.hpp:predict"])
p("C129", "The order in which features, hidden units and classes are listed does not matter",
  "Two dense networks that differ only in the order of their features, hidden units and outputs predict the same values in the two orders, and training both, on samples and targets in the two orders, prints the same text and leaves networks that still differ only in that order.",
  "all stacks of fully connected and activation layers, all permutations at each layer, all batch sizes, both losses, all new optimizers, all samples, targets and numbers of epochs",
  "There is a factorial number of orders at every layer, and training multiplies them by every history of updates.",
  [S+"Layers/FullyConnectedLayer.hpp:forward", S+"Layers/FullyConnectedLayer.hpp:backward", S+"Layers/ActivationLayer.hpp:forward", S+"Layers/ActivationLayer.hpp:backward", S+"SmartDNN/SmartDNN.impl.hpp:train", S+"SmartDNN/SmartDNN.impl.hpp:predict", S+"Loss/CategoricalCrossEntropyLoss.hpp:gradient", S+"Optimizers/AdamOptimizer.hpp:optimize"])
p("C130", "Features that are zero in every sample can be left out",
 "In exact arithmetic, take two networks that are the same except that the first dense layer of one has further inputs. Train one on some samples and the other on the same samples with zero columns for the further inputs, with the same loss and new optimizers with the same settings. Both trainings print the same losses, the networks still differ only in the weights of the further inputs, and they predict the same values for inputs with and without the zero columns. If the optimizer has no decay or penalty, the weights of the further inputs keep their values.",
 "every number and place of the zero features, every later layers the network can be trained with, weights, biases, samples, targets, loss, new optimizer and number of epochs",
 "A test compares a few networks and samples; that the zero columns can never matter concerns every network, optimizer and history of training.",
 [S+"Layers/FullyConnectedLayer.hpp:forward", S+"Layers/FullyConnectedLayer.hpp:backward", S+"SmartDNN/SmartDNN.impl.hpp:train", S+"Optimizers/AdamOptimizer.hpp:updateTensor", S+"Optimizers/SGDOptimizer.hpp:optimize", S+"Optimizers/RMSPropOptimizer.hpp:optimize"])
p("C131", "Hidden ReLU units that are not active for any training sample never wake up and can be left out",
 "In exact arithmetic, take a network that begins with a dense layer, ReLU and a dense layer, and suppose that at some hidden units the input of ReLU is not positive for any training sample. Training with an optimizer without decay or penalties leaves the weights and biases into and out of these units as they are, the units stay inactive for every input for which they were, and the training prints the same losses as training the network without these units; both networks predict the same values for all such inputs.",
 "every number and place of the inactive units, every layers after the second dense layer that the network can be trained with, weights, biases, samples, targets, loss, new optimizer without decay or penalty and number of epochs",
 "A test trains a few networks for a few epochs; that a dead unit never comes back concerns every history of training.",
 [S+"Layers/FullyConnectedLayer.hpp:forward", S+"Layers/FullyConnectedLayer.hpp:backward", S+"Activations/ReLU.hpp:backward", S+"SmartDNN/SmartDNN.impl.hpp:train", S+"Optimizers/AdamOptimizer.hpp:updateTensor", S+"Optimizers/SGDOptimizer.hpp:optimize", S+"Optimizers/RMSPropOptimizer.hpp:optimize"])
p("C132", "Two dense layers in a row predict the same as one",
 "In exact arithmetic, a network in which a fully connected layer directly follows another one predicts, for every input, exactly what it predicts with the two replaced by the single fully connected layer whose weights are the product of the two weight matrices and whose biases are the first biases carried through the second layer. Such a layer exists for any two layers whose product of sizes can be allocated.",
 "all fully connected layers of any sizes, any layers before and after them, all inputs",
 "a test compares a few networks; that nothing is gained by stacking dense layers without an activation is a statement about all weights",
 [S+"Layers/FullyConnectedLayer.hpp:FullyConnectedLayer", S+"SmartDNN/SmartDNN.impl.hpp:predict"])
p("C133", "Batch normalisation can be folded into the layer before it",
 "In exact arithmetic, after training, when batch normalisation is in evaluation mode, it can be folded into the fully connected or convolution layer before it: with the weights of output j multiplied by gamma/sqrt(running variance + epsilon) and the bias adjusted, the network without the normalisation layer predicts the same for every input. Such a layer always exists.",
 "all dense and convolution layers, all running statistics and parameters, any layers before and after, all inputs",
 "needs an identity between two networks on all inputs",
 [S+"Regularisation/BatchNormalizationLayer.hpp:BatchNormalizationLayer", S+"Layers/FullyConnectedLayer.hpp:FullyConnectedLayer", S+"Layers/Conv2DLayer.hpp:Conv2DLayer"])
p("C134", "Scaling hidden units or the input",
 "In exact arithmetic: multiplying the incoming weights and the bias of hidden ReLU or LeakyReLU units by positive numbers and dividing their outgoing weights by the same numbers changes no prediction; and a network of dense, convolution, flatten and evaluation-mode dropout layers with ReLU or LeakyReLU and zero biases (as built) answers an input multiplied by c >= 0 with its output multiplied by c.",
 "all sizes, weights, positive factors, inputs",
 "a symmetry of the whole parameter space",
 [S+"Layers/FullyConnectedLayer.hpp:FullyConnectedLayer", S+"Activations/ReLU.hpp:ReLU", S+"Activations/LeakyReLU.hpp:LeakyReLU"])
p("C135", "Layers that do nothing to a prediction",
 "In any arithmetic, removing a dropout layer in evaluation mode, a flatten layer on inputs of two dimensions, the second of two flatten layers or the second of two ReLU layers in a row changes no prediction, not even in the last bit, nor what the network throws.",
 "all layers before and after, all inputs, every arithmetic including float32 with NaN",
 "holds for every network around the layer",
 [S+"Regularisation/DropoutLayer.hpp:DropoutLayer", S+"Layers/FlattenLayer.hpp:FlattenLayer", S+"Activations/ReLU.hpp:ReLU"])
p("C136", "Activation and flatten or max pooling can be exchanged",
 "An activation that works element by element (all but Softmax) and flattening can be exchanged in any arithmetic. ReLU and max pooling can be exchanged, bit by bit in float32 for all finite values to be pooled; in exact arithmetic so can Sigmoid, Tanh and LeakyReLU with a slope between 0 and 1. With a negative slope of LeakyReLU they cannot.",
 "all layers before and after, all tensors to be pooled, all window sizes and strides that fit",
 "the maximum of every window for every input",
 [S+"Regularisation/MaxPooling2DLayer.hpp:MaxPooling2DLayer", S+"Layers/FlattenLayer.hpp:FlattenLayer", S+"Layers/ActivationLayer.hpp:ActivationLayer"])
p("C137", "A small change of the input changes a prediction by at most a known factor",
 "In exact arithmetic, if no element of the input changes by more than e, no element of the prediction changes by more than K*e, where K is the product over the layers of: the largest sum of absolute weights leading to one output (fully connected layers, convolutions), 1 (ReLU, Sigmoid, Tanh, flatten, max pooling, evaluation-mode dropout), the larger of 1 and |slope| (LeakyReLU), 2 (Swish, Mish, Softmax), 1/|1-rate| (training-mode dropout with the same random draws) and |gamma|/sqrt(running variance + epsilon) (evaluation-mode batch normalisation). A class that leads by more than 2*K*e therefore still leads. Every network has such a K, and for a fully connected layer the factor cannot be improved. In float32 the two predictions differ by at most the sum of the rounding bounds of C122 for an input without error and for an input with an error of e.",
 "all networks of any depth and size, all weights, all inputs and all changes of them",
 "a test perturbs a few inputs in a few directions; the bound is over all of them",
 [S+"SmartDNN/SmartDNN.impl.hpp:predict", S+"Layers/FullyConnectedLayer.hpp:FullyConnectedLayer", S+"Layers/Conv2DLayer.hpp:Conv2DLayer", S+"Regularisation/MaxPooling2DLayer.hpp:MaxPooling2DLayer", S+"Activations/Mish.hpp:Mish", S+"Activations/Swish.hpp:Swish"])
p("C138", "Repeating every sample of a batch equally often does not change training",
 "In exact arithmetic, training on batches that contain each sample m times (together with its target, in any order) instead of once prints the same losses and ends with the same weights, biases and optimizer state as training on the original batches, for any loss and any optimizer.",
 "all networks, batches, numbers of copies, orders, losses, optimizers, numbers of epochs",
 "relates two training runs on different data for all batches and histories",
 [S+"SmartDNN/SmartDNN.impl.hpp:train", S+"Loss/MSELoss.hpp:MSELoss", S+"Loss/CategoricalCrossEntropyLoss.hpp:CategoricalCrossEntropyLoss", S+"Layers/FullyConnectedLayer.hpp:FullyConnectedLayer", S+"Layers/Conv2DLayer.hpp:Conv2DLayer"])
p("C139", "A small change of the weights changes a prediction by at most a known bound",
 "In exact arithmetic, if no weight and no bias changes by more than d and no element of the input by more than e, no element of the prediction changes by more than a bound that is computed layer by layer from the weights before the change and the largest input: a layer multiplies the change by its factor of C137, and a fully connected layer or convolution with k weights per output, on inputs of at most s, adds d*(k*s+1). A class that leads by more than twice the bound still leads. Predictions depend continuously on the weights and the input: for every tolerance there is a d that keeps all changes below it, the same for all inputs of a given size. For a fully connected layer the added term cannot be improved.",
 "all networks of any depth and size, all inputs, all changes of weights, biases and inputs",
 "a test changes a few weights (by rounding, pruning or one training step) and looks at a few outputs; the bound is over all of them",
 [S+"SmartDNN/SmartDNN.impl.hpp:predict", S+"Layers/FullyConnectedLayer.hpp:FullyConnectedLayer", S+"Layers/Conv2DLayer.hpp:Conv2DLayer", S+"Activations/Softmax.hpp:Softmax"])
p("C140", "Without negative weights, raising an input lowers no output",
 "In exact arithmetic, in a network whose fully connected and convolution weights and batch-normalisation scales are not negative and whose activations are ReLU, leaky ReLU, Sigmoid or Tanh, raising any elements of the input lowers no element of the prediction. Every newly constructed network of such layers is of this kind whatever the random engine draws, since new weights lie between 0 and 1: before training it cannot tell that more of something speaks against a class. The same holds for the rounded float32 results (ReLU, leaky ReLU and Sigmoid, numbers in range): rounding never turns a raised input into a lowered output. The conditions are needed: behind a negative weight the output falls, Softmax lowers all other outputs of the row, and Swish and Mish fall between -4 and -1.",
 "all networks of any depth and size, all pairs of inputs, all random draws",
 "a test raises a few inputs of a few networks; the claim compares all pairs of inputs and all initial weights",
 [S+"SmartDNN/SmartDNN.impl.hpp:predict", S+"Layers/FullyConnectedLayer.hpp:FullyConnectedLayer", S+"Layers/Conv2DLayer.hpp:initializeWeights", S+"Activations/Softmax.hpp:Softmax", S+"Activations/Swish.hpp:Swish", S+"Activations/Mish.hpp:Mish"])
p("C141", "A learning rate of zero leaves the weights alone",
 "In exact arithmetic, an optimizer that was given the learning rate 0 never changes a weight: training any network on any data for any number of epochs leaves all weights, biases, scales and shifts as they are, whatever momentum, decay and penalties are set and even if training fails on the way, and so does every history of optimize calls. Passing a learning rate of 0 to a single call of optimize should have the same effect for that call.",
 "all networks, data, numbers of epochs, optimizers and their states; all histories of optimize calls",
 "a test tries one optimizer and one set of options; momentum, weight decay, l1, l2 and learning-rate decay all multiply with the rate in different places",
 [S+"Optimizers/SGDOptimizer.hpp:optimize", S+"Optimizers/RMSPropOptimizer.hpp:optimize", S+"Optimizers/AdamOptimizer.hpp:updateParameter", S+"SmartDNN/SmartDNN.impl.hpp:train"])
p("C142", "Without biases, scaling the input scales the prediction",
 "In exact arithmetic, in a network whose biases are all 0 and whose activations are ReLU and leaky ReLU (max pooling only behind a ReLU), multiplying the input by a factor c that is not negative multiplies the prediction by c. Every newly constructed network of such layers is of this kind whatever the random engine draws, since new biases are 0. With Softmax at the end the ranking of the classes does not depend on a positive factor: a brighter or darker image is classified the same. The condition is needed: behind a bias other than 0 no factor but 1 carries over.",
 "all networks of any depth and size, all inputs, all factors, all random draws",
 "a test scales a few inputs of a few networks; the claim holds for all inputs, factors and initial weights",
 [S+"SmartDNN/SmartDNN.impl.hpp:predict", S+"Layers/FullyConnectedLayer.hpp:FullyConnectedLayer", S+"Layers/Conv2DLayer.hpp:initializeWeights", S+"Activations/ReLU.hpp:ReLU", S+"Activations/LeakyReLU.hpp:LeakyReLU", S+"Activations/Softmax.hpp:Softmax", S+"Regularisation/MaxPooling2DLayer.hpp:forward"])
p("C143", "In a new network ReLU does nothing to images",
 "In exact arithmetic, if no weight, no bias and no input is negative, a network predicts the same with and without its ReLU and leaky ReLU layers, whatever other layers it has (dense, convolution, pooling, flatten, dropout, any activation; not batch normalisation). Every newly constructed network is of this kind whatever the random engine draws, since new weights are clamped to [0,1] and new biases are 0. So a new network of dense, convolution, flatten, dropout, ReLU and leaky ReLU layers is linear on inputs that are not negative, such as images: the prediction for a sum of inputs is the sum of the predictions. The first claim also holds in float32 with all roundings, as long as no number leaves the range (a 0 may differ in sign). The condition on the input is needed: an element below 0 is changed by such a layer.",
 "all networks of any depth and size, all inputs without negative elements, all random draws",
 "a test compares a few inputs of a few networks; the claim holds for all inputs and initial weights",
 [S+"SmartDNN/SmartDNN.impl.hpp:predict", S+"Layers/FullyConnectedLayer.hpp:FullyConnectedLayer", S+"Layers/Conv2DLayer.hpp:initializeWeights", S+"Activations/ReLU.hpp:ReLU", S+"Activations/LeakyReLU.hpp:LeakyReLU", S+"Regularisation/MaxPooling2DLayer.hpp:forward", S+"Regularisation/DropoutLayer.hpp:forward"])
p("C144", "Only the first channel of a colour image counts",
 "In any arithmetic, a network whose first layer is a convolution cannot tell apart two batches of images that agree in their first channel: it gives the same prediction, or fails in the same way, and training on the one or the other (with any layers behind the convolution, any loss, any optimizer, any number of epochs) leaves the same weights, biases, optimizer history and random engine. So a network trained on images in other colours answers images in other colours alike. The weights for the other channels, and those of all kernels but the first, get the gradient 0 in every backward pass.",
 "all networks with a convolution as first layer, all images, batches and training histories, all arithmetics including float32 with NaN; no assumption that training succeeds",
 "a test compares a few images after a few steps; the claim is about every history and every way to fail",
 [S+"Layers/Conv2DLayer.hpp:forward", S+"Layers/Conv2DLayer.hpp:backward", S+"SmartDNN/SmartDNN.impl.hpp:train", S+"SmartDNN/SmartDNN.impl.hpp:predict"])
p("C145", "Only the first kernel of a convolution learns",
 "In exact arithmetic, take a network whose layers fit together, with a convolution anywhere in it, and train it with SGD, RMSProp or Adam without weight decay or penalties, on any samples for any number of epochs. Afterwards the convolution has exactly the weights and biases it was created with, except the weights of the first kernel for the first channel and the first bias: all other kernels and channels keep their random initial values for ever. With float32 rounding the same holds for SGD without momentum at any finite rate: every such weight that is finite keeps its value, even if NaN arises elsewhere in the network.",
 "all networks with a convolution at any position, all samples, targets, losses, epochs, and all three optimizers with any options but penalties; total training steps within an int",
 "a test sees a few steps on one network; the claim is that no data and no amount of training ever moves these weights",
 [S+"Layers/Conv2DLayer.hpp:backward", S+"Layers/Conv2DLayer.hpp:updateWeights", S+"Optimizers/SGDOptimizer.hpp:updateTensor", S+"Optimizers/RMSPropOptimizer.hpp:updateTensor", S+"Optimizers/AdamOptimizer.hpp:updateTensor", S+"SmartDNN/SmartDNN.impl.hpp:train"])
p("C146", "Between two convolutions only the first kernel counts",
 "In a network whose layers fit together, let a convolution be followed by another convolution, directly or after max-pooling, dropout and activations other than Softmax. Then the prediction for every input depends on the earlier convolution only through the weights of its first kernel for the first channel and its first bias: any other values of its remaining kernels and biases give exactly the same prediction, in any arithmetic, float32 rounding and NaN included.",
 "all networks with two convolutions in this order at any position, any layers before and after, all values of the weights concerned, all inputs the network accepts",
 "a test compares a few weights on one network; the claim is that no choice of the other kernels and no input ever makes a difference",
 [S+"Layers/Conv2DLayer.hpp:forward", S+"Regularisation/MaxPooling2DLayer.hpp:forward", S+"Regularisation/DropoutLayer.hpp:forward", S+"Layers/ActivationLayer.hpp:forward", S+"SmartDNN/SmartDNN.impl.hpp:predict"])
p("C147", "Stride, padding and dilation of a convolution never make a difference",
 "Take two networks that are equal except for the strides, paddings and dilations their convolutions were constructed with. Every prediction and every training run gives the same result on both, the same failure included, and leaves the same weights, gradients and optimizer averages, in any arithmetic and with no restriction on the settings, which may be zero or negative.",
 "all networks, all settings of all their convolutions, all inputs and targets valid or not, all losses, optimizers and numbers of epochs, and all sequences of such calls",
 "a test compares two settings on one image; the claim is that no setting ever has an effect, in any history, so that no output size or weight can reveal it",
 [S+"Layers/Conv2DLayer.hpp:Conv2DLayer", S+"Layers/Conv2DLayer.hpp:forward", S+"Layers/Conv2DLayer.hpp:backward", S+"Layers/Conv2DLayer.hpp:updateWeights", S+"SmartDNN/SmartDNN.impl.hpp:predict", S+"SmartDNN/SmartDNN.impl.hpp:train"])
out = os.path.join(os.path.dirname(os.path.abspath(__file__)), "..", "properties.jsonl")
with open(out, "w") as f:
    for x in P: f.write(json.dumps(x) + "\n")
print(len(P))

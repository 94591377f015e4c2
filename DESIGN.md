# A machine-checked model of SmartDNN

The subject is the header-only C++ library in `/repo/smart_dnn`. The model and
proofs are in `rocq/theories` (Coq 8.16.1).

## 1. Layout

| Layer | Files | Content |
|---|---|---|
| Base | `Base.v`, `Scalar.v`, `TextBase.v` | outcomes, checked memory access, loops, fixed-width integers, scalar operations |
| Model | `M_*.v` | one definition per C++ function, each citing `/repo` lines; no proofs |
| Spec | `Spec*.v` | short mathematical definitions (row-major index, right-aligned broadcast, sums, derivative along a curve); mention no model function |
| Proofs | `L_*.v` | lemmas connecting model and spec |
| Conformance | `Conform.v` | the repository's own unit tests evaluated on the model (checks, not proofs of properties) |
| Properties | `P_*.v` | the property theorems only, each closed by `exact`, with a concrete example and `Print Assumptions` |

## 2. Modelling decisions

* **Outcomes.** Every operation returns `Ok a | Throw e | Abort | UB | Hang`.
  `Throw` carries the exception class, `Abort` is a failed `assert` (release
  flags do not define NDEBUG), `UB` is undefined behaviour (out-of-bounds access
  through `operator[]`, empty optional or null dereference, division by zero),
  `Hang` is a loop that exceeds its fuel. Nothing out of range is totalised
  silently: a proof that a call gives `Ok` is also a memory-safety proof.
* **Integers.** `size_t` arithmetic wraps modulo 2^64 explicitly, conversions to
  `int` wrap modulo 2^32. Where code stores an index in an `int`, theorems carry
  the hypothesis "at most INT_MAX elements" and a refutation shows why.
* **Scalars.** The template parameter `T` is a record of *operations without
  laws* (`Scalar.v`). Structural theorems therefore hold for every arithmetic,
  including IEEE float, with the exact accumulation order. Analytic theorems
  (derivatives, ranges, probabilities) instantiate `T` with Coq's `R`. Float32
  (`SpecFloat`, axiom-free) is used for witnesses and float-specific claims
  (C92-C95, C97, C98); Flocq relates it to rounding of reals. `expf`, `logf`, `tanhf` are
  parameters with the hypotheses `libm_like`. Where the C++ expression is a
  `double` (Adam's `std::pow` and what is computed from it, literals, the
  sample generator) the float32 instance computes in binary64 and rounds once.
* **State.** Layer and optimizer methods return the new state *and* an outcome,
  so the state after an exception is observable.
* **Random numbers.** The engine is an arbitrary state machine that the
  theorems quantify over.
* **Optimizer keys.** Object/buffer addresses are explicit keys. `M_Net.v` fixes
  the addresses of the parameters; C96 shows that the choice does not matter.
* **Parallel loops.** `#pragma omp parallel for` loops are modelled
  sequentially (the shipped CMake build does not enable OpenMP). `M_Par.v` models
  them again as concurrent programs over shared cells, sequentially consistent,
  one thread per iteration; C69 is about those.
* **Threads.** `M_Threads.v` models programs in which threads use networks, with
  the same memory. A layer object, an optimizer and the random engine are one
  cell each, read and written as a whole; C126 is about those.
* **Gradients.** "g is the gradient" is stated along curves: for every
  differentiable curve of inputs/parameters, the output is differentiable and
  `<g, dy> = <gx, dx> + <gW, dW> + ...`.
* **False properties.** Where the code does not satisfy the property the full
  statement is refuted (`..._refuted`, concrete witness) and the strongest part
  that holds is proved (`..._partial`).

## 3. Plan per property

| Property | Model | Proof |
|---|---|---|
| C01-C03 | Shape constructor, size, strides, reshape over Z with explicit wrap | induction on dimensions; C02 refuted by a product of 2^64 |
| C04-C06 | computeFlatIndex, at | refinement to the Horner row-major index; bijection by induction |
| C07, C08 | broadcastShapes on reversed lists | induction; lattice laws |
| C09, C10 | BroadcastView iterators, transform loops | odometer lemma + loop invariant; aliasing as a separate mode |
| C11, C71 | scalar ops, apply | list map |
| C12-C15 | BroadcastView, SliceView iterators | odometer lemma; C13, C14 refuted in part |
| C16, C17 | slice | dim 0 proved, other dims refuted; bounds arithmetic |
| C18-C21 | sum/mean/variance loops | accumulation-loop lemma, order-exact |
| C22 | transpose | permutation-scatter lemma |
| C23-C25 | matmul variants | loop invariants; algebra over R; C24 refuted |
| C26-C28 | heap model with buffer ownership | invariant by induction over histories |
| C29, C30, C31 | constructors, factories, equality | direct |
| C32-C36 | activations | Coquelicot derivatives over R |
| C37-C39 | losses | derivative along curves; C39 refuted, fused form proved |
| C40-C44, C72 | layer state machines | refinement, derivative along curves, refutations |
| C45-C48 | Conv2D, MaxPooling loops | loop invariants; conv refuted beyond one channel / default stride |
| C49-C52 | BatchNormalization | algebra over R, invariants over histories; C51, C52 refuted |
| C53, C54 | Dropout | direct; C54 refuted |
| C55-C60 | optimizers keyed by address | induction over histories; C58, C60 refuted in part |
| C61-C64 | SmartDNN container | induction over layers / samples / epochs |
| C65-C67 | MNIST loader over byte lists | induction over the file; C67 refuted |
| C68 | sample generators | arithmetic |
| C69 | iterations as read/write programs, interleaving semantics | each cell has one owning iteration => every schedule is race-free and agrees with the sequential loop (also im2col and col2im, whose iterations are whole images and channels); transpose and createRandom refuted |
| C70 | applyPair int size | refuted by arithmetic on 2^31 |
| C73-C76 | further properties found while modelling (matmul, pooling, batch normalisation, optimizer state) | as their neighbours |
| C77-C79 | whole training steps | composition of C41/C46 (chain rule), C55 (SGD rule) and the shape invariants of C78 |
| C80-C81 | loadData, toAsciiArt | corollary of C65/C66; all 256 bytes checked in float32 inside the proof |
| C82, C84 | networks with batch normalisation; examples/MNistModel.cpp (M_Ex.v up to the end of training, M_Show.v to the end) | forward succeeds through every layer (shape invariant), backward reaches the last batch-normalisation layer and is undefined by C52; refuted |
| C83 | networks on rank-1 samples; examples/SimpleLinearRegressionModel.cpp (M_Ex.v) | the training invariant of C78, generalised over the family of layers and the shapes gradients may have (`Section Family` in L_Train.v) |
| C85 | one inductive rule per interface call (M_Api.v) | the consistency invariant is preserved by every call, by induction over the history; discharges the `wf`/`good` hypotheses of the other theorems |
| C86 | Shape's mutable operator[] | refuted; flat index over stale strides |
| C87, C88 | slice-view products | closed form; iterator loop by induction; ownership of result cells |
| C89 | training a linear model, over R | closed form of one step; Cauchy-Schwarz; telescoping over epochs; geometric sequence |
| C90 | RMSProp and Adam update rules, over R | invariant on the moments (Cauchy-Schwarz, Bernoulli), induction over the history; explicit history for the centered variant |
| C91 | Shape::toString, Tensor::toDataString, toDetailedString (M_Text.v) | loop invariant for the closed forms; unique splitting at commas, decimal notation is injective (SpecText.v, L_Text.v) |
| C92 | sum, sum(axis), matmul, FullyConnected and Conv2D forward at `T = float` | SpecFloat operations are Flocq's rounded operations (L_Float.v); induction over the accumulation |
| C93-C95 | activations at `T = float` over any math library with stated bounds (SpecF32.v) | range of each rounded operation; a correctly rounded library as witness (L_FloatLib.v) |
| C96 | the training loop with parameters at arbitrary addresses (M_Addr.v) | simulation between two address assignments; M_Net.v is the identity case |
| C97 | losses at `T = float` | sign and range of each rounded operation along the closed forms of L_Loss.v (L_FloatLoss.v) |
| C98 | optimizer histories at `T = float` | invariant on weights and buffers over the per-element rules of L_Opt.v (L_FloatOpt.v); the centered counterexample is computed (L_FloatTrain.v) |
| C99 | the text SmartDNN::train writes (M_Log.v) | induction over samples and epochs against a relation collecting the losses (SpecLog.v, L_Log.v); the linear model of C89 for the refutation and the monotone case |
| C100 | operator[] and at (M_Tensor.v) | the flat index lemma of C05 and the bijection between indices and positions |
| C101 | setters and getters of the dense and convolution layers (M_Layers.v, M_Access.v) | closed forms of forward and backward with the new tensors; witness for the missing checks |
| C102 | ShapeOperations::concat (M_Shape.v) | induction over the first shape |
| C103 | the update pass (M_Net.v) against one optimizer per layer (SpecSep.v) | simulation: the shared optimizer holds, under each layer's addresses, what the layer's own one holds; Adam witness over the reals |
| C104 | createRandom, constructors, dropout in a network (M_Tensor.v, M_Layers.v, M_Net.v) | loop invariant over the draws; composition of the forward pass at any layer |
| C105 | the same constructors over the reals | cases of the clamp; induction over stacks of new layers and ReLU; two engines as witnesses |
| C106 | the training step of a fully connected layer with Softmax and cross-entropy (M_Net.v) over the reals | closed form of the step's effect on the inputs of Softmax, chain rule through C39; the row-wise inner product is a variance; witness with two rows |
| C107 | prediction by a network of any layers in evaluation mode (M_Net.v) | per layer: closed form of the output as a function of one row; induction over the layers |
| C108 | batch normalisation in training mode (M_Reg.v) over the reals, inside a network (M_Net.v) | a single row is its own mean and has variance zero |
| C109 | predict, loss gradient and backward of a network (M_Net.v) over the reals | per layer: the backward pass is linear in the gradient and works row by row, parameter gradients add up over rows; induction over the layers; false for convolutions, which use the first image only |
| C110 | mean and variance (M_Adv.v) in float32 | a computed witness; exact sums of whole numbers; rounding-error bounds of sum, reciprocal and product |
| C111 | elementwise operations, sums, matmul and the fully connected layer in float32 (M_Tensor.v, M_Adv.v, M_Layers.v) | whole numbers up to 2^24 are floats, so each rounding is exact; induction over the sum |
| C112 | plain SGD (M_Opt.v) in float32 over any history of calls | closed form of a history (C55); the difference rounds back to the weight when the step is below half the gap to its neighbours, and past a neighbour when it is above the gap |
| C113 | backward of every layer with the state left behind when it fails (M_Layers.v, M_Reg.v, M_Net.v) | layers that differ only in stored gradients have equal outcomes, and equal results when the outcome is a value; induction over the layers |
| C114 | evalMode, predict, trainingMode, train (M_Net.v) with the state left by failing predictions | predictions change remembered inputs only (C61); a training step overwrites them before it reads them, except in Flatten, whose read of a missing shape is undefined behaviour |
| C115 | the end of examples/MNistModel.cpp and the whole of main, with the text written (M_Show.v) | the loop runs for four indices when there are at least five batches, by arithmetic modulo 2^64; predictions in evaluation mode do not affect each other (C61); C54 for the network after training |
| C116 | as C109, with any optimizer and the text training prints | C109 gives the gradients of a batch as averages over its rows, and an average is the same in every order (Permutation); the parametric training induction of L_Train.v then covers batches and epochs; the convolution and float32 are refuted by witnesses |
| C117 | the iterators of BroadcastView and SliceView (M_Iter.v) | the state after k increments is the k-th index in closed form, by induction on k; equality from injectivity of the row-major order |
| C118 | training of a network at a minimum of its loss, exact arithmetic | zero gradients propagate to zero gradients through every layer; each optimizer with zero buffers maps a zero gradient to a zero step and keeps its buffers zero; invariant over samples and epochs; counterexample at the clamp of the cross-entropy |
| C119 | train() with the step it fails in (SpecStop.v) | induction over samples and epochs; an update after a successful backward pass only reads and writes data, so it does not throw; stored gradients and inputs are overwritten by the next sample (C113, C114) |
| C120 | Conv2DLayer::im2col and col2im (M_Col.v) | each matrix cell is written exactly once (bijection between loop indices and cells); row-major order of (channel, row, column) is the order of the specified sum; adjointness by exchanging sums |
| C121 | train() called repeatedly | epochs are a recursion, so they split; samples via the sequence of training steps (C63); compiling again: a simulation that ignores the buffers of SGD without momentum |
| C122 | float32 against real numbers | a relation [close] between a float tensor and a real one, kept by each layer with new bounds (forward error analysis of inner products, Lipschitz bounds of the activations, relative error of Softmax, log-sum argument for Mish, relative error of the standard deviation in batch normalisation, a relational fold for pooling), and an induction over the layers |
| C123 | the states of the engine as a finite list of equally likely cases | the output at an index as a function of one draw (from the normal forms of rand and of dropout, C48 and C104), then symmetry for the bound by one half and Chebyshev's inequality, summed over the elements, for the number kept |
| C124 | pairings of units per layer boundary | one induction over the layers for both passes (values and gradients of paired units are equal, hence the gradients of their weights), one over the layers for the update (optimizer buffers equal at paired positions), then over the samples |
| C125 | float32 throughout; powers of two that bound outputs and gradients layer by layer | the first moment of Adam is bounded by the square root of the second (or the second is infinite), so one step is at most a fixed multiple of the learning rate and rounding absorbs it at 2^q; then induction over layers and samples with values tracked |
| C126 | thread programs over a memory of layer, optimizer and engine objects (M_Threads.v), interleaved by the semantics of M_Par.v | follow the path one thread takes when left alone and show that it touches only its own cells (L_Path.v), then schedule independence; races by reaching the two writes |
| C127 | relation `shifted` between two image batches (SpecShift.v) | one lemma per kind of layer from the row-wise normal forms (L_Batch.v), induction over the layers |
| C128 | `as_dense` lists the kernels as columns (SpecShift.v) | normal forms of both layers; the terms of the two sums agree one by one |
| C129 | relation `renumbering` between two lists of layers, one permutation per interface (SpecRenum.v) | sums are invariant under permutations (over R); one lemma per layer, loss and optimizer, induction over layers, samples and epochs |
| C130 | two networks sharing all layers but the first, an injection of the features | simulation: the parameters and the optimizer's memory of the small network sit inside those of the large one at every step (`L_Embed`, generic in the first layers); sums over the additional columns vanish |
| C131 | two networks that differ in the units between the first two dense layers | the same simulation as C130, with places whose gradients and optimizer memory are zero and so keep their values; ReLU's derivative is zero at inputs that are not positive |
| C132 | SpecFuse: replaced layers, the merged weights | two groups of layers with the same output are interchangeable (any layers before and after); distributivity of sums |
| C133 | folded weights written out in SpecFuse | normal forms of both layers, algebra per output |
| C134 | rescaled layers and multiples of a tensor in SpecFuse | activations commute with positive factors; induction on the layers for the input |
| C135 | as C132, for every Scalar | the layers return the same tensor and generator state |
| C136 | networks whose layers before turn the input into a given tensor | the first maximum of a window under a monotone function |
| C137 | SpecRobust: elementwise nearness, a factor per layer, their product | per layer from its normal form; Swish and Mish by the mean value theorem; pooling by a relational fold; induction on the layers; in float32 (C137_float, P_Near) both predictions are compared with the same exact one |
| C138 | SpecCopies: selections with each row m times | gradients of a batch are averages over its rows (C109), averages do not change under equal multiplicities; induction over samples and epochs as for C116; witness with a 1x1 convolution |
| C139 | SpecSway: layers with weights within d, bounds on elements and on their change | triangle inequality: C137's step for the old weights, then a step for the weights alone on the same input; bounds on outputs from the normal forms; continuity by choosing d from the last layer back to the first |
| C140 | SpecMono: element-wise order on tensors, layers without negative weights, constructed layers | each layer's normal form is monotone (sums with weights not negative, maxima, rising functions), induction over the stack; new weights are clamped to [0, 1] (C105); closed forms for the falling cases; float32: every rounded operation is monotone, finiteness of intermediate results from C122's steps |
| C141 | SpecFreeze: optimizers with own rate 0 | every write to a weight writes the value read before (invariant of the element loops), the optimizer keeps its rate, induction over tensors, layers, samples and epochs; a witness for the override |
| C142 | SpecLevel: multiples of a tensor, stacks without biases (a flag carries that no value is negative, for pooling), the same with constructed layers | each layer's normal form commutes with a factor, induction over the stack; Softmax keeps the order of a row; new biases are 0 (C105) |
| C143 | SpecIdle: layers without negative weights, the network without its ReLU layers, linear layers, mixtures of tensors | each layer keeps values that are not negative and ReLU leaves them alone, induction over the stack; each linear layer carries a mixture through, induction; new weights are clamped and new biases 0 (C105); float32: two monotone bounds (C140) from both sides give equality |
| C144 | SpecChan: images that agree in their first channel, networks equal up to the remembered images | both passes of the convolution read [b;0;i;j] only, so each step keeps the relation; induction over samples and epochs, all failures included |
| C145 | no new vocabulary: weights and biases before and after train are compared at every index | every backward pass gives gradient 0 there (conv_backward_ok), the optimizers' averages at these places stay 0, so each update subtracts 0; induction over samples and epochs by the embedding lemma of C130 with the identity; float32: subtracting a finite rate times +0 keeps every finite value (L_KernF, in any arithmetic with this law) |
| C146 | SpecDeep: first_kernel (agreement in kernel 0, channel 0 and bias 0), by_channel (layers that act on each channel alone) | the two outputs of the earlier convolution agree in channel 0; pooling, dropout (the same draws, as they depend on the sizes alone) and element-wise activations keep this; the later convolution reads channel 0 alone; induction over the layers between |
| C147 | SpecSettings: networks equal up to the settings of their convolutions | a simulation: both passes and the update of a convolution give the same result and keep the relation; induction over layers, samples and epochs |

None of the listed properties is impossible to express in a model.

## 4. Trusted base

* Coq 8.16.1's kernel (`coqc`, including its `vm_compute`).
* Axioms: only those printed by `Print Assumptions`. Structural theorems: none.
  Theorems over `R`: the standard library's `ClassicalDedekindReals.sig_forall_dec`,
  `ClassicalDedekindReals.sig_not_dec`,
  `FunctionalExtensionality.functional_extensionality_dep` and, through limits,
  `Classical_Prop.classic`. This list is checked against the build output.
* The hand translation from C++ to Gallina (each definition cites its lines). As evidence for it, `Conform.v`
  evaluates 90 of the repository's 105 unit tests on the model in binary32. The C++ tests themselves were read, not
  run. 89 give the values the test asserts; some use fixed instead of random numbers or smaller inputs, as noted there.
  The remaining one, `BatchNormalizationLayerTest.BackwardPass`, is undefined behaviour in the model (C52). The 15 left
  out are listed in the file.

## 5. Not modelled

* `Debugging/Logger.hpp` output, GPU tensors, CMake, what the examples print, `saveModel` and
  `loadModel` (declared but not defined in the library).
* Text of exception messages; how a stream writes one element (a parameter of C91).
* Allocation failure, except in C26-C28.

## 6. The log of wrong programs

`seeded/LOG.jsonl` has one row per edit of the model. The field `basis` says how its `theorems_failed` was found.

* `full rebuild`: everything was rebuilt with the edit. Each lemma that no longer compiled was admitted so that the build
  could go on, and the theorems listed are those that failed or that `Print Assumptions` showed to rest on an admitted lemma.
* `inferred from the first failing lemma` (about two thirds of the rows, most of them edits generated by a script): the build
  was stopped at the first lemma that no longer compiled, named in `first_failing_lemma`. The theorems listed, at most twelve,
  are those whose proofs use that lemma in the unedited development; `further_theorems_failed` counts the others. Where the
  edit came from a script, `claim` lists at most eight of the properties these theorems belong to, and no one wrote down
  which of them the edit makes false.
* `counterexample evaluated in the edited model` (rows d0001 to d0006): the edited model was run on an instance of the named
  theorem and gave values that contradict it, quoted in `note`. Here the statement itself is false of the edited program.

In the first two cases a listed theorem is one whose proof broke. This does not show that its statement became false: a lemma can be
stronger than what the theorem needs from it. Only a row with no failing theorem was examined one by one. It led either to a
tightened theorem or to a note on why the edit makes no claim false. Some edits that did not type-check have no row.

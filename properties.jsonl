{"id": "C01", "title": "Matrix product is the textbook product, in a fixed summation order", "statement": "For matrices A (n x k) and B (k x m), A*B is n x m and its entry (i,j) is 0 + A(i,0)B(0,j) + ... + A(i,k-1)B(k-1,j), added in ascending index order with the element type's own + and *; no element outside A, B or the result is touched and a dimension mismatch never yields a value.", "quantifier": "all shapes n,k,m >= 0, all element values of any scalar type (so also IEEE floats), any previous content of fresh memory", "why_tests_cant": "tests multiply a handful of small literal matrices; the claim is about every shape and every float, including the order of rounding steps", "anchors": ["src/Matrix.h:Matrix::operator*=", "src/Matrix.h:Matrix::operator*", "src/Matrix.h:Matrix::resize"]}
{"id": "C02", "title": "In-place product agrees with the product for every right operand", "statement": "After m *= b, m holds the value m*b would have had, for every b the type checker accepts - including b being m itself or sharing storage with m.", "quantifier": "all pairs of matrices, aliased or not", "why_tests_cant": "aliasing between operands is not something the example based tests enumerate", "anchors": ["src/Matrix.h:Matrix::operator*=", "src/Matrix.h:Matrix::setZero"]}
{"id": "C03", "title": "Copies are deep, views are exact windows", "statement": "A matrix obtained by copy construction is unaffected by any later write to the original and vice versa; a view (row, viewRow, createView, topRows) denotes exactly the designated cells: a write through the view changes precisely those cells of the owner, assigning an equally sized matrix to a view writes through, assigning a differently sized one detaches the view and leaves the owner unchanged.", "quantifier": "all heaps, all owners and views, all write/assign/resize histories", "why_tests_cant": "depends on every aliasing pattern and history", "anchors": ["src/Matrix.h:Matrix(const Matrix&)", "src/Matrix.h:operator=", "src/Matrix.h:resize", "src/Matrix.h:row", "src/Matrix.cpp:viewRow", "src/Matrix.cpp:createView", "src/Matrix.cpp:decimate"]}
{"id": "C04", "title": "Owning matrices never leak, double free or touch freed memory", "statement": "For any program that creates, copies, assigns, resizes, fills and destroys matrices (in any order and number) and uses no view after its owner reallocated, every access hits live memory, no block is freed twice, and once all matrices are destroyed the heap is empty again.", "quantifier": "all operation sequences of any length", "why_tests_cant": "a memory-safety claim over all histories", "anchors": ["src/Matrix.h:Matrix constructors", "src/Matrix.h:~Matrix", "src/Matrix.h:assign", "src/Matrix.h:operator=", "src/Matrix.h:resize"]}
{"id": "C05", "title": "argmax picks the first maximum", "statement": "argmax of a non-empty row returns an in-range index whose value is not exceeded by any other and is strictly greater than every earlier one; rowsArgmax does so for each row. With NaNs present the result is still in range.", "quantifier": "all non-empty rows of any length, every totally ordered scalar; every IEEE row for the range part", "why_tests_cant": "needs all inputs, ties and NaN placements", "anchors": ["src/Matrix.cpp:argmax", "src/Matrix.cpp:rowsArgmax"]}
{"id": "C06", "title": "Row-wise and column-wise reductions compute what their name says", "statement": "rowWiseSum, rowWiseMean, rowWiseSumSq, colWiseSum, colWiseMean, colWiseSumSq, colWiseMin, colWiseMax read only cells of the operand, return vectors of the right shape and equal the ordered fold of the respective row or column.", "quantifier": "all shapes (non-empty where a min/max/mean needs it), all element values", "why_tests_cant": "all shapes and values", "anchors": ["src/Matrix.cpp:rowWiseSum", "src/Matrix.cpp:rowWiseMean", "src/Matrix.cpp:rowWiseSumSq", "src/Matrix.cpp:colWiseSum", "src/Matrix.cpp:colWiseMean", "src/Matrix.cpp:colWiseSumSq", "src/Matrix.cpp:colWiseMin", "src/Matrix.cpp:colWiseMax"]}
{"id": "C07", "title": "Row broadcasts touch every cell with the right element", "statement": "rowWiseAdd(m,v) replaces m(i,j) by m(i,j)+v(j) for every 1-row v with as many columns as m; rowWiseMult(m,v) and rowWiseDivide(m,v) replace m(i,j) by m(i,j)*v(i) and m(i,j)/v(i) for every 1-column v with as many rows as m; nothing else changes.", "quantifier": "all shapes and values", "why_tests_cant": "all shapes", "anchors": ["src/Matrix.cpp:rowWiseAdd", "src/Matrix.cpp:rowWiseMult", "src/Matrix.cpp:rowWiseDivide"]}
{"id": "C08", "title": "Shuffling is a permutation that keeps samples and truths paired", "statement": "randPerm returns every index below n exactly once whatever the random engine does, and applying it to the rows of samples and of truths yields the same multiset of (sample, truth) pairs: row i of both outputs comes from the same input row.", "quantifier": "all n, all random engine outputs, all sample/truth matrices", "why_tests_cant": "depends on every random outcome", "anchors": ["src/Matrix.cpp:randPerm", "src/Matrix.cpp:applyRowPermutation", "src/NetTrain.cpp:fit"]}
{"id": "C09", "title": "Text files written by toFile are read back by fromFile", "statement": "fromFile applied to the file toFile wrote for a matrix returns a matrix of the same shape with the same (printed) values.", "quantifier": "all matrices with at least one row and column", "why_tests_cant": "round-trip over all shapes; involves reading an indeterminate value, which tests cannot see", "anchors": ["src/Matrix.cpp:toFile", "src/Matrix.cpp:fromFile"]}
{"id": "C10", "title": "fromString returns one matrix row per text line", "statement": "Parsing a rectangular text of r lines with c numbers each gives an r x c matrix with the numbers in reading order; text that is not rectangular never causes a write outside the result.", "quantifier": "all r, c and all numbers; all ragged texts", "why_tests_cant": "all shapes; out-of-bounds writes are invisible to value tests", "anchors": ["src/Matrix.cpp:fromString", "src/Matrix.cpp:toString"]}
{"id": "C11", "title": "reverseData reverses", "statement": "reverseData leaves a buffer of n values in reversed order and touches nothing else.", "quantifier": "all n >= 0, all contents", "why_tests_cant": "all lengths", "anchors": ["src/Matrix.cpp:reverseData"]}
{"id": "C12", "title": "Element-wise and structural helpers are exact", "statement": "transpose is an involution swapping indices, (AB)^T = B^T A^T, decimate keeps rows 0,k,2k,..., colExtract keeps the requested columns, clamp keeps every element inside [min,max] and leaves inside values alone, asDiagonal/diagonal/trace agree.", "quantifier": "all shapes and values", "why_tests_cant": "all shapes", "anchors": ["src/Matrix.h:transpose", "src/Matrix.h:asDiagonal", "src/Matrix.h:diagonal", "src/Matrix.h:trace", "src/Matrix.cpp:decimate", "src/Matrix.cpp:colExtract", "src/Matrix.cpp:clamp"]}
{"id": "C13", "title": "Per-channel helpers add and average per channel", "statement": "channelWiseAdd adds bias(c) to every pixel of channel c of every sample and to nothing else; channelWiseMean returns for every channel the mean over all samples and pixels of that channel.", "quantifier": "all sample counts, plane sizes, channel counts and values", "why_tests_cant": "all shapes", "anchors": ["src/Matrix.cpp:channelWiseAdd", "src/Matrix.cpp:channelWiseMean", "src/LayerChannelBias.cpp"]}
{"id": "C14", "title": "Quick Bernoulli draws are 0/1 with the documented bias", "statement": "setQuickBernoulli(m,p) writes only 0 and 1, one engine draw per element, and among the 65536 equally likely 16-bit draws exactly floor(65536 p) give 1 for 0<=p<=1.", "quantifier": "all matrices, all p in [0,1], all engine outputs", "why_tests_cant": "statistical tests only sample it", "anchors": ["src/Matrix.cpp:setQuickBernoulli"]}
{"id": "C15", "title": "A prediction does not depend on the rest of the batch", "statement": "For a network of deterministic layers in inference mode, predicting a batch gives, row by row, exactly what predicting each row alone gives; the number of output rows equals the number of input rows.", "quantifier": "all layer stacks of those layers, all batch sizes, all inputs, any scalar arithmetic (bit exact)", "why_tests_cant": "all networks and batches", "anchors": ["src/Net.cpp:predict", "src/Layer*.cpp:forward"]}
{"id": "C16", "title": "Predicted classes are the arg max (or rounded) outputs", "statement": "predict_classes returns one in-range class per sample: the first maximal output column for several outputs, the rounded output for one output.", "quantifier": "all networks, all inputs", "why_tests_cant": "all inputs", "anchors": ["src/Net.cpp:predict_classes"]}
{"id": "C17", "title": "Assigning a network gives an independent equal network", "statement": "After a = b, a predicts exactly what b predicts, later changes to one do not affect the other, b is unchanged; this includes a = a.", "quantifier": "all networks and later histories", "why_tests_cant": "aliasing and histories", "anchors": ["src/Net.cpp:operator=", "src/Net.cpp:clear", "src/Layer*.cpp:clone"]}
{"id": "C18", "title": "Each epoch uses every training sample exactly once", "statement": "The mini-batches of an epoch are consecutive, non-empty, at most the batch size long, and concatenated give exactly the (shuffled) training set with matching truths.", "quantifier": "all sample counts, all batch sizes (0 and larger than the set included), all shuffles", "why_tests_cant": "all sizes and shuffles", "anchors": ["src/NetTrain.cpp:train_one_epoch", "src/NetTrain.cpp:fit"]}
{"id": "C19", "title": "fit records one history entry and one callback per epoch", "statement": "fit with e epochs calls the epoch callback exactly e times and appends e train-loss entries, e train-accuracy entries iff classifying, e validation-loss entries iff validation data was given, and e validation-accuracy entries iff both.", "quantifier": "all epoch counts, settings, networks and data", "why_tests_cant": "all configurations and epoch counts", "anchors": ["src/NetTrain.cpp:fit"]}
{"id": "C20", "title": "Keep-best returns the best evaluated model", "statement": "With keep-best on and no patience roll-back, the network left by fit is one of the snapshots taken (before training or after an epoch), its score is at least as good as that of every other epoch, and it is the earliest such.", "quantifier": "all training dynamics, all score sequences (any network and optimiser behaviour), all epoch counts", "why_tests_cant": "quantifies over every possible evolution of scores", "anchors": ["src/NetTrain.cpp:fit"]}
{"id": "C21", "title": "Zero epochs leave the weights alone", "statement": "fit with zero epochs leaves every layer parameter of the network unchanged, with keep-best on or off.", "quantifier": "all networks, data, settings", "why_tests_cant": "all networks", "anchors": ["src/NetTrain.cpp:fit"]}
{"id": "C22", "title": "Patience roll-back is memory safe", "statement": "When training stagnates for more epochs than the configured patience, fit restores the best model and continues training that model: every weight and gradient the optimiser touches afterwards belongs to a live layer of the network.", "quantifier": "all epoch counts, patience values and score histories", "why_tests_cant": "a use-after-free need not crash in a test", "anchors": ["src/NetTrain.cpp:fit", "src/NetTrain.cpp:train_batch", "src/NetTrain.cpp:set_net", "src/Net.cpp:operator="]}
{"id": "C23", "title": "Patience never destroys the network", "statement": "After fit the network still has the layers the user added, whatever patience and keep-best are set to.", "quantifier": "all settings and score histories", "why_tests_cant": "rare setting combinations and histories", "anchors": ["src/NetTrain.cpp:fit", "src/Net.cpp:operator="]}
{"id": "C24", "title": "Learning-rate halving follows the stagnation count", "statement": "With patience p >= 0 and a positive initial rate, the learning rate is divided by two exactly after every p+1 consecutive non-improving epochs, and at no other time: after k roll-backs it is the initial rate / 2^k, and it never increases. An epoch improves when its score (validation if there is one, else training; accuracy for a classification, else loss) beats the score before training and those of all earlier epochs. In single precision the rate is exactly the initial rate / 2^k as long as that is at least 2^-126, never increases after that, is 0 from 278 roll-backs on, and a score that is not a number counts as no improvement. This needs keep-best, a classification, or a run that still has layers at its end.", "quantifier": "all score histories, networks, data, shuffles, epoch counts and patiences", "why_tests_cant": "all histories", "anchors": ["src/NetTrain.cpp:fit"]}
{"id": "C25", "title": "Every trainable parameter of the network is handed to the optimiser", "statement": "When fit starts, each weight and each bias of each layer that the layer updates by gradient is registered with exactly one optimiser, paired with its own gradient.", "quantifier": "all networks over the layer types", "why_tests_cant": "all layer stacks", "anchors": ["src/NetTrain.cpp:collect_all_weights_biases", "src/NetTrain.cpp:set_net", "src/LayerBias.cpp", "src/LayerGain.cpp", "src/LayerPRelu.cpp"]}
{"id": "C26", "title": "Reboost restarts the optimisers every N epochs", "statement": "With reboost period N > 0 the optimisers are re-initialised exactly at every N-th epoch.", "quantifier": "all N and epoch counts", "why_tests_cant": "all periods", "anchors": ["src/NetTrain.cpp:fit"]}
{"id": "C27", "title": "Reported accuracy does not depend on the evaluation batch size", "statement": "compute_loss_accuracy returns 100 * (number of correctly classified samples) / (number of samples), between 0 and 100, for every validation batch size >= 1; with batch size one or the whole set the same loss is also expected.", "quantifier": "all networks, data sets and validation batch sizes", "why_tests_cant": "all batch sizes", "anchors": ["src/NetTrain.cpp:compute_loss_accuracy"]}
{"id": "C28", "title": "Class weights balance the classes", "statement": "With class balancing the weight of a class times its number of samples is the same for all classes and the weighted sample count equals the plain count; every weight is finite.", "quantifier": "all label vectors", "why_tests_cant": "all label distributions", "anchors": ["src/NetTrain.cpp:update_class_weight", "src/Loss.cpp:set_class_balancing"]}
{"id": "C29", "title": "Assigning a trainer copies every hyper-parameter", "statement": "After t2 = t1 every getter of t2 returns what the getter of t1 returns.", "quantifier": "all trainer states", "why_tests_cant": "all states", "anchors": ["src/NetTrain.cpp:operator="]}
{"id": "C30", "title": "Optimisers act coordinate by coordinate and keep shapes", "statement": "Every optimiser step leaves the weight matrix shape unchanged and the new value of each coordinate depends only on that coordinate's weight, gradient and state history.", "quantifier": "all 15 optimisers, all shapes, all gradient sequences of any length", "why_tests_cant": "all shapes and sequences", "anchors": ["src/Optimizer.cpp"]}
{"id": "C31", "title": "Momentum methods have their closed forms", "statement": "After n steps from rest, SGD weights are w0 - lr*sum g_k, Momentum weights are w0 minus the geometrically discounted sums of the past gradients, and Nesterov/MomentumNg follow their published recursions; None never moves a weight and Step moves each weight by exactly lr against the gradient sign.", "quantifier": "all gradient sequences of any length, all learning rates and momenta", "why_tests_cant": "all lengths", "anchors": ["src/Optimizer.cpp:OptimizerSGD", "src/Optimizer.cpp:OptimizerMomentum", "src/Optimizer.cpp:OptimizerNesterov", "src/Optimizer.cpp:OptimizerStep", "src/Optimizer.cpp:OptimizerNone"]}
{"id": "C32", "title": "RPROP step sizes stay in their interval", "statement": "For RPROP- and iRPROP- every step size stays within [1e-6, 50] at all times and no coordinate moves by more than 50 in one step.", "quantifier": "all gradient sequences of any length", "why_tests_cant": "an invariant over all histories", "anchors": ["src/Optimizer.cpp:OptimizerRPROPm", "src/Optimizer.cpp:OptimizeriRPROPm"]}
{"id": "C33", "title": "Adam-type optimisers keep their bias correction and bounds", "statement": "Adam's bias-corrected moments reproduce a constant gradient exactly at every step, the second-moment state is never negative, the first step has size at most the learning rate, and Amsgrad's and Adagrad's denominators never decrease.", "quantifier": "all gradient sequences, all hyper-parameters with 0<=beta<1", "why_tests_cant": "all sequences", "anchors": ["src/Optimizer.cpp:OptimizerAdam", "src/Optimizer.cpp:OptimizerAdamW", "src/Optimizer.cpp:OptimizerAmsgrad", "src/Optimizer.cpp:OptimizerNadam", "src/Optimizer.cpp:OptimizerAdamax", "src/Optimizer.cpp:OptimizerAdagrad", "src/Optimizer.cpp:OptimizerRMSProp"]}
{"id": "C34", "title": "Cloning keeps the algorithm", "statement": "A clone of an optimiser has the same name and, fed the same gradients from a fresh state, produces the same weights as the original.", "quantifier": "all 15 optimisers, all gradient sequences", "why_tests_cant": "all sequences", "anchors": ["src/Optimizer.cpp:clone"]}
{"id": "C35", "title": "The registries are complete and consistent", "statement": "Every name listed as available (activations, losses, optimisers, regularisers) is accepted by the corresponding factory and the created object reports that same name; unknown names give a null result.", "quantifier": "all listed names; all strings for the unknown case", "why_tests_cant": "all strings", "anchors": ["src/Activations.cpp:get_activation", "src/Loss.cpp:create_loss", "src/Optimizer.cpp:create_optimizer", "src/Regularizer.cpp:create_regularizer"]}
{"id": "C36", "title": "Clipping regularisers bound the gradient", "statement": "After GradientClip every gradient entry is within [-p,p] and entries already inside are unchanged; after GradientNormClip the Euclidean norm is at most p and the direction is unchanged; after GradientClipTanh every entry is strictly inside (-p,p) with its sign kept.", "quantifier": "all weights and gradients, all p > 0", "why_tests_cant": "all values", "anchors": ["src/Regularizer.cpp:RegularizerGradientClip", "src/Regularizer.cpp:RegularizerGradientNormClip", "src/Regularizer.cpp:RegularizerGradientClipTanh"]}
{"id": "C37", "title": "Penalty regularisers add the gradient of their penalty", "statement": "L2 adds the derivative of p*w^2 up to the documented factor, L1 adds p*sign(w), L1L2 adds both, leaving weights alone and shapes unchanged.", "quantifier": "all weights, gradients and p", "why_tests_cant": "all values", "anchors": ["src/Regularizer.cpp:RegularizerL1", "src/Regularizer.cpp:RegularizerL2", "src/Regularizer.cpp:RegularizerL1L2"]}
{"id": "C38", "title": "Loss gradients are the derivatives of the losses", "statement": "For every loss function, compute_gradient returns, entry by entry, the partial derivative of the per-sample loss that compute reports (up to one positive constant common to all entries).", "quantifier": "all shapes, all predictions and targets where the loss is differentiable", "why_tests_cant": "derivative claims over the reals", "anchors": ["src/Loss.cpp"]}
{"id": "C39", "title": "Losses are non-negative and vanish at the target", "statement": "Each regression loss is non-negative for all inputs and zero exactly when prediction equals target; each cross-entropy is non-negative on probabilities.", "quantifier": "all shapes and values", "why_tests_cant": "all values", "anchors": ["src/Loss.cpp:compute"]}
{"id": "C40", "title": "Class balancing weighs each sample by its own class", "statement": "With class balancing on, the contribution of each sample to loss and gradient is multiplied by the weight of that sample's class.", "quantifier": "all label vectors and weights", "why_tests_cant": "all labels", "anchors": ["src/Loss.cpp:balance_with_weight"]}
{"id": "C41", "title": "Dense and Dot layers compute affine maps and their exact gradients", "statement": "Dense maps X to XW+b (Dot to XW); backpropagation returns G W^T as input gradient, and as parameter gradients exactly 1/n times the derivative of <G, output> with respect to each weight and bias.", "quantifier": "all shapes, all parameters, inputs and output gradients", "why_tests_cant": "all shapes and values", "anchors": ["src/LayerDense.cpp", "src/LayerDot.cpp"]}
{"id": "C42", "title": "Bias, gain and affine layers back-propagate their exact gradients", "statement": "Bias, Gain, Affine, GlobalBias, GlobalGain, GlobalAffine and ChannelBias return the derivative of <G, output> with respect to the input and 1/n times the derivative with respect to each parameter.", "quantifier": "all shapes and values", "why_tests_cant": "derivative claims over all shapes", "anchors": ["src/LayerBias.cpp", "src/LayerGain.cpp", "src/LayerAffine.cpp", "src/LayerGlobalBias.cpp", "src/LayerGlobalGain.cpp", "src/LayerGlobalAffine.cpp", "src/LayerChannelBias.cpp"]}
{"id": "C43", "title": "Parametric rectifiers back-propagate their exact gradients", "statement": "PRelu, PELU, TERELU, CRelu and RRelu return the derivative of <G, output> with respect to input and parameters away from the kinks.", "quantifier": "all shapes, inputs off the kinks, parameters", "why_tests_cant": "derivative claims", "anchors": ["src/LayerPRelu.cpp", "src/LayerPELU.cpp", "src/LayerTERELU.cpp", "src/LayerCRelu.cpp", "src/LayerRRelu.cpp"]}
{"id": "C44", "title": "Softmax and Softmin outputs are probability rows", "statement": "Every output row is positive, sums to one, preserves (Softmin: reverses) the order of the inputs and is unchanged when a constant is added to the row.", "quantifier": "all shapes with at least one column, all real inputs", "why_tests_cant": "all inputs", "anchors": ["src/LayerSoftmax.cpp", "src/LayerSoftmin.cpp"]}
{"id": "C45", "title": "Softmax back-propagation is the gradient of softmax", "statement": "LayerSoftmax::backpropagation returns the derivative of <G, softmax(X)> with respect to X; combined with categorical cross-entropy it yields p - t.", "quantifier": "all inputs and output gradients", "why_tests_cant": "derivative claim", "anchors": ["src/LayerSoftmax.cpp:backpropagation", "src/Loss.cpp:LossCategoricalCrossEntropy"]}
{"id": "C46", "title": "Dropout is the identity at inference and a scaled mask in training", "statement": "In inference Dropout, GaussianDropout, GaussianNoise and UniformNoise return the input unchanged; in training with 0 < rate < 1 each Dropout output is 0 or x/(1-rate) and the backward pass uses the very mask of the forward pass.", "quantifier": "all inputs, rates, random outcomes, batch sizes", "why_tests_cant": "all random outcomes", "anchors": ["src/LayerDropout.cpp", "src/LayerGaussianDropout.cpp", "src/LayerGaussianNoise.cpp", "src/LayerUniformNoise.cpp"]}
{"id": "C47", "title": "Max pooling returns window maxima and routes gradients to them", "statement": "MaxPool2D outputs the maximum of each window; its backward pass sends each output gradient to the position that held the maximum of that sample and channel and zero elsewhere, and never writes outside the input planes.", "quantifier": "all plane sizes, factors, channel and sample counts, all inputs", "why_tests_cant": "all shapes; out-of-bounds writes", "anchors": ["src/LayerMaxPool2D.cpp"]}
{"id": "C48", "title": "Global max pooling returns plane maxima and routes gradients to them", "statement": "GlobalMaxPool2D outputs the maximum of each plane and routes each gradient to its position only.", "quantifier": "all shapes and inputs", "why_tests_cant": "all shapes", "anchors": ["src/LayerGlobalMaxPool2D.cpp"]}
{"id": "C49", "title": "Average pooling averages and back-propagates the adjoint", "statement": "AveragePooling2D and GlobalAveragePooling2D output window means, and their backward pass is the exact transpose of that linear map.", "quantifier": "all shapes and inputs", "why_tests_cant": "all shapes", "anchors": ["src/LayerAveragePooling2D.cpp", "src/LayerGlobalAveragePooling2D.cpp"]}
{"id": "C50", "title": "Zero padding embeds the image and its backward pass crops it", "statement": "ZeroPadding2D places each plane in the centre of a larger plane of zeros, backpropagation returns exactly the inner part, so the backward pass of the forward pass is the identity.", "quantifier": "all shapes, borders, channels, samples", "why_tests_cant": "all shapes", "anchors": ["src/LayerZeroPadding2D.cpp"]}
{"id": "C51", "title": "Fast and slow convolution paths agree", "statement": "im2col and im2col_LUT give the same matrix, col2im and col2im_LUT the same image, bit for bit.", "quantifier": "all image sizes, kernels, strides, channels, sample counts and values", "why_tests_cant": "the tests compare one prime-sized shape with stride 1", "anchors": ["src/LayerConvolution2D.cpp:im2col", "src/LayerConvolution2D.cpp:im2col_LUT", "src/LayerConvolution2D.cpp:col2im", "src/LayerConvolution2D.cpp:col2im_LUT"]}
{"id": "C52", "title": "Convolution computes the cross-correlation of its definition", "statement": "For every accepted shape the output at (sample, out channel, r, c) is the sum over input channels and kernel cells of weight times input at (r*stride+kr, c*stride+kc), and no access leaves the input.", "quantifier": "all image sizes, kernels, strides, channels, samples, values", "why_tests_cant": "all shapes", "anchors": ["src/LayerConvolution2D.cpp:forward", "src/LayerConvolution2D.cpp:reshape_to_out"]}
{"id": "C53", "title": "Convolution backward pass is the gradient", "statement": "The weight gradient and the input gradient returned by backpropagation are the derivatives of <G, output> (up to one constant factor for each).", "quantifier": "all shapes and values", "why_tests_cant": "derivative claim over all shapes", "anchors": ["src/LayerConvolution2D.cpp:backpropagation"]}
{"id": "C54", "title": "Time-distributed layers treat every frame alike", "statement": "TimeDistributedDot/Dense/Bias apply the same map to each frame of each sample; their gradients are those of that map.", "quantifier": "all frame counts and sizes, samples, values", "why_tests_cant": "all shapes", "anchors": ["src/LayerTimeDistributedBias.cpp", "src/LayerTimeDistributedDot.cpp", "src/LayerTimeDistributedDense.cpp"]}
{"id": "C55", "title": "Recurrent layers consume the whole sequence and keep their weights", "statement": "A recurrent layer's output depends on every frame of the sequence, and calling forward does not alter its weights.", "quantifier": "all sequence lengths, inputs, modes", "why_tests_cant": "all lengths and modes", "anchors": ["src/LayerRNN.cpp", "src/LayerSimpleRNN.cpp", "src/LayerSimplestRNN.cpp"]}
{"id": "C56", "title": "Random flip augments in training only", "statement": "RandomFlip returns the input unchanged at inference; in training each row of each plane is either unchanged or mirrored.", "quantifier": "all shapes, inputs, random outcomes", "why_tests_cant": "all random outcomes", "anchors": ["src/LayerRandomFlip.cpp", "src/Matrix.cpp:reverseData"]}
{"id": "C57", "title": "Gated activations multiply the two halves", "statement": "GatedActivation maps a row (a|b) to act1(a)*act2(b) and its backward pass is the derivative.", "quantifier": "all even widths, inputs, activations", "why_tests_cant": "all inputs", "anchors": ["src/LayerGatedActivation.cpp"]}
{"id": "C58", "title": "Activation derivatives are correct", "statement": "For each listed activation, derivation(x) is the derivative of apply at x wherever apply is differentiable.", "quantifier": "all real x, all 64 activations", "why_tests_cant": "a claim about limits at every real", "anchors": ["src/Activations.cpp"]}
{"id": "C59", "title": "Activation ranges are as documented", "statement": "Sigmoid-like activations stay in (0,1), tanh-like ones in (-1,1), rectifiers are non-negative or bounded below, clipped ones stay in their interval; monotone ones are monotone.", "quantifier": "all real x", "why_tests_cant": "all reals", "anchors": ["src/Activations.cpp"]}
{"id": "C60", "title": "The MNIST reader decodes every well-formed IDX file", "statement": "Encoding any byte image set in the IDX format and reading it yields exactly those images as rows, and labels likewise; files with a wrong magic number or that are too short are rejected.", "quantifier": "all image counts, sizes and bytes; all truncations", "why_tests_cant": "all byte strings", "anchors": ["src/MNISTReader.cpp:read_Matrix", "src/MNISTReader.cpp:swap_int"]}
{"id": "C61", "title": "The CIFAR10 reader decodes records and reports its data", "statement": "Loading well-formed batches gives for every record its label and its 3072 pixels in order, has_data() is true afterwards, and truncated files are rejected.", "quantifier": "all record contents; all truncations", "why_tests_cant": "all byte strings", "anchors": ["src/CIFAR10Reader.cpp"]}
{"id": "C62", "title": "Min-max scaling maps the fitted data into [0,1]", "statement": "After fit on a data set, transform maps every entry of that set into [0,1], each non-constant column's minimum to 0 and maximum to 1, and preserves order in each column.", "quantifier": "all data sets with at least one row", "why_tests_cant": "all data", "anchors": ["src/MinMaxScaler.cpp"]}
{"id": "C63", "title": "Standard scaling centres and normalises the fitted data", "statement": "After fit, transform gives each non-constant column mean 0 and variance 1; results are finite for finite data.", "quantifier": "all data sets", "why_tests_cant": "all data, float cancellation", "anchors": ["src/StandardScaler.cpp"]}
{"id": "C64", "title": "The confusion matrix counts every sample once", "statement": "Metrics::compute counts for each (true,predicted) pair of in-range labels the number of such samples; accuracy is 100 * correct / total; the rows of the normalised matrix (in percent) of the classes that occur sum to 100; the balanced accuracy lies in [0,100].", "quantifier": "all label vectors", "why_tests_cant": "all label vectors incl. absent classes", "anchors": ["src/Metrics.cpp"]}
{"id": "C65", "title": "K-means predicts the class of the nearest reference", "statement": "KMeans::predict_classes returns for each sample the class of the first reference vector at minimal distance.", "quantifier": "all reference sets and samples, any loss as distance", "why_tests_cant": "all inputs", "anchors": ["src/KMeans.cpp:predict_classes", "src/KMeans.cpp:compute_dist"]}
{"id": "C66", "title": "K-means training keeps the best model and never relabels references", "statement": "During fit reference classes never change after initialisation, each reference is the mean of samples of its own class whenever updated, and with keep-best the final validation accuracy is at least that of every epoch.", "quantifier": "all data, batch sizes, epochs, random outcomes", "why_tests_cant": "all histories", "anchors": ["src/KMeansTrain.cpp:fit"]}
{"id": "C67", "title": "The JSON writer produces well-formed JSON", "statement": "Any balanced sequence of section and add calls yields text that is one JSON object whose members are the added values in order, for all keys and strings.", "quantifier": "all call sequences, keys, strings and numbers", "why_tests_cant": "all call sequences and strings", "anchors": ["src/JsonFile.cpp", "src/NetUtil.cpp:save"]}
{"id": "C68", "title": "The meta-optimiser reports ever better solutions", "statement": "Under any thread schedule the reported accuracies are strictly increasing and the final best is the maximum over all epochs of all threads.", "quantifier": "all schedules, thread counts and accuracy sequences", "why_tests_cant": "schedules cannot be enumerated by tests", "anchors": ["src/MetaOptimizer.cpp:new_epoch", "src/MetaOptimizer.cpp:run_thread"]}
{"id": "C69", "title": "Meta-optimiser variations reach the trained copy", "statement": "An optimiser variation drawn for a thread is used by the training that thread runs.", "quantifier": "all schedules and draws", "why_tests_cant": "schedules", "anchors": ["src/MetaOptimizer.cpp:run_thread", "src/MetaOptimizer.cpp:apply_variations"]}
{"id": "C70", "title": "Whole-network back-propagation computes the gradient of the loss", "statement": "For every stack of differentiable layers, after one training batch the gradient stored for each parameter is 1/n times the partial derivative of the batch objective with respect to that parameter.", "quantifier": "all stacks of any depth, all shapes and parameters", "why_tests_cant": "chain rule over unbounded depth", "anchors": ["src/NetTrain.cpp:train_batch", "src/Layer*.cpp:backpropagation"]}
{"id": "C71", "title": "A saved network file lists the settings and every layer", "statement": "NetUtil::save writes one JSON object: engine, problem kind, the training settings, the number of layers, then for each layer in order its type, its parameter arrays in storage order and its constructor arguments.", "quantifier": "all networks, parameters and settings", "why_tests_cant": "all layer stacks and values", "anchors": ["src/NetUtil.cpp:save", "src/JsonFile.cpp"]}
{"id": "C72", "title": "A saved network file determines the network", "statement": "Two networks with trainers that save to the same text have the same problem kind, the same training settings and, layer by layer, the same class, constructor arguments and parameters.", "quantifier": "all pairs of networks", "why_tests_cant": "quantifies over pairs of networks", "anchors": ["src/NetUtil.cpp:save"]}
{"id": "C73", "title": "Matrix operations check the shapes and indices they are given", "statement": "With assertions enabled, element access, element-wise operators, products, row views, reshaping, broadcasts, argmax and row permutation succeed exactly when shapes and indices fit and stop at an assertion otherwise; none reaches outside the buffer.", "quantifier": "all matrices of any shapes, all indices", "why_tests_cant": "all shapes and indices", "anchors": ["src/Matrix.h:operator()", "src/Matrix.h:operator+=", "src/Matrix.h:operator*=", "src/Matrix.cpp:viewRow", "src/Matrix.cpp:rowWiseAdd", "src/Matrix.cpp:applyRowPermutation", "src/Matrix.cpp:copyInto"]}
{"id": "C74", "title": "Layers, losses and optimisers reject arguments of the wrong size", "statement": "With assertions enabled, a layer given a batch with the wrong number of columns, a loss given a truth of the wrong shape, an optimiser given a gradient of another shape and Net::replace given an index out of range stop at an assertion.", "quantifier": "all layer classes, losses, optimisers and shapes", "why_tests_cant": "all shapes", "anchors": ["src/LayerDense.cpp:forward", "src/LayerConvolution2D.cpp:forward", "src/LayerMaxPool2D.cpp:forward", "src/LayerAveragePooling2D.cpp:forward", "src/Loss.cpp", "src/Optimizer.cpp", "src/Net.cpp:replace"]}
{"id": "C75", "title": "A meta-optimisation leaves existing layers alone and leaks none", "statement": "MetaOptimizer::fit changes no layer object that existed before, in particular none of the reference network; the threads train disjoint sets of layers; every layer object it creates has been deleted when it returns.", "quantifier": "all networks, variations, thread counts, schedules and random draws", "why_tests_cant": "ownership across interleaved threads", "anchors": ["src/MetaOptimizer.cpp:fit", "src/MetaOptimizer.cpp:run_thread", "src/Net.cpp:operator=", "src/Net.cpp:replace"]}
{"id": "C76", "title": "A meta-optimisation leaves the user's trainer as it was", "statement": "After MetaOptimizer::fit the settings of the NetTrain given to set_train are those before the call.", "quantifier": "all settings, variations and schedules", "why_tests_cant": "all schedules and draws", "anchors": ["src/MetaOptimizer.cpp:apply_variations", "src/NetTrain.cpp:set_optimizer", "src/NetTrain.cpp:set_learningrate"]}
{"id": "C77", "title": "The threads of a meta-optimisation do not race", "statement": "In no execution of MetaOptimizer::fit are two threads about to access the same shared object (best accuracy, user's trainer, random engine), one of them writing, with nothing ordering them.", "quantifier": "all thread counts and schedules", "why_tests_cant": "races depend on the schedule", "anchors": ["src/MetaOptimizer.cpp:new_epoch", "src/MetaOptimizer.cpp:run_thread", "src/MetaOptimizer.cpp:apply_variations", "src/Matrix.cpp:randomEngine"]}
{"id": "C78", "title": "Every trained network is a variant of the reference network", "statement": "When a thread starts its training, its network has as many layers as the reference network, and layer i is a copy of layer i with the same class and parameters or was created by the factory from a variation registered for layer i.", "quantifier": "all networks, variations, schedules and draws", "why_tests_cant": "all schedules and draws", "anchors": ["src/MetaOptimizer.cpp:apply_variations", "src/LayerFactory.cpp:create"]}
{"id": "C79", "title": "The better-solution callback is optional", "statement": "MetaOptimizer::fit can be run without set_better_model_callback.", "quantifier": "all networks, settings and schedules", "why_tests_cant": "all accuracies", "anchors": ["src/MetaOptimizer.cpp:new_epoch"]}
{"id": "C80", "title": "The layer factory creates every layer class by its type name", "statement": "LayerFactory::create given the type of a layer class creates a layer of that type, with the sizes given as arguments; other names stop at an assertion.", "quantifier": "all names and arguments", "why_tests_cant": "all strings and arguments", "anchors": ["src/LayerFactory.cpp:create", "src/LayerActivation.cpp"]}
{"id": "C81", "title": "A CSV data set is found from the name of any of its files", "statement": "CsvFileReader::load, given the name of any one of the four files of a data set (train/test, data/truth), reads the training and validation samples and truths from the four files, whatever the directory is called.", "quantifier": "all file names, all file contents", "why_tests_cant": "tests use a few fixed names; the last occurrence of a word may lie in any part of a path", "anchors": ["src/CsvFileReader.cpp:load", "src/CsvFileReader.cpp:replace_last"]}
{"id": "C82", "title": "After a CSV load the flags describe the data and every sample has a truth", "statement": "After CsvFileReader::load, has_train_data (has_validation_data) holds exactly when both training (validation) matrices are non-empty and have equally many rows, and load returns has_data().", "quantifier": "all file systems, all previous states of the reader", "why_tests_cant": "depends on contents of four files at once", "anchors": ["src/CsvFileReader.cpp:load", "src/DataSource.cpp:has_data"]}
{"id": "C83", "title": "The gated linear units compute the formulas of their papers and back-propagate their gradient", "statement": "LayerBilinear, GLU, GEGLU, GTU, ReGLU, SeGLU and SwiGLU output f(x1)*g(x2) of the two halves of each row with the f and g of their papers, their backward pass returns the gradient, and a clone behaves as the original.", "quantifier": "all widths, batch sizes and inputs", "why_tests_cant": "real-valued identity over all inputs; constructors are wired by strings", "anchors": ["src/LayerGLU.cpp", "src/LayerGEGLU.cpp", "src/LayerGTU.cpp", "src/LayerReGLU.cpp", "src/LayerSeGLU.cpp", "src/LayerSwiGLU.cpp", "src/LayerBilinear.cpp"]}
{"id": "C84", "title": "Training lowers the loss when the learning rate is small enough", "statement": "If some partial derivative of the batch loss with respect to a trained parameter is not zero, then for every small enough positive learning rate the first training batch after set_net succeeds and the loss of the same batch is lower afterwards.", "quantifier": "all networks (any depth and widths), batch sizes, inputs, truths, parameters, losses and optimisers", "why_tests_cant": "a limit statement over real-valued parameters: a test observes one learning rate on one network and cannot tell a wrong gradient that happens to descend from a right one", "anchors": ["src/NetTrain.cpp:train_batch", "src/NetTrain.cpp:set_net", "src/Optimizer.cpp"]}
{"id": "C85", "title": "Constructing a layer gives parameters of the documented shape within the initialiser's bounds", "statement": "A layer constructed with valid arguments succeeds, its weights and bias have the shape its kind calls for, every cell comes from the named initialiser (zeros, ones, or a draw scaled to the bound of Glorot, He or LeCun), the gradients start as empty or zero matrices, and a fresh network and fresh metrics start empty. An unknown initialiser name is rejected.", "quantifier": "all layer kinds, sizes, initialiser names and random draws", "why_tests_cant": "the bound must hold for every draw and every size; a test sees a handful of draws of one size and cannot see that an unlisted name leaves a layer without weights", "anchors": ["src/Initializers.cpp", "src/LayerDense.cpp:init", "src/LayerConvolution2D.cpp:init", "src/Layer.cpp", "src/Net.cpp", "src/Metrics.cpp"]}
{"id": "C86", "title": "Recurrent layers back-propagate the gradient of their weights", "statement": "After a training-mode forward call on a sequence, backpropagation of a recurrent layer stores in gradient_weights the derivative of the loss with respect to the weights, up to a positive constant, and writes the derivative with respect to the input. In particular a zero output gradient gives a zero weight gradient, and every batch size is accepted.", "quantifier": "all frame sizes, sequence lengths, batch sizes, weights, inputs and output gradients", "why_tests_cant": "the stored gradient has the right shape and a plausible size, so training runs and moves the weights; only comparing with the derivative for all inputs shows it does not depend on the loss", "anchors": ["src/LayerRNN.cpp:backpropagation", "src/LayerSimplestRNN.cpp:backpropagation_frame", "src/LayerSimpleRNN.cpp:backpropagation_frame"]}
{"id": "C87", "title": "Configuring an optimiser restarts it, -1 selects the default, and a new optimiser is ready to use", "statement": "After set_params or set_learningrate an optimiser trains exactly like a new one with the same parameters, whatever it did before; the value -1 stands for the default of its class and any other value is kept; an optimiser from create_optimizer can be used at once and then takes the default parameters.", "quantifier": "all optimiser classes, all histories, parameters, weight shapes and gradient sequences; the restart clause in every arithmetic", "why_tests_cant": "a stale momentum or bias-correction product shows only for particular histories, and a wrong default still trains", "anchors": ["src/Optimizer.cpp:set_params", "src/Optimizer.cpp:set_learningrate", "src/Optimizer.cpp:init", "src/Optimizer.cpp:create_optimizer"]}
{"id": "C88", "title": "Training a network whose sizes chain runs to its end", "statement": "If the sizes given to the layer constructors chain, the initialiser and optimiser names are known and the data have the sizes of the network, then building the network, fit with any settings (batch size, epochs, keep-best, reboost, regulariser, validation data, any loss) and predict all complete without assertion failure, out-of-bounds access, null or deleted object, division by zero or invalid cast; fit leaves a network of the same number of layers and the same sizes, in inference mode, which can be trained again.", "quantifier": "all arithmetics (binary32 with infinities and NaN included), all random draws, all stacks of the 28 covered layer kinds (all activations included), all data and settings; not covered: patience roll-back, class balancing, GaussianDropout, MaxPool2D, GlobalMaxPool2D, RandomFlip, recurrent layers", "why_tests_cant": "the combinations of layers, losses, optimisers, batch sizes and row counts cannot be enumerated, and an out-of-bounds access may go unnoticed in a test", "anchors": ["src/NetTrain.cpp:fit", "src/NetTrain.cpp:train_one_epoch", "src/NetTrain.cpp:train_batch", "src/Net.cpp:predict", "src/Net.cpp:operator="]}
{"id": "C89", "title": "Single-precision results stay within a proved distance of the exact ones", "statement": "A finite cell of a single-precision matrix product differs from the exact sum of products by at most ((1+u)^(k+1)-1) times the sum of the absolute products plus k(1+u)^k 2^-150, u = 2^-24; it is finite whenever those absolute values cannot overflow. Predictions of networks of Dense, Dot and Relu layers computed in single precision are finite and within a layer-by-layer computed bound of the prediction in real arithmetic.", "quantifier": "all shapes, all binary32 inputs and weights (for predictions: those whose magnitudes cannot overflow), all depths", "why_tests_cant": "the worst rounding error over all inputs is not found by sampling", "anchors": ["src/Matrix.cpp:operator*", "src/LayerDense.cpp:forward", "src/LayerDot.cpp:forward", "src/Net.cpp:predict"]}
{"id": "C90", "title": "Training one Dense layer on the squared error is gradient descent and reaches the least squares", "statement": "A run of fit on a network of one Dense layer with MeanSquaredError, the SGD optimiser, no regulariser and one batch holding the whole data set follows gradient descent on the mean squared error: the recorded training losses are those of its iterates (divided by the number of samples) and, when the best network is not restored, the parameters left are the last iterate. With a learning rate eta such that eta * (sum of squared inputs + number of samples) is at most 2 * samples * outputs the recorded losses never increase, and this limit cannot be raised; with half that rate the loss recorded at epoch e exceeds that of any parameters q by at most |p0 - q|^2 / (eta e).", "quantifier": "all data sets, sizes, initial parameters, numbers of epochs, learning rates in the stated range; with or without validation data, classification mode, callback, reboost", "why_tests_cant": "convergence for every data set and every number of epochs is not observable from runs", "anchors": ["src/NetTrain.cpp:fit", "src/NetTrain.cpp:train_batch", "src/LayerDense.cpp:backpropagation", "src/Loss.cpp:LossMeanSquaredError", "src/Optimizer.cpp:OptimizerSGD"]}
{"id": "C91", "title": "Training and prediction do not depend on what the trainer and the buffers were used for before", "statement": "fit called with two trainers holding the same settings, data and callback gives the same network, the same heap of layers, the same recorded history, the same callback observations and the same optimiser states, whatever the trainers did before (other networks trained, work matrices of any size and content, counters, optimiser states, results). In particular a trainer that has already trained networks behaves like a new one given the same settings and data. predict does not depend on the earlier content of the output matrix. Refuted for recurrent layers: on a single frame they leave the output matrix as it was, so predictions and training show earlier contents.", "quantifier": "all arithmetics, networks whose sizes chain (no recurrent, max-pooling, flip or Gaussian-dropout layer), data sets, settings without roll-back on patience and without class balancing of a classification, random draws, earlier contents", "why_tests_cant": "the contents left by earlier runs are unbounded, and a stale cell shows only for particular sizes", "anchors": ["src/NetTrain.cpp:fit", "src/NetTrain.cpp:set_net", "src/NetTrain.cpp:train_batch", "src/Net.cpp:predict", "src/LayerRNN.cpp:forward"]}
{"id": "C92", "title": "Activation functions in single precision: which of them turn a finite input into a not-a-number", "statement": "For every finite float x, every activation function other than BipolarSigmoid, dSiLU, Eswish, Logit and SoftSteps returns a number (not a NaN), and every derivative other than those of BipolarSigmoid, dSiLU, ELiSH, Gauss, Mish, SiLU, SinC and SoftSteps returns a number. Each function of these lists returns a NaN at some finite float. For |x| <= 32 (x strictly between 0 and 1 for Logit; x zero or at least 2^-60 in size for SinC) every activation function and every derivative is finite. The forward pass of an activation layer keeps the same guarantees entry by entry.", "quantifier": "all single-precision floats, all 64 activation functions and their derivatives, all C libraries within the stated coarse ranges", "why_tests_cant": "4 billion inputs per function, and the NaN appears only where an intermediate result overflows or a difference of infinities is taken", "anchors": ["src/Activations.cpp:apply", "src/Activations.cpp:derivation", "src/LayerActivation.cpp:forward"]}
{"id": "C93", "title": "Softmax and the cross-entropies in single precision: probabilities, accuracy, and no infinity or NaN whatever the logits", "statement": "In float arithmetic, for any finite inputs however large, the Softmax layer returns finite numbers in [0,1]; the largest input gets the largest output; a row of k outputs adds up to 1 within 2(k+1)u + k*eta; and each output is within (2k+1)(eps+2u)+eta of the exact softmax when expf is within eps of the exponential (u = 2^-24, eta = 2^-150). Softmin likewise for the negated inputs. The categorical, sparse categorical and binary cross-entropies of predictions in [0,1] are finite and not negative, and their gradients are finite and at most 2^27 in size. Hence a Softmax output trained on a cross-entropy gives a finite loss and finite gradients for all finite logits.", "quantifier": "all finite float inputs, numbers of rows and columns (2k*2^-24 <= 1 for the accuracy clauses), truths, C libraries with expf in [0,1] on nonpositive arguments and logf in [-32,0] on [2^-27,1]", "why_tests_cant": "overflow and cancellation occur only at particular magnitudes; accuracy for all inputs is not testable", "anchors": ["src/LayerSoftmax.cpp:forward", "src/LayerSoftmax.cpp:backpropagation", "src/LayerSoftmin.cpp:forward", "src/Loss.cpp:LossCategoricalCrossEntropy", "src/Loss.cpp:LossSparseCategoricalCrossEntropy", "src/Loss.cpp:LossBinaryCrossEntropy"]}
{"id": "C94", "title": "Optimisers in single precision: the weights stay finite through any number of steps", "statement": "For each of the fifteen optimisers, in IEEE single precision, with a learning rate and a momentum of magnitude at most 1 and a decay between 0 and 1 (or -1, the default): starting from weights of magnitude at most 2^100, any sequence of calls optimize(w, g), of any length, whose gradient entries are at most 2^40 in magnitude leaves every weight finite and at most 2^100 in magnitude - no infinity and no NaN ever appears. A single gradient entry of magnitude 2^64 or more makes the accumulated square infinite, after which Adagrad, RMSProp, Adam, Amsgrad and Nadam never change that weight again. Without a bound on the gradients the first claim is false: SGD reaches an infinity in one step and Nesterov a NaN in four.", "quantifier": "all optimisers, matrix shapes, initial weights, hyper-parameters in the stated ranges and gradient sequences of every length; all floats, rounding included", "why_tests_cant": "the sequence length is unbounded and the accumulators drift only after very many steps; a test cannot wait for 2^40 of them", "anchors": ["src/Optimizer.cpp:104", "src/Optimizer.cpp:141", "src/Optimizer.cpp:185", "src/Optimizer.cpp:327", "src/Optimizer.cpp:434", "src/Optimizer.cpp:500", "src/Optimizer.cpp:557", "src/Optimizer.cpp:620", "src/Optimizer.cpp:686", "src/Optimizer.cpp:741"]}
{"id": "C95", "title": "Training a classifier in single precision never overflows", "statement": "A network of a Dense layer followed by Softmax or by a Sigmoid activation, trained by fit on the categorical, sparse categorical or binary cross-entropy, in IEEE single precision: with at least one and fewer than 2^24 training rows, inputs of magnitude at most 2^10, truth values between 0 and 1 (or class numbers), fewer than 2^16 inputs, starting weights of magnitude at most 2^100, no regulariser, a learning rate and a momentum of magnitude at most 1 and a decay between 0 and 1 (or -1), fit returns; it records one training loss per epoch, every recorded training loss is a finite number in [0, 2^30], every recorded validation loss a finite number in [0, 2^54], and the weights and biases of the returned network (the last one, or the best one when keep-best is on) are finite and at most 2^100 in magnitude. With no training row at all every recorded training loss is a NaN.", "quantifier": "all optimisers, batch sizes, epoch counts, shuffles, data of the stated size, with or without validation data, keep-best, reboost and callback; all floats, rounding included", "why_tests_cant": "overflow appears only for particular data, initial weights and epoch counts; the claim covers every number of epochs and every shuffle", "anchors": ["src/NetTrain.cpp:395", "src/NetTrain.cpp:556", "src/NetTrain.cpp:623", "src/NetTrain.cpp:322", "src/LayerDense.cpp:forward", "src/LayerSoftmax.cpp:forward", "src/Loss.cpp:compute", "src/Optimizer.cpp:optimize"]}
{"id": "C96", "title": "Training a linear classifier is gradient descent on the cross-entropy", "statement": "A network of one Dense layer followed by Softmax, trained by fit with the (sparse) categorical cross-entropy, the SGD optimiser, no regulariser and batches of the whole data set, in exact arithmetic: as long as no sample's class has a probability below 1e-8, epoch e ends with the parameters of step e of textbook gradient descent on the mean cross-entropy of multinomial logistic regression, the recorded training loss of epoch e is that cross-entropy divided by the number N of samples, and the recorded training accuracy is the percentage of samples whose most probable class is theirs. That condition holds throughout if the initial total cross-entropy is at most ln 1e8 and the learning rate times the sum of the squared inputs (the constant input 1 included) is at most 4 N; then the recorded losses never increase. With at most 2 N the loss after e epochs exceeds the loss of any other parameters by at most the squared distance to them divided by 2 e times the rate; if some parameters classify every sample, the recorded accuracy is 100 from some epoch on. Through the loss and the Softmax the gradient of a score is probability minus indicator; when the probability of a sample's class is below 1e-8 the gradient of its score is instead at most 1e8 times that probability.", "quantifier": "all data sets, numbers of inputs, classes, samples and epochs, initial parameters, learning rates within the bounds, with or without validation data, keep-best and callback", "why_tests_cant": "no finite set of data and learning rates establishes monotone decrease or a convergence rate; the Softmax backward pass alone is not the derivative, only its combination with this loss is", "anchors": ["src/NetTrain.cpp:395", "src/NetTrain.cpp:556", "src/LayerSoftmax.cpp:backpropagation", "src/LayerDense.cpp:backpropagation", "src/Loss.cpp:383", "src/Loss.cpp:405", "src/Loss.cpp:431", "src/Optimizer.cpp:optimize"]}
{"id": "C97", "title": "The reported accuracy is right in single precision", "statement": "In single precision, compute_loss_accuracy and the accuracy histories of fit report a percentage between 0 and 100, within 1/160000 of the exact one, which is 100 exactly when every sample is classified rightly and 0 exactly when none is; of two evaluations on equally many samples, the one with more right answers has the strictly greater accuracy, so that fit never mistakes which network is better.", "quantifier": "all networks, data sets, counts of right answers and numbers of samples", "why_tests_cant": "the smallest data set for which it fails has 671089 samples", "anchors": ["src/NetTrain.cpp:compute_loss_accuracy", "src/NetTrain.cpp:fit"]}
{"id": "C98", "title": "Training a deeper classifier in single precision never overflows within a magnitude budget", "statement": "A network of Dense layers and activations, ending in Softmax or a Sigmoid activation, trained by fit on a cross-entropy with SGD or Momentum in IEEE single precision. Suppose exponents can be assigned to the inputs, parameters, gradients and regularised gradients of each layer so that: a Dense layer's outputs have room for (inputs + 1) x input x parameter, its input gradients for outputs x gradient x parameter, and its parameters for 2^25 (SGD) or 2^50 (Momentum) times rate x gradient, where the gradient is the one left by the optional GradientClip or GradientClipTanh; activations bounded by 1 (Tanh, Sigmoid, HardTanh, SoftSign, Sin) reset the input exponent, activations with |f(x)| <= |x| (Identity, Relu, Relu6, LeakyRelu, LeakyRelu256, Absolute) keep it. Then fit returns, every recorded training loss is a finite number in [0, 2^30], every recorded validation loss in [0, 2^54], and every weight and bias of the returned network stays within its exponent, however many epochs are run. Such exponents exist for (a) up to five Dense layers of fewer than 2^11 inputs and at most 2^11 outputs with any of these activations, SGD at a rate up to 1/64 (or the default 0.01) and gradient clipping up to 2^-9 (default 0.001), initial parameters within 2^10, inputs within 2^10 (two layers with Momentum, parameters within 2^35); (b) one hidden layer with a bounded activation and no clipping. Finite parameters alone are not enough: two Dense layers with weights 2^64 map a row of ones to infinities.", "quantifier": "all networks, data, shuffles, batch sizes, epoch counts, initial weights and rates within the budget; all floats, rounding included", "why_tests_cant": "overflow needs particular weights after many epochs; the claim covers every number of epochs, every shuffle and every initial weight in the range", "anchors": ["src/NetTrain.cpp:395", "src/NetTrain.cpp:556", "src/LayerDense.cpp:forward", "src/LayerDense.cpp:backpropagation", "src/LayerActivation.cpp:forward", "src/Activations.cpp:apply", "src/Optimizer.cpp:optimize", "src/Regularizer.cpp:apply"]}
{"id": "C99", "title": "Training a regression in single precision stays finite within a magnitude budget", "statement": "In single precision, training a network of dense layers and activations by SGD or Momentum on a regression loss (squared, absolute, cubic, Huber or pseudo-Huber) returns finite parameters and finite recorded losses, for any number of epochs, batch size and order of samples, when a budget of exponents covers the inputs, the targets, the parameters and the gradients. Instances: one dense layer with under 2^11 inputs within 2^10 and a loss of bounded slope (absolute, L1, Huber, pseudo-Huber) at rates up to 2^-6; a hidden layer with a bounded activation and such a loss; a hidden layer with squared errors and gradients clipped at 2^-9. With squared errors and no clipping it fails: one sample with input 1000 makes the weight infinite or NaN within 20 epochs at the default rate.", "quantifier": "All conforming math libraries, random draws, heaps, networks, settings and data sets meeting the stated bounds; any number of epochs.", "why_tests_cant": "Divergence shows only for some data, rates and epoch counts; a test trains a few epochs on one data set.", "anchors": ["src/NetTrain.cpp:395", "src/NetTrain.cpp:556", "src/LayerDense.cpp:forward", "src/LayerDense.cpp:backpropagation", "src/LayerActivation.cpp:forward", "src/Loss.cpp:compute", "src/Loss.cpp:compute_gradient", "src/Optimizer.cpp:optimize", "src/Regularizer.cpp:apply"]}
{"id": "C100", "title": "Random draws reach training only through shuffles and random layers", "statement": "For a network without random layers (no dropout, noise, RRelu, RandomFlip or recurrent layer; Bias layers initialised to zeros or ones), two calls of NetTrain::fit on equal network, settings and data give the same result, whatever the random generator delivers, if the shuffles are the same or all samples fit in one batch: same parameters, history and learning rate, or same failure. The copies made for keep-best draw initial weights but these never reach the result. With dropout, noise and RRelu layers out of training mode the same holds when in addition the draws of the training batches are the same; the draws of evaluations do not matter, and predict gives the same output for all draws. The condition on shuffles and the one on training draws are needed; RandomFlip and the recurrent layers make predict random.", "quantifier": "All arithmetics, heaps, networks, settings, data sets and random draws.", "why_tests_cant": "A test compares a few seeds; an unwanted dependence on a draw shows only for some configurations, such as keep-best with a roll-back.", "anchors": ["src/NetTrain.cpp:395", "src/NetTrain.cpp:742", "src/Net.cpp:38", "src/Net.cpp:65", "src/LayerDropout.cpp:forward", "src/LayerRandomFlip.cpp:forward", "src/LayerRNN.cpp:forward", "src/Matrix.cpp:randPerm"]}
{"id": "C101", "title": "The epoch callback and the validation data only observe the training", "statement": "Installing an epoch callback (one that only reads) changes nothing in a call of NetTrain::fit: the network, the heap objects, the trainer and any failure are the same, for all settings. With keep-best and patience switched off, the validation data do not leak into the training: a run with validation data and the same run without (or with other validation data) end with the same network parameters, optimiser states, training loss and accuracy history and number of callbacks. This holds for layers whose evaluation leaves the object as it is. With keep-best or patience the validation data choose the result, as intended. With SimplestRNN it is false: evaluating the validation data draws new weights, so the weights returned by fit are not the trained ones.", "quantifier": "All arithmetics, heaps, networks of any number of layers (all classes but those filled at the first forward call, convolution, RandomFlip and the recurrent ones for the validation part), settings, data sets and random draws.", "why_tests_cant": "Leakage of validation data is silent: the run looks normal and the reported figures are only too good, so no output can be compared with an expected one.", "anchors": ["src/NetTrain.cpp:395", "src/NetTrain.cpp:466", "src/NetTrain.cpp:498", "src/NetTrain.cpp:compute_loss_accuracy", "src/NetTrain.cpp:set_validation_data", "src/NetTrain.cpp:set_epoch_callback", "src/LayerRNN.cpp:forward"]}
{"id": "C102", "title": "Full-batch training does not depend on the order of the samples", "statement": "When all training samples fit in one batch (batch size 0 or at least the number of samples), putting the samples of the training set in another order changes nothing in a call of NetTrain::fit in exact arithmetic: it ends with the same heap objects and network, the same weights, optimiser states, loss and accuracy history and callback calls. This holds for networks of layers that treat each sample on its own and draw no random number, for every optimiser, regulariser, loss, with or without keep-best and validation data. With smaller batches the order matters. In single precision it is false: sums over the samples are rounded in the order of the samples.", "quantifier": "All heaps, networks of any number of layers (Dense, Dot, Bias, Gain, Affine, their global forms, activations, gated activations, CRelu, PRelu, Softmax, Softmin), settings without patience and class balancing, data sets, reorderings and random draws; real arithmetic, and any arithmetic in which two addends of a sum may be exchanged.", "why_tests_cant": "There are n! orders of n samples, the expected weights are not known, and a test run in floating point sees small differences whether or not the code treats a sample specially because of its position.", "anchors": ["src/NetTrain.cpp:395", "src/NetTrain.cpp:444", "src/NetTrain.cpp:train_batch", "src/NetTrain.cpp:add_online_statistics", "src/NetTrain.cpp:compute_loss_accuracy", "src/LayerDense.cpp:backpropagation", "src/LayerBias.cpp:backpropagation", "src/LayerGain.cpp:backpropagation", "src/Loss.cpp:compute_gradient"]}
{"id": "C103", "title": "Training may be split in two calls of fit when nothing is carried in the optimiser", "statement": "Calling NetTrain::fit with e1 epochs and then again with e2 epochs on the same network ends exactly like one call with e1 + e2 epochs: same heap objects (weights, gradients, flags, stored data), same network, same optimisers, work matrices and settings; the four curves recorded by the two calls put end to end are those of the long call, and the callback saw the same histories. This holds bit for bit in any arithmetic when keep-best and patience are off, the optimiser keeps no state (None, Step, SGD) and every layer already has its parameters; the second call must use the random draws the long call makes from epoch e1 on. Each condition is needed: with momentum the velocity is dropped by the second call, with keep-best the second call starts from the best network and compares losses anew, and a layer sized by its first forward pass is registered for training only by the second call.", "quantifier": "All heaps, networks of at least one layer of the classes of C60, trainers accepted by C88, data, validation data, batch sizes, reboost periods, regularisers, losses, random draws, e1 >= 0 and e2 >= 1; any arithmetic including single precision.", "why_tests_cant": "A test compares two runs for a few epoch counts and one network; a hidden state carried or dropped between the calls (an optimiser state, a flag, a buffer that is resized) shows only for some layers, batch sizes and optimisers.", "anchors": ["src/NetTrain.cpp:395", "src/NetTrain.cpp:set_net", "src/NetTrain.cpp:set_epochs", "src/NetTrain.cpp:train_one_epoch", "src/Optimizer.cpp:set_params", "src/Optimizer.cpp:OptimizerSGD", "src/LayerGain.cpp:forward"]}
{"id": "C104", "title": "A network that already reproduces its training data is not changed by training", "statement": "If the network's predictions on the training inputs are exactly the training truth, then NetTrain::fit, in exact arithmetic, ends with every parameter of every layer as it was and every recorded training loss equal to zero, whatever the number of epochs, the batch size, the shuffles, keep-best, reboost, validation data and learning rate. It holds for the seven regression losses whose gradient vanishes at a zero error, without regulariser, for every optimiser but Step and AdamW, and for layers whose parameters are already sized. The limits are exact: AdamW decays the weights and Step moves them because the sign of a zero gradient is +1; MeanAbsoluteError and L1 move them for the same reason; PELU and TERELU move their own parameters because their weight gradient ignores the incoming gradient.", "quantifier": "All heaps and networks of at least one layer made of Dense, Dot, Bias, Gain, Affine, Global*, ChannelBias, activations, Gated, CRelu, PRelu, Softmax, Softmin, TimeDistributed*, AveragePool2D, GlobalAveragePool2D and ZeroPadding2D layers; all trainers accepted by C88, data with at least one row, random draws; real arithmetic.", "why_tests_cant": "A test trains a few networks to (near) convergence and checks that the loss does not rise by much; a step that does not vanish with the error, in one layer, loss or optimiser, is hidden by rounding or by the learning rate.", "anchors": ["src/NetTrain.cpp:fit", "src/NetTrain.cpp:train_batch", "src/Loss.cpp:compute_gradient", "src/Optimizer.cpp:optimize", "src/Optimizer.cpp:OptimizerStep", "src/Optimizer.cpp:OptimizerAdamW", "src/LayerPELU.cpp:backpropagation", "src/LayerTERELU.cpp:backpropagation"]}
{"id": "C105", "title": "The entries recorded by fit: validation curves describe the network after the epoch, training curves the one before it", "statement": "Without keep-best and patience, each epoch of NetTrain::fit appends one entry to the curves returned by get_train_loss, get_train_accuracy, get_validation_loss and get_validation_accuracy. The validation entries of epoch i are exactly what compute_loss_accuracy gives, on the validation data, for the network that fit leaves when it is run for i+1 epochs from the same state with the same draws. In full batch, the training accuracy of epoch i is exactly that of the network after i epochs, that is before the update of the epoch, and the training loss of epoch i is the mean loss of that network divided once more by the number of samples. Hence the training entries of the last epoch are not those of the network that fit leaves (refuted: recorded 4 and 0 %, actual 0 and 100 %), and the training loss in full batch is the mean loss divided by the number of samples (refuted as a mean).", "quantifier": "All heaps and networks of at least one layer of the classes that compute the same in training and inference mode, with their parameters sized; all trainers accepted by C88 without keep-best; all numbers of epochs, losses, optimisers, regularisers, reboost settings, validation batch sizes and random draws; any arithmetic (equality of the recorded values, not up to rounding). The training entries: batches at least as large as the data.", "why_tests_cant": "The curves look plausible: they fall together. That the training curve lags by one epoch and is scaled by the number of samples shows only when each entry is compared with a separate evaluation of the network after exactly that many epochs.", "anchors": ["src/NetTrain.cpp:fit", "src/NetTrain.cpp:train_batch", "src/NetTrain.cpp:add_online_statistics", "src/NetTrain.cpp:compute_loss_accuracy", "src/NetTrain.cpp:get_train_loss", "src/NetTrain.cpp:get_validation_loss"]}
{"id": "C106", "title": "In full batch, presenting every sample r times trains the same network", "statement": "When all samples fit in one batch, NetTrain::fit on data in which every sample occurs r times (in any order) performs the same updates as fit on the data with every sample once: the same objects and network at the end, the same optimiser states, the same training accuracy, validation loss and validation accuracy curves, and the same number of callbacks seeing these. Only the recorded training loss differs: it is divided by r, except for the losses L1, L2 and L3, which add the samples up, where it is the same. This needs layers whose gradients are means over the samples: with a Gain layer, whose gradient is a sum over the samples, three copies change the trained weight. It needs one batch: with batches of the original size the copies are further steps. In single precision it is refuted: presenting the samples twice can overflow the sum and leave an infinite bias.", "quantifier": "All numbers r >= 1 of presentations and all arrangements of them; all non-empty data; all networks of Dense, Dot, Bias, GlobalBias, activation, gated, CReLU, PReLU, Softmax and Softmin layers; all trainers accepted by C88 with one batch holding all samples, without keep-best or with validation data; all losses, optimisers, regularisers, reboost settings, numbers of epochs and random draws; real arithmetic.", "why_tests_cant": "Runs in floating point differ in the last digits, so an equality cannot be tested, and the loss curve, which does change, hides that the network does not. Only a proof separates the gradients that are means from those that are sums for all losses and optimisers.", "anchors": ["src/NetTrain.cpp:fit", "src/NetTrain.cpp:train_batch", "src/NetTrain.cpp:add_online_statistics", "src/LayerDense.cpp:backpropagation", "src/LayerGain.cpp:backpropagation", "src/LayerPRelu.cpp:backpropagation", "src/Loss.cpp:compute"]}
{"id": "C107", "title": "Max pooling in single precision takes the first largest number and sends it the gradient, NaN cells left out", "statement": "On any float image, NaN and infinities included, LayerGlobalMaxPool2D::forward returns for every sample and channel, bit for bit, the first of the largest numbers of the plane, NaN cells left out, when that number exceeds -1e38; and -1e38 when no cell does. If every plane has such a number and a sample has at most 2^24+1 cells, backpropagation puts exactly the incoming gradient at that cell and zero at every other cell, although the positions are stored as floats. If some plane has none (for example when the network has produced NaN), backpropagation accesses an element before the beginning of the row. With 2^24+2 cells the statement is refuted: the stored position is rounded and the gradient is given to another cell. LayerMaxPool2D::forward returns the same for every window.", "quantifier": "All float images of any size, all numbers of samples and channels, all window sizes, all previous contents of the output and position matrices, all gradients, all C libraries; for the gradient, samples of at most 2^24+1 cells.", "why_tests_cant": "Tests compare a few small images of ordinary numbers; they contain neither NaN planes nor samples of more than 16 million cells, and cannot cover all float images.", "anchors": ["src/LayerGlobalMaxPool2D.cpp:forward", "src/LayerGlobalMaxPool2D.cpp:backpropagation", "src/LayerMaxPool2D.cpp:forward"]}
{"id": "C108", "title": "A learning rate of zero, or the optimiser None, freezes the network", "statement": "NetTrain::fit with learning rate 0 ends and leaves every weight and every bias of every layer as they were, in exact arithmetic, whatever the loss, regulariser, data, shuffles, batch size, number of epochs, keep-best, reboost, decay and momentum, for every optimiser but RPROP-, iRPROP- and AdamW. With the optimiser None the same holds in any arithmetic, single precision with NaN included, whatever the learning rate. The limits are exact: RPROP- and iRPROP- have step sizes of their own, AdamW decays the weights without multiplying by the learning rate, LayerPELU writes its own parameters in its backward pass, and the learning rate -1 is not a rate but means the default.", "quantifier": "All heaps and networks of at least one layer made of Dense, Dot, Bias, Gain, Affine, Global*, ChannelBias, activations, Gated, CRelu, PRelu, TERELU, Softmax, Softmin, TimeDistributed*, AveragePool2D, GlobalAveragePool2D, ZeroPadding2D, GaussianNoise and UniformNoise layers with sized parameters; all trainers accepted by C88, data with at least one row, random draws.", "why_tests_cant": "A test freezes one network with one optimiser and compares a few weights; a term that is not multiplied by the learning rate in one optimiser, or a layer writing its parameters, needs that optimiser or layer and a state where the term is visible.", "anchors": ["src/NetTrain.cpp:fit", "src/NetTrain.cpp:train_batch", "src/Optimizer.cpp:optimize", "src/Optimizer.cpp:set_params", "src/Optimizer.cpp:OptimizerAdamW", "src/Optimizer.cpp:OptimizerRPROPm", "src/LayerPELU.cpp:backpropagation"]}
{"id": "C109", "title": "A unit that no training sample makes react is not changed by training", "statement": "Take a network that begins with a Dense layer and an element-wise activation, and a unit of that layer at which the activation has slope zero on every training sample (for Relu: the unit is inactive on all of them). Then NetTrain::fit, in exact arithmetic, ends with the weights and the bias of that unit exactly as they were, whatever the other units and layers learn, for every loss, batch size, shuffles, number of epochs, keep-best, validation data, learning rate and every optimiser but Step and AdamW, without regulariser; so a dead Relu unit stays dead. The limits are exact: an L2 penalty, AdamW, Step and a leaky activation move it, and a dead unit of a deeper layer may come back, because the layer below it moves.", "quantifier": "All heaps and networks of at least two layers, the first a Dense layer, the second an activation layer, the others among the classes of C108 with sized parameters; all trainers accepted by C88, data with at least one row, random draws; real arithmetic.", "why_tests_cant": "A test trains one network and sees that most weights move; that the update of one column is exactly zero for every optimiser state, batch and epoch, although all other columns share its matrices, is not visible from runs.", "anchors": ["src/NetTrain.cpp:fit", "src/NetTrain.cpp:train_batch", "src/LayerDense.cpp:backpropagation", "src/LayerActivation.cpp:backpropagation", "src/Activations.cpp:Relu", "src/Optimizer.cpp:optimize"]}
{"id": "C110", "title": "Hidden units that start equal stay equal through training, bit for bit", "statement": "Take three consecutive layers Dense, activation, Dense anywhere in a network. If two units of the first Dense layer have the same incoming weights and the same bias, and the two rows of the second Dense layer that read them are the same, then NetTrain::fit ends with the two units still having the same incoming weights, the same bias and the same outgoing weights, bit for bit, in whatever arithmetic the program runs (so in single precision too), for every loss, optimiser, regulariser, batch size, shuffle, number of epochs, keep-best and validation data. So a hidden layer whose units all start equal (a constant initialisation such as Ones or Zeros) never becomes more than one unit repeated; in exact arithmetic its predictions are those of a layer with a single unit whose outgoing weights are as many times larger as there were units. Equal incoming weights alone are not enough: with different outgoing weights the two units part after one step.", "quantifier": "All scalar arithmetics, all heaps and networks with a Dense, activation, Dense triple at any position, the other layers among the classes of C108 with sized parameters; all units u and v; all trainers accepted by C88, data with at least one row, random draws.", "why_tests_cant": "A test sees two equal columns after one run with one optimiser; that no optimiser state, regulariser, batch or keep-best copy ever separates them, and that rounding does not either, needs an invariant over the whole training loop.", "anchors": ["src/NetTrain.cpp:fit", "src/NetTrain.cpp:train_batch", "src/LayerDense.cpp:forward", "src/LayerDense.cpp:backpropagation", "src/LayerActivation.cpp:backpropagation", "src/Optimizer.cpp:optimize", "src/Regularizer.cpp:apply"]}
{"id": "C111", "title": "The order and the scale of hidden units do not show in the predictions", "statement": "Take three consecutive layers Dense, activation, Dense anywhere in a network. Build a second network that lists the units of the first Dense layer in another order (and the rows of the second Dense layer accordingly), and multiplies the incoming weights and the bias of each unit by a factor while dividing its outgoing weights by it. If the activation lets the factors through, then Net::predict of the two networks is the same, value by value, on every batch, in exact arithmetic. The factor 1, a mere reordering, goes through every activation; a positive factor goes through Relu, LeakyRelu, LeakyRelu256, Absolute, Identity and DivideBy256; a change of sign goes through Tanh, Atan, Sin, SoftSign, TanhShrink, HardTanh, Identity and DivideBy256. The limits: a negative factor does not go through Relu, and in single precision the order of the units shows (2^24, -2^24 and 1 sum to 1 or to 0).", "quantifier": "All heaps and all deterministic networks (C15) with a Dense, activation, Dense triple at any position, all permutations of the units, all factors, all batches and output buffers, all states of the random generator; real arithmetic.", "why_tests_cant": "A test compares two networks on some inputs and up to a tolerance; equality on every input, for every permutation and position in the network, is a statement about the function computed, and in floating point the tests even see differences.", "anchors": ["src/Net.cpp:predict", "src/LayerDense.cpp:forward", "src/LayerActivation.cpp:forward", "src/Activations.cpp:apply"]}
{"id": "C112", "title": "Rewriting a network for inference does not change its predictions", "statement": "Net::predict gives the same values, on every batch, after each of these rewritings of a deterministic network, at any position in it. In every arithmetic, bit for bit: a Dropout, GaussianDropout, GaussianNoise or UniformNoise layer in inference mode, or an Identity activation, is left out; a Dense layer is replaced by a Dot layer with its weights and a Bias layer with its biases; an Affine layer is replaced by a Gain and a Bias layer. In exact arithmetic: two Dense layers in a row are replaced by the Dense layer with the product of the weights and the biases carried through; a Dense layer followed by an Affine layer is replaced by one Dense layer. In each case the rewritten network is again a deterministic network that predicts without failing. Merging is not exact in single precision (two weights of 2^-80 have the product 0).", "quantifier": "All heaps and deterministic networks (C15), all positions, sizes, weights, batches, output buffers and random draws; every arithmetic for the first group, real arithmetic for the second.", "why_tests_cant": "A test compares one pair of networks on a few inputs; that the replacement may be made inside any network and holds bit for bit in any arithmetic is a statement about all networks and inputs.", "anchors": ["src/Net.cpp:predict", "src/LayerDense.cpp:forward", "src/LayerDot.cpp:forward", "src/LayerBias.cpp:forward", "src/LayerGain.cpp:forward", "src/LayerAffine.cpp:forward", "src/LayerDropout.cpp:forward"]}
{"id": "C113", "title": "An order-preserving last layer does not change the predicted classes", "statement": "For a deterministic network with at least two outputs and at least one other layer, removing the last layer leaves the result of Net::predict_classes unchanged on every batch, in exact arithmetic, when that layer is a Softmax, a GlobalBias, a GlobalGain with a positive gain, or one of the 28 strictly increasing activations (Asinh, Atan, Bent, BipolarSigmoid, CELU, ComplementaryLogLog, DivideBy256, Elliot, ELU, Exponential, E2RU, E3RU, Identity, ISRLU, LeakyRelu, LeakyRelu256, LeakyTwiceRelu6, LecunTanh, LogSigmoid, O2RU, O3RU, Selu, SoftPlus, SoftSign, SoftSteps, Sigmoid, Tanh, TanhShrink). The shorter network is again a deterministic network and both calls succeed; ties are resolved the same way. Among the monotone activations of C59 the list is exact: each of the other 17 (Relu, HardTanh and so on) is constant somewhere, and as the last layer it changes a class of some network. The property also fails for a single output (whose class is the rounded value), and in single precision for Softmax, which may make two distinct outputs equal.", "quantifier": "All heaps, deterministic networks, weights, batches, class buffers and random draws; real arithmetic.", "why_tests_cant": "A test compares classes on a few inputs, and the cases where the order is lost (ties, saturated values) are rarely among them; the property is about all weights and inputs.", "anchors": ["src/Net.cpp:predict_classes", "src/LayerSoftmax.cpp:forward", "src/Activations.cpp:ActivationSigmoid", "src/LayerGlobalGain.cpp:forward", "src/Matrix.cpp:rowsArgmax"]}

# Formal model of BeeDNN in Rocq - design

The C++ sources are in `/repo/src` (pinned, never modified, never run). The development is in `rocq/theories/`
(logical root `Verif`). `properties.jsonl` lists the properties in English, `MANIFEST.json` maps each to theorems,
`seeded/LOG.jsonl` logs the mutation experiments, `ASSUMPTIONS.md` lists the axioms under every theorem.
Section 4 of this file is generated by `tools/design.py` from the manifest.

## 1. How the code is modelled

* **Outcomes.** A C++ function becomes a total Gallina function returning `res A`:
  `Ok a`, or `Err e` with `e` one of `EOob` (access outside a buffer), `EAssert` (a failed `assert`;
  in a release build the code goes on into undefined behaviour), `ENull` (null dereference), `EFree`
  (use after free / double free), `EUninit` (an indeterminate value is used), `EDiv` (integer division by
  zero), `ECast` (conversion of a float that does not fit the integer type), `EThrow` (exception), `EFuel` (a loop that
  does not end). A theorem that concludes `Ok ...` therefore also says that no undefined behaviour and no failed assert occurs.
* **Scalars.** `MatrixFloat` holds `float`. The model is polymorphic in a record `FOps` of operations
  (`+ - * / <`, `exp`, `log`, ..., conversions); the record has *no law fields*, so a theorem `forall F : FOps, ...`
  makes no assumption about the arithmetic and holds for IEEE single precision, rounding, NaN and infinities included.
  Instances: `ROps` (real numbers; used wherever a statement is algebraic or about derivatives - "exact real
  arithmetic", i.e. rounding is *not* modelled there), `B32Ops` (Flocq's IEEE-754 binary32, used for float specific
  statements), `QOps`/`ZOps` (executable, used for examples and witnesses).
* **Fresh memory.** `new float[n]` is not initialised. Fresh cells hold `fjunk F`, a field of the operation record and
  hence an arbitrary value; a result that does not mention `fjunk` proves that every cell was written.
* **Matrices.** Value model (`Mat.v`): rows, columns, row-major list of cells; indices are `nat`, sizes that a user may
  pass negative are `Z`. A second, *pointer* model of `class Matrix` (`MatHeap.v`: blocks, pointers, view flag, new/delete)
  is used for aliasing, views and ownership (C02-C04). It is related to a pointer-free machine (`SpecHeap.v`) by a refinement.
* **Layer objects** live in a heap (`Net.v`): the address is an index, a deleted object leaves a hole; reading it is `EFree`.
  Used for `Net`, `NetTrain` and the meta-optimiser (pointer sharing, roll-back, leaks).
* **Threads.** `Meta.v` is a small-step interleaving semantics; schedules are arbitrary lists of thread numbers.
* **Loops** are `forL`/`forN` folds in the error monad, written in the order of the C++ loops.
* **Randomness** is an explicit argument (the sequence of draws); theorems hold for every sequence.
* **libm** functions are fields of `FOps`; in `ROps` they are the mathematical functions.
* The branch without Eigen (`USE_EIGEN` undefined), with assertions enabled, is modelled.

Files: `Base`, `Scalar`, `Mat*` (model and facts), one model file per C++ area, `Spec*` files containing only the
small specifications the theorem statements use, `P_*` files containing only theorem statements (closed by
`exact lemma`) followed by `Print Assumptions`, with an `Example` showing that the hypotheses are met by a concrete case.

## 2. Trusted base

* Coq 8.16.1 kernel (with `vm_compute`).
* Axioms: only those of the standard library. `ASSUMPTIONS.md` lists them theorem by theorem. Theorems over all `FOps`
  and those about integers, bytes, strings, heaps and schedules are closed. Theorems over the real numbers use the
  standard library's construction of the reals (`ClassicalDedekindReals.sig_forall_dec`, `sig_not_dec`,
  `functional_extensionality_dep`) and, through Coquelicot and Flocq, `Classical_Prop.classic`.
  Coquelicot and Flocq are used as libraries; they add no axioms of their own.
* The correspondence between the C++ text and the Gallina definitions, which is by reading; each definition cites file and lines.
* The generated parts of the `P_*.v` files need no trust: `tools/genp.py` copies the statement of a lemma into a theorem,
  Coq checks the result.

## 3. Which code is modelled

| source (`/repo/src`) | model | not modelled / simplified |
|---|---|---|
| `Matrix.h`, `Matrix.cpp` (values) | `Mat.v` | Eigen branch. Sizes are naturals: no `int` overflow. Only `float` (the template argument). `::abs` is a parameter `cabs`, because without `<cmath>`'s overloads `Matrix.h:421` calls the integer version |
| `Matrix.h` (storage) | `MatHeap.v` | allocation never fails; copy elision of returned views |
| `Matrix.cpp` text I/O | `Text.v` | printing, conversion and the indeterminate value are parameters (`show`, `conv`, `ind`); C locale; libstdc++'s `num_get` rules |
| `Activations.cpp` | `Act.v` | computations done in `double` inside a `float` function use the same operations (no double rounding) |
| `Layer*.cpp`, `Initializers.cpp` | `LayMat.v`, `LayImg.v`, `LayRnn.v`, `Layer.v`, `LayGlu.v` | max-pool positions are stored as floats, as in the code; convolutions whose output size would be negative are excluded by `convOk` |
| `Net.cpp` | `Net.v` | |
| `Loss.cpp`, `Optimizer.cpp`, `Regularizer.cpp` | `Loss.v`, `Optim.v`, `Regul.v` | decimal literals are exact quotients rounded once |
| `NetTrain.cpp` | `NetTrain.v` | the network is passed explicitly instead of through `_pNet`; `_pWeights` etc. are kept as the address of the owning layer; the epoch callback is an observer; batch sizes are naturals |
| `MNISTReader.cpp`, `CIFAR10Reader.cpp`, `DataSource.cpp` | `Reader.v` | files are byte lists; little-endian host; allocation succeeds |
| `CsvFileReader.cpp` | `Csv.v` | files are texts, file names are strings |
| `JsonFile.cpp`, `NetUtil.cpp` | `Json.v`, `JsonSave.v` | printing of floats is a parameter; bytes from 0x80 are ordinary characters |
| `MinMaxScaler.cpp`, `StandardScaler.cpp`, `Metrics.cpp` | `Scaler.v`, `Metrics.v` | |
| `KMeans.cpp`, `KMeansTrain.cpp` | `KMeans.v` | |
| `LayerFactory.cpp`, `MetaOptimizer.cpp` | `Meta.v` | one `NetTrain::fit` is one step: justified by `fit_own` (`MetaProofs1.v`) and `C75`/`C77`, which say a fit touches only objects of the thread's own network; the shared random engine is an arbitrary oracle (and a reported race) |

Not modelled: the Eigen build, thread creation and joining, wall-clock time, console output, the real file system, the
distribution of the random generators, the samples, the Python and Visual Studio glue.

## 4. Properties and outcomes

"partial" means that the property as first written is false of the code or proved under a restriction; the note says which.
Every `..._refuted` theorem carries a concrete witness; `..._partial` and `..._actual` theorems say what the code does instead.

| id | property | status | theorems | what is and is not proved |
|---|---|---|---|---|
| C01 | Matrix product is the textbook product, in a fixed summation order | proved | 3, `P_Matrix.v` |  |
| C02 | In-place product agrees with the product for every right operand | partial | 5, `P_Heap.v` | Proved when the right operand is on another storage (views included). False of the code when they share storage: m *= m gives the zero matrix (C02_self_product_is_zero, C02_self_product_refuted), m *= (view of m) can read freed storage (C02_own_view_frees_refuted). |
| C03 | Copies are deep, views are exact windows | partial | 11, `P_Heap.v` | For every history that has a meaning in the abstract machine of SpecHeap.v (no stale view, no overlapping assignment). Assigning a view from an overlapping window of the same storage does not preserve the source values: C03_overlap_refuted. |
| C04 | Owning matrices never leak, double free or touch freed memory | partial | 3, `P_Heap.v` | Proved for all programs without views (C04_owners_safe). With views, proved for programs with a meaning in the abstract machine, i.e. no stale view and no overlapping in-place operation (C04_with_views_partial); m = m.row(i) frees the storage it then reads (C04_own_row_refuted). |
| C05 | argmax picks the first maximum | proved | 4, `P_Matrix.v` |  |
| C06 | Row-wise and column-wise reductions compute what their name says | proved | 9, `P_Matrix.v` |  |
| C07 | Row broadcasts touch every cell with the right element | proved | 3, `P_Matrix.v` |  |
| C08 | Shuffling is a permutation that keeps samples and truths paired | proved | 2, `P_Matrix.v` |  |
| C09 | Text files written by toFile are read back by fromFile | partial | 11, `P_Text.v` | False as stated for every matrix with a row and a column (C09_round_trip_undefined, C09_round_trip_refuted): the blank toFile writes after the last number of a line makes fromFile use an indeterminate value and return one more column. Proved: files without blanks at line ends (any blanks or commas between numbers) are read with one row per line and the values in order. Ragged files write outside the matrix; words that are no numerals make the loop endless. Float printing and strtof are parameters. The text converted for one number is the longest beginning of a numeral, and no other text is converted (C09_taken, C09_only_numerals). |
| C10 | fromString returns one matrix row per text line | partial | 8, `P_Text.v` | The values come in reading order, but r lines of c numbers give a c x r matrix (C10_values_partial, C10_rows_refuted), and a ragged text whose number of values is no multiple of the number of lines writes outside the result (C10_ragged_overflow, C10_ragged_refuted). Trailing blanks use an indeterminate value, words never end the loop. strtof is a parameter. |
| C11 | reverseData reverses | partial | 4, `P_Matrix.v` | The property is false of the code: C11_reverseData_refuted. C11_reverseData_actual says exactly what the function does for every buffer, and that an empty range writes out of bounds. |
| C12 | Element-wise and structural helpers are exact | proved | 10, `P_Matrix.v` |  |
| C13 | Per-channel helpers add and average per channel | partial | 4, `P_Matrix.v` | channelWiseAdd is proved. The mean half is false of the code: the result is the channel mean times (rows*cols)^2 (C13_channelWiseMean_actual, C13_channelWiseMean_refuted). |
| C14 | Quick Bernoulli draws are 0/1 with the documented bias | proved | 2, `P_Matrix.v` |  |
| C15 | A prediction does not depend on the rest of the batch | partial | 5, `P_Net.v` | Proved bit-exactly for every stack of layers that draw no random numbers in inference mode (detNet in SpecNet.v covers every layer class except RandomFlip and the recurrent layers). Refuted for RandomFlip, which flips at random in inference mode, and for the recurrent layers, which draw new weights at each forward pass over several frames. A network without layers leaves the result matrix untouched. |
| C16 | Predicted classes are the arg max (or rounded) outputs | partial | 4, `P_Net.v` | Several outputs: first maximal column, in range. One output: the rounded output; it need not be a valid class (refuted with a Dense(1,1) network predicting class -3). |
| C17 | Assigning a network gives an independent equal network | partial | 4, `P_Net.v` | Proved for assignment between different objects (deterministic layers, bit exact, including all later changes to either network). Self-assignment a = a is refuted: it deletes all layers. |
| C18 | Each epoch uses every training sample exactly once | proved | 2, `P_Train.v` | For every data set, batch size and shuffle: the batches are a cut of a permutation of the samples and each is trained with its own truths. The batch size in use is runBatch (0 or too large: the whole set). |
| C19 | fit records one history entry and one callback per epoch | partial | 2, `P_Train.v` | Proved with the validation accuracy recorded whenever validation data is given, classifying or not; the 'iff both' half is false of the code (C19_validation_accuracy_refuted). keep-best off together with patience on a regression network is excluded (the network loses its layers, C23). |
| C20 | Keep-best returns the best evaluated model | partial | 2, `P_Train.v` | Proved for the scores the trainer measures. Without validation data these are not scores of the network kept: keep-best can return a worse network than the initial one (C20_regression_refuted). |
| C21 | Zero epochs leave the weights alone | partial | 3, `P_Train.v` | Proved when keep-best is off or no layer is created or redrawn by a forward pass. False for lazily sized and recurrent layers with keep-best on (C21_lazy_refuted, C21_recurrent_refuted). |
| C22 | Patience roll-back is memory safe | partial | 4, `P_Train.v` | False of the code with patience: a roll-back frees the layers the trainer still points to and the next epoch uses them (C22_rollback_frees, C22_freed_is_used, C22_patience_refuted). Proved without patience (C22_live_partial). |
| C23 | Patience never destroys the network | partial | 2, `P_Train.v` | Proved when keep-best is on or patience off. False otherwise (C23_no_layers_left_refuted). |
| C24 | Learning-rate halving follows the stagnation count | proved | 2, `P_Rate.v` | C24_halving over the reals, C24_halving_float in single precision, for runs that return (C22 tells when they touch freed memory) with a positive initial rate. Left out: a regression without keep-best whose loss never got below 1e10, which the first roll-back leaves without layers (C23). |
| C25 | Every trainable parameter of the network is handed to the optimiser | partial | 4, `P_Train.v` | Proved for weights and biases that exist when fit starts, and the pairing with gradients and optimisers. Parameters created by the first forward pass and those of SimpleRNN are not registered (C25_lazy_refuted, C25_rnn_refuted). |
| C26 | Reboost restarts the optimisers every N epochs | partial | 2, `P_Train.v` | False of the code: the period is N+1 (C26_period_partial proves it for every run, C26_period_refuted). |
| C27 | Reported accuracy does not depend on the evaluation batch size | partial | 4, `P_Train.v` | Accuracy half proved for deterministic networks, bit for bit in any arithmetic (range over the reals). The loss half is false: the result is the sum of the batch means (C27_loss_refuted). |
| C28 | Class weights balance the classes | partial | 3, `P_Train.v` | Proved over the reals when every class occurs; a class without samples gets an infinite weight (C28_absent_class_refuted). |
| C29 | Assigning a trainer copies every hyper-parameter | partial | 3, `P_Train.v` | Every getter except the validation batch size (C29_validation_batch_refuted), when the optimiser's clone copies the learning rate (not RPROP-: C29_rate_refuted) and the regulariser was built by its own setter. |
| C30 | Optimisers act coordinate by coordinate and keep shapes | proved | 2, `P_Opt.v` |  |
| C31 | Momentum methods have their closed forms | proved | 6, `P_Opt.v` |  |
| C32 | RPROP step sizes stay in their interval | proved | 1, `P_Opt.v` |  |
| C33 | Adam-type optimisers keep their bias correction and bounds | proved | 6, `P_Opt.v` | beta1=0.9, beta2=0.999 are constants of the code. The first-step bound holds for Adam, Adamax and Adagrad; for Nadam it is false of the code (C33_nadam_first_step_refuted). |
| C34 | Cloning keeps the algorithm | partial | 2, `P_Opt.v` | True for every optimiser but iRPROP-, whose clone is an RPROP- (C34_irprop_clone_refuted). |
| C35 | The registries are complete and consistent | proved | 13, `P_Act.v`, `P_Opt.v`, `P_Regul.v` |  |
| C36 | Clipping regularisers bound the gradient | proved | 3, `P_Regul.v` |  |
| C37 | Penalty regularisers add the gradient of their penalty | proved | 4, `P_Regul.v` |  |
| C38 | Loss gradients are the derivatives of the losses | partial | 8, `P_Loss.v` | Proved for the regression losses and binary cross entropy. False for (sparse) categorical cross entropy as the derivative of the returned value: C38_categorical_gradient_refuted; what the code returns instead is C38_categorical_gradient_actual_partial. |
| C39 | Losses are non-negative and vanish at the target | proved | 3, `P_Loss.v` | Over the reals, with the float overload of abs. If ::abs resolves to the integer overload (Matrix.h:421 without <cmath>'s global overloads) the zero-iff-equal half fails: C39_integer_abs_overload_refuted. |
| C40 | Class balancing weighs each sample by its own class | partial | 3, `P_Loss.v` | Gradient half proved. The loss-value half is false of the code (C40_balanced_loss_refuted); C40_balanced_loss_actual_partial says what is returned. |
| C41 | Dense and Dot layers compute affine maps and their exact gradients | proved | 4, `P_Layer.v` | Forward closed forms hold over every scalar type (so bit-exactly for floats); gradients are over the reals. |
| C42 | Bias, gain and affine layers back-propagate their exact gradients | partial | 12, `P_Layer.v` | True for Bias and for every input gradient. The weight gradient of Gain, Affine, GlobalGain and GlobalAffine is not a derivative (C42_gain_refuted, C42_affine_refuted, C42_globalgain_refuted); the bias gradient of GlobalBias, GlobalAffine and ChannelBias has another constant factor (1/(n*cols), rows*cols/n instead of 1/n). The _actual theorems say what each layer returns. |
| C43 | Parametric rectifiers back-propagate their exact gradients | partial | 10, `P_Layer.v` | True for PRelu, CRelu and RRelu and for the input gradients of PELU and TERELU. PELU and TERELU leave the output gradient out of their weight gradient: C43_pelu_refuted, C43_terelu_refuted; the _actual theorems say what is returned. |
| C44 | Softmax and Softmin outputs are probability rows | proved | 2, `P_Layer.v` | Over the reals. |
| C45 | Softmax back-propagation is the gradient of softmax | partial | 5, `P_Layer.v` | False of the code: only the diagonal of the softmax Jacobian is used (C45_softmax_backward_refuted). The actual result, the true gradient and the effect with categorical cross entropy are theorems. |
| C46 | Dropout is the identity at inference and a scaled mask in training | partial | 8, `P_Layer.v` | Proved for Dropout and the noise layers. GaussianDropout is the identity at inference, but in training every batch of more than one row trips an assertion (C46_gaussiandropout_many_rows): the mask has one row. |
| C47 | Max pooling returns window maxima and routes gradients to them | partial | 6, `P_Image.v` | Forward half proved. The backward half is proved for one sample with one channel; in general every sample and channel is routed by the positions recorded for sample 0, channel 0 (C47_maxpool_backward_actual_partial, C47_maxpool_refuted), and a window whose cells are all <= -1e38 makes the backward pass write outside the buffer (C47_maxpool_out_of_bounds_refuted). Positions are stored as floats; the statements are over the reals, where that is exact. |
| C48 | Global max pooling returns plane maxima and routes gradients to them | proved | 3, `P_Image.v` | Gradient where the maximum of each plane is unique and above -1e38. |
| C49 | Average pooling averages and back-propagates the adjoint | proved | 4, `P_Image.v` |  |
| C50 | Zero padding embeds the image and its backward pass crops it | proved | 4, `P_Image.v` |  |
| C51 | Fast and slow convolution paths agree | partial | 4, `P_Image.v` | im2col: proved for every arithmetic. col2im: equal over the reals and, bit for bit, when windows do not overlap within an image row; false for binary32 in general (C51_col2im_paths_refuted), since the two paths add in opposite orders. |
| C52 | Convolution computes the cross-correlation of its definition | proved | 3, `P_Image.v` | For every shape whose output sizes are not negative. For strides above 2 the output size rule drops windows that would fit; the statement is about the windows the layer keeps. |
| C53 | Convolution backward pass is the gradient | proved | 1, `P_Image.v` | Weight gradient with factor 1, input gradient with factor 1/(kernel cells * output channels). |
| C54 | Time-distributed layers treat every frame alike | proved | 6, `P_Layer.v` | Gradients up to a constant: weights 1/n, biases 1/(n*frames). |
| C55 | Recurrent layers consume the whole sequence and keep their weights | partial | 7, `P_Image.v` | False of the code: the last frame is never read, a single frame leaves the output untouched, every call on a sequence redraws the weights, SimplestRNN keeps its state between calls. C55_simplest_forward_partial says what SimplestRNN computes; SimpleRNN rejects batches of several rows. |
| C56 | Random flip augments in training only | partial | 4, `P_Image.v` | False of the code: identity in training, flips at inference, and the flipped rows are not mirrored (C56_flip_refuted). C56_inference_actual_partial says what happens; in training the backward pass reads an empty matrix. |
| C57 | Gated activations multiply the two halves | proved | 4, `P_Layer.v` | For the 58 activations whose derivation is a derivative (see C58), away from their corners. |
| C58 | Activation derivatives are correct | partial | 10, `P_Act.v` | Proved, with the exact set of corners, for 58 of 64 activations. GELU and SoftSteps are right only up to their decimal approximations of pi (C58_gelu_softsteps_close). SQ-RBF, Logit, SineReLU and TanhExp return something else (C58_derivation_refuted and the _actual theorems). |
| C59 | Activation ranges are as documented | proved | 2, `P_Act.v` |  |
| C60 | The MNIST reader decodes every well-formed IDX file | partial | 13, `P_Reader.v` | Decoding and the refusal of wrong headers are proved for all files. Rejection of short files is false of the code: a file cut after its first image is accepted with stale pixels (C60_cut_images_accepted, C60_cut_images_refuted), any other strict prefix makes the reader use indeterminate bytes (C60_short_*_undefined). |
| C61 | The CIFAR10 reader decodes records and reports its data | partial | 10, `P_Reader.v` | Decoding is proved. has_data() stays false after every load (C61_has_data_never, C61_has_data_refuted) and no truncated file is rejected (C61_never_rejects, C61_cut_batch_accepted, C61_short_batch_undefined). |
| C62 | Min-max scaling maps the fitted data into [0,1] | partial | 10, `P_Data.v` | Holds for columns that are not constant; a constant column is left unchanged, so 5,5 stays 5,5 (C62_range_refuted), and in floats max-min may overflow and give NaN (C62_float_overflow_refuted). |
| C63 | Standard scaling centres and normalises the fitted data | partial | 6, `P_Data.v` | Mean 0, variance 1 proved over the reals. False in floats: the one-pass variance can come out negative, five times 1833 gives NaN (C63_float_finite_refuted); an empty set gives 0/0 (C63_empty_refuted). |
| C64 | The confusion matrix counts every sample once | partial | 9, `P_Data.v` | Counts, accuracy, row sums and balanced accuracy proved (the matrix in percent, float counts exact up to 2^24 per cell). False: an absent class gives a NaN balanced accuracy, and an out-of-range prediction is clamped and may count as correct. |
| C65 | K-means predicts the class of the nearest reference | partial | 7, `P_Data.v` | Proved for every loss when each sample has some reference closer than 1e38. A sample further than that from all references hits the assertion (C65_far_sample_refuted). |
| C66 | K-means training keeps the best model and never relabels references | proved | 3, `P_Data.v` | For every run of fit that returns, over the reals with integer labels; a run can stop early only at an assertion (sample at distance 1e38 or more) or with no samples (C66_no_samples). |
| C67 | The JSON writer produces well-formed JSON | partial | 7, `P_Json.v` | Proved for keys and strings without quotes, backslashes and control characters and numbers printing as JSON numbers; refuted otherwise: nothing is escaped, nan and inf are written as they print. The grammar is proved unambiguous. |
| C68 | The meta-optimiser reports ever better solutions | partial | 4, `P_Meta.v` | False of the code with two threads (C68_best_refuted). Proved for schedules that do not interrupt new_epoch and for one thread; for any schedule, reported accuracies were measured and none measured above -1 exceeds all reported ones. Over the reals. |
| C69 | Meta-optimiser variations reach the trained copy | partial | 3, `P_Meta.v` | False of the code (C69_variation_refuted): the variation is written to the user's trainer after the thread copied it. With one thread it is used by the next repetition; in general optimiser and learning rate come from the user's trainer or from variations. |
| C70 | Whole-network back-propagation computes the gradient of the loss | partial | 4, `P_Grad.v` | The literal statement is false (C70_gain_refuted: the weight gradient of LayerGain is no multiple of the derivative; see also C42 for Affine and GlobalGain). Proved for stacks of any depth: every weight and bias gradient of the layers given a scale in SpecGrad.v (Dense, Dot, Bias, Affine bias, GlobalBias, ChannelBias, PRelu, TimeDistributed, Conv2D, ...) is, up to an explicit positive constant, the derivative of the batch loss. The constant depends on the loss, the batch size, the output size and on convolutions further down. Left out: softmax/softmin, max pools, recurrent layers, GaussianDropout, RandomFlip, the categorical losses, class balancing and activation corners. |
| C71 | A saved network file lists the settings and every layer | partial | 2, `P_Json.v` | One JSON object with settings and layers in order, for clean strings and finite numbers; constructor arguments listed are those of savedInts/savedFloats. A Dot layer is read through a cast to an unrelated class. |
| C72 | A saved network file determines the network | partial | 4, `P_Json.v` | Same text implies same problem kind, settings and layers for the classes whose arguments are all written (savedFully); refuted for gated activations, zero padding and recurrent layers. |
| C73 | Matrix operations check the shapes and indices they are given | partial | 16, `P_Guard.v` | Success exactly when shapes fit, assertion otherwise, for all listed operations; copyInto has no check and writes past the buffer. |
| C74 | Layers, losses and optimisers reject arguments of the wrong size | partial | 14, `P_Guard.v` | Dense, Dot, Bias, gated, convolution, channel bias, all losses, the self-checking optimisers, KMeans and replace; the pooling and padding layers read past a narrow batch. |
| C75 | A meta-optimisation leaves existing layers alone and leaks none | proved | 2, `P_Meta.v` |  |
| C76 | A meta-optimisation leaves the user's trainer as it was | partial | 4, `P_Meta.v` | False with optimiser variations (C76_trainer_refuted), and the pair left may mix two variations (C76_mixed_refuted). Proved without optimiser variations. |
| C77 | The threads of a meta-optimisation do not race | partial | 5, `P_Meta.v` | False with two threads: C77_race_* give the races on the random engine, the trainer and the best accuracy. Proved for one thread. |
| C78 | Every trained network is a variant of the reference network | proved | 1, `P_Meta.v` |  |
| C79 | The better-solution callback is optional | partial | 2, `P_Meta.v` | False of the code (C79_no_callback_refuted): std::bad_function_call. A completed run without callback saw no accuracy above -1. |
| C80 | The layer factory creates every layer class by its type name | partial | 6, `P_Meta.v` | False for RandFlip and for eleven layer types (C80_type_refuted, C80_not_created). Proved for all other accepted names. |
| C81 | A CSV data set is found from the name of any of its files | partial | 5, `P_Csv.v` | Proved when each name contains only its own one of train/test and of data/truth (any order, any directory otherwise). False otherwise: in a directory called latest the word test is found in the directory name (C81_directory_refuted). |
| C82 | After a CSV load the flags describe the data and every sample has a truth | partial | 2, `P_Csv.v` | The flags and the returned value are proved for every load; equal numbers of samples and truths are not checked (C82_rows_refuted). |
| C83 | The gated linear units compute the formulas of their papers and back-propagate their gradient | proved | 3, `P_Glu.v` | Over the reals. Gradient: exact except at the corners of Relu and Selu; GEGLU's uses the GELU derivative with a decimal pi, whose error is bounded in C58_gelu_softsteps_close. |
| C84 | Training lowers the loss when the learning rate is small enough | partial | 3, `P_Descent.v` | False in general (C84_gain_refuted: a LayerGain network with a sloped loss that SGD leaves as it is at every learning rate, because its stored gradient is wrong). Proved for networks of any depth made of the layers of C70 whose trained parameters have a correct gradient up to a positive constant, every smooth loss, and Step, SGD, Momentum, MomentumNg, Nesterov, AdaGrad, RMSProp, Adam, Nadam, Adamax, AMSGrad. Left out: AdamW (also shrinks weights), RPROP- and iRPROP- (ignore the learning rate), the categorical losses, regularisers, batches after the first. |
| C85 | Constructing a layer gives parameters of the documented shape within the initialiser's bounds | partial | 11, `P_Init.v` | False for one clause (C85_unknown_refuted: an unknown initialiser name is not rejected and leaves the layer without weights). Shapes, cells, bounds, gradients and the fresh states of networks and metrics are proved for all sizes and draws. Not modelled: the distribution of the draws, so nothing is said about the standard deviation of the normal initialisers. |
| C86 | Recurrent layers back-propagate the gradient of their weights | partial | 4, `P_Rnn.v` | False for both classes (C86_zero_gradient_refuted: a zero output gradient gives a non-zero weight gradient). C86_output_gradient_ignored shows why. C86_simplest_actual gives the exact result of a training step of SimplestRNN over the reals, including the assertion failure for a non-first layer whose batch size differs from its frame size; C86_simple_actual shows SimpleRNN never computes a gradient. The full statement has no true instance to prove beyond these. |
| C87 | Configuring an optimiser restarts it, -1 selects the default, and a new optimiser is ready to use | partial | 7, `P_Restart.v` | The last clause is false (C87_unset_refuted: a new SGD optimiser keeps the learning rate -1 and moves up the gradient; C87_unset_parameters lists the rates of all classes). The restart and default clauses are proved for all fifteen classes. |
| C88 | Training a network whose sizes chain runs to its end | proved | 7, `P_Fit.v` | Every hypothesis is a size, name or range condition on what the caller passes; the values are arbitrary. The classes and settings left out are those for which training can fail (MaxPool2D and GlobalMaxPool2D without input above -1e38, GaussianDropout batches, RandomFlip after another batch size, recurrent layers, patience roll-back onto deleted layers) and class balancing. |
| C89 | Single-precision results stay within a proved distance of the exact ones | proved | 3, `P_Round.v` | Under the assumption of the model that every float operation rounds to nearest even (no fused multiply-add, no excess precision). C89_bound_size gives the size of the bound: about 2(k+1)u relative to the sum of absolute products. |
| C90 | Training one Dense layer on the squared error is gradient descent and reaches the least squares | proved | 6, `P_Linear.v` | Arithmetic is exact (real numbers); the rounding of binary32 is not covered here, see C89 for its size. FitRun.v gives the general rule (an invariant kept by each epoch holds after fit) used for the proof. |
| C91 | Training and prediction do not depend on what the trainer and the buffers were used for before | partial | 8, `P_Stale.v` | Proved for every layer class admitted by C88 (SpecFit.fits), both at layer level (C91_layer_forward, C91_layer_backward) and for whole runs; recurrent layers refute the statement (C91_predict_refuted, C91_fit_refuted). Max pooling, random flip and Gaussian dropout are not covered, nor runs that roll back on patience. |
| C92 | Activation functions in single precision: which of them turn a finite input into a not-a-number | proved | 8, `P_NaN.v` | Exact classification: the listed functions are those that return a NaN somewhere (C92_apply_refuted and C92_deriv_refuted give the inputs, e.g. SiLU' at -100, Mish' at 100, Gauss' at 3e38), all others never do. The C library is any one within stdLibm (ranges of expf, logf, tanhf ... and the special cases of C11 annex F); C92_library shows that a library rounding the real functions correctly is one, with tanh standing for erf. Every operation is taken in float; GELU and Mish' of the source evaluate a sub-expression in double. |
| C93 | Softmax and the cross-entropies in single precision: probabilities, accuracy, and no infinity or NaN whatever the logits | proved | 4, `P_Soft.v` | Correctly rounded expf and logf (defined from the real functions in B32OfR.v) meet the hypotheses with eps = u + eta. |
| C94 | Optimisers in single precision: the weights stay finite through any number of steps | proved | 3, `P_Stay.v` | Every operation is taken in float, round to nearest even. The bounds 2^40 and 2^100 come from the proof: an accumulator of magnitude 2^k absorbs increments below 2^(k-25). C94_any_gradient_refuted shows that some bound is needed. |
| C95 | Training a classifier in single precision never overflows | proved | 2, `P_Finite.v` | Patience is -1 and class balancing off (part of trainable, see C88). The C library enters through stdLibm and logUnit, met by a correctly rounded library (C95_case). The bound on the training loss is 2^30, that on the validation loss 2^54 because the code adds the means of the batches and does not divide by their number. |
| C96 | Training a linear classifier is gradient descent on the cross-entropy | proved | 7, `P_Logit.v` | exact arithmetic; the probability floor 1e-8 of the code is part of the statement |
| C97 | The reported accuracy is right in single precision | partial | 7, `P_Acc.v` | Proved for at most 671088 samples (2^24 / 25, up to which 100 times a count is a single-precision number), and up to 2^24 - 1 samples that the accuracy is finite and at most 100 + 1/80000. Refuted beyond: with 671089 samples, all classified rightly, less than 100 percent is reported, with 671091 more than 100; with 10000000 samples one more right answer can leave the accuracy unchanged. |
| C98 | Training a deeper classifier in single precision never overflows within a magnitude budget | proved | 4, `P_Mlp.v` | C98_budget_kept is the general statement; C98_clipped and C98_hidden_layer exhibit budgets for two families of networks. Proved by an assume/guarantee rule for fit (NetRule1.v, NetRule2.v). |
| C99 | Training a regression in single precision stays finite within a magnitude budget | proved | 5, `P_Regr.v` | C99_budget_kept is the general theorem; C99_linear, C99_hidden_layer and C99_clipped are instances that name no budget; C99_unclipped_refuted is the stated failure. The LogCosh loss is left out. |
| C100 | Random draws reach training only through shuffles and random layers | proved | 8, `P_Seed.v` | C100_no_random_layer, C100_one_batch, C100_random_layers and C100_predict hold for every arithmetic and also equate failures. Each call site has its own stream of draws: a copy consumes draws of the one generator of the library, so the equality of shuffles is a hypothesis. C100_shuffle_needed, C100_training_needed, C100_predict_flip_refuted and C100_predict_rnn_refuted show that the hypotheses are needed. |
| C101 | The epoch callback and the validation data only observe the training | partial | 8, `P_Watch.v` | Callback: proved for all settings and failures. Validation data: proved for fits that succeed, with keep-best and patience off, over layer classes whose evaluation leaves the object unchanged (all but Bias, Gain, Affine, PRelu, PELU, TERELU, RandomFlip, convolution, recurrent). Refuted for SimplestRNN. The callback is modelled as reading only. |
| C102 | Full-batch training does not depend on the order of the samples | partial | 6, `P_Order.v` | Proved over the reals for row-wise layer classes without random draws (not dropout, noise, convolution, pooling, padding, time-distributed or recurrent classes), patience and class balancing off. Refuted in single precision with a computed run (three samples, one Dense layer). |
| C103 | Training may be split in two calls of fit when nothing is carried in the optimiser | proved | 7, `P_Resume.v` | The exact limits are part of the statement and shown by witnesses (momentum, keep-best, layers not yet sized). |
| C104 | A network that already reproduces its training data is not changed by training | proved | 7, `P_Fixed.v` | Convolution, max pooling, noise, dropout and recurrent layers are outside the quantifier. The limits (AdamW, Step, MeanAbsoluteError, L1, PELU, TERELU) are shown by computed witnesses. |
| C105 | The entries recorded by fit: validation curves describe the network after the epoch, training curves the one before it | proved | 7, `P_Record.v` | The statement is exact: which network each entry describes, with the two natural readings refuted. Restricted to runs without keep-best (with it the network that fit leaves is another one) and, for the training entries, to full batches. Layers that behave differently in training (dropout, noise) are excluded since their training statistics are those of a noisy network. |
| C106 | In full batch, presenting every sample r times trains the same network | proved | 7, `P_Repeat.v` | Real arithmetic, full batch, layers whose gradients are means over the samples; C106_gain_case and C106_one_batch_needed show that these conditions are needed; the single precision version is refuted (C106_single_precision_refuted). |
| C107 | Max pooling in single precision takes the first largest number and sends it the gradient, NaN cells left out | proved | 8, `P_PoolF.v` | Single precision, bit for bit; the two limits are shown to be needed (C107_nothing_above: access outside the row; C107_wide_refuted: gradient at the wrong cell). The backward pass of MaxPool2D is C47. |
| C108 | A learning rate of zero, or the optimiser None, freezes the network | proved | 10, `P_Zero.v` | The learning-rate part is over the reals; C108_float_refuted shows it is false in single precision, where an infinite gradient times 0 is NaN. The part for the optimiser None is for every arithmetic. Convolution, max pooling, dropout, RRelu and recurrent layers are outside the quantifier. The exceptions are shown by computed witnesses. |
| C109 | A unit that no training sample makes react is not changed by training | proved | 6, `P_Dead.v` | Over the reals. The activation slope is the derivation function of the activation (related to the true derivative by C58). The limits are shown by computed witnesses (C109_moved_refuted, C109_deeper_refuted). |
| C110 | Hidden units that start equal stay equal through training, bit for bit | proved | 7, `P_Twin.v` | For every arithmetic (FOps), no law of arithmetic is used. The two Dense layers must be separated by exactly one activation layer; a random layer between them (Dropout, noise) is outside the statement. The limit is shown by a computed witness (C110_outgoing_refuted). |
| C111 | The order and the scale of hidden units do not show in the predictions | proved | 7, `P_Sym.v` | Over the reals; C111_order_float_refuted computes the single precision counterexample, C111_negative_refuted the one for negative factors. |
| C112 | Rewriting a network for inference does not change its predictions | proved | 10, `P_Fold.v` | The split layers must have sized parameters (a lazily sized Bias or Gain starts empty). C112_merge_float_refuted shows why the merges are stated over the reals. |
| C113 | An order-preserving last layer does not change the predicted classes | proved | 7, `P_Class.v` | Stated over the reals. C113_relu_refuted, C113_single_refuted and C113_softmax_float_refuted delimit it: not every activation, not one output, not single precision (given that expf(0) and expf(-2^-40) are both 1, as correct rounding gives). |

## 5. How the theorems were tested

`tools/mutgen.py` makes small edits to model definitions (comparisons, indices, constants, dropped assertions, swapped
arguments), `tools/mutate.py` rebuilds a scratch copy with each and records which theorem fails. Results are in
`seeded/LOG.jsonl`. Survivors are either equivalent programs or led to new theorems (listed there as tightened).

# Formal model of BeeDNN in Rocq - design

The C++ sources are in `/repo/src` (pinned, never modified, never run). The development is in `rocq/theories/`
(logical root `Verif`). `properties.jsonl` lists the properties in English, `MANIFEST.json` maps each to theorems,
`seeded/LOG.jsonl` logs the mutation experiments, `ASSUMPTIONS.md` lists the axioms under every theorem.
Section 4 of this file is generated by `tools/design.py` from the manifest.

## 1. How the code is modelled

* **Outcomes.** A C++ function becomes a total Gallina function returning `res A`:
  `Ok a`, or `Err e` with `e` one of `EOob` (access outside a buffer), `EAssert` (a failed `assert`;
  in a release build the code goes on into undefined behaviour), `ENull` (null dereference), `EFree`
  (use after free / double free), `EUninit` (an indeterminate value is used), `EDiv` (integer division by
  zero), `ECast` (conversion of a float that does not fit the integer type), `EThrow` (exception), `EFuel` (a loop that
  does not end). A theorem that concludes `Ok ...` therefore also says that no undefined behaviour and no failed assert occurs.
* **Scalars.** `MatrixFloat` holds `float`. The model is polymorphic in a record `FOps` of operations
  (`+ - * / <`, `exp`, `log`, ..., conversions); the record has *no law fields*, so a theorem `forall F : FOps, ...`
  makes no assumption about the arithmetic and holds for IEEE single precision, rounding, NaN and infinities included.
  Instances: `ROps` (real numbers; used wherever a statement is algebraic or about derivatives - "exact real
  arithmetic", i.e. rounding is *not* modelled there), `B32Ops` (Flocq's IEEE-754 binary32, used for float specific
  statements), `QOps`/`ZOps` (executable, used for examples and witnesses).
* **Fresh memory.** `new float[n]` is not initialised. Fresh cells hold `fjunk F`, a field of the operation record and
  hence an arbitrary value; a result that does not mention `fjunk` proves that every cell was written.
* **Matrices.** Value model (`Mat.v`): rows, columns, row-major list of cells; indices are `nat`, sizes that a user may
  pass negative are `Z`. A second, *pointer* model of `class Matrix` (`MatHeap.v`: blocks, pointers, view flag, new/delete)
  is used for aliasing, views and ownership (C02-C04). It is related to a pointer-free machine (`SpecHeap.v`) by a refinement.
* **Layer objects** live in a heap (`Net.v`): the address is an index, a deleted object leaves a hole; reading it is `EFree`.
  Used for `Net`, `NetTrain` and the meta-optimiser (pointer sharing, roll-back, leaks).
* **Threads.** `Meta.v` is a small-step interleaving semantics; schedules are arbitrary lists of thread numbers.
* **Loops** are `forL`/`forN` folds in the error monad, written in the order of the C++ loops.
* **Randomness** is an explicit argument (the sequence of draws); theorems hold for every sequence.
* **libm** functions are fields of `FOps`; in `ROps` they are the mathematical functions.
* The branch without Eigen (`USE_EIGEN` undefined), with assertions enabled, is modelled.

Files: `Base`, `Scalar`, `Mat*` (model and facts), one model file per C++ area, `Spec*` files containing only the
small specifications the theorem statements use, `P_*` files containing only theorem statements (closed by
`exact lemma`) followed by `Print Assumptions`, with an `Example` showing that the hypotheses are met by a concrete case.

## 2. Trusted base

* Coq 8.16.1 kernel (with `vm_compute`).
* Axioms: only those of the standard library. `ASSUMPTIONS.md` lists them theorem by theorem. Theorems over all `FOps`
  and those about integers, bytes, strings, heaps and schedules are closed. Theorems over the real numbers use the
  standard library's construction of the reals (`ClassicalDedekindReals.sig_forall_dec`, `sig_not_dec`,
  `functional_extensionality_dep`) and, through Coquelicot and Flocq, `Classical_Prop.classic`.
  Coquelicot and Flocq are used as libraries; they add no axioms of their own.
* The correspondence between the C++ text and the Gallina definitions, which is by reading; each definition cites file and lines.
* The generated parts of the `P_*.v` files need no trust: `tools/genp.py` copies the statement of a lemma into a theorem,
  Coq checks the result.

## 3. Which code is modelled

| source (`/repo/src`) | model | not modelled / simplified |
|---|---|---|
| `Matrix.h`, `Matrix.cpp` (values) | `Mat.v` | Eigen branch. Sizes are naturals: no `int` overflow. Only `float` (the template argument). `::abs` is a parameter `cabs`, because without `<cmath>`'s overloads `Matrix.h:421` calls the integer version |
| `Matrix.h` (storage) | `MatHeap.v` | allocation never fails; copy elision of returned views |
| `Matrix.cpp` text I/O | `Text.v` | printing, conversion and the indeterminate value are parameters (`show`, `conv`, `ind`); C locale; libstdc++'s `num_get` rules |
| `Activations.cpp` | `Act.v` | computations done in `double` inside a `float` function use the same operations (no double rounding) |
| `Layer*.cpp`, `Initializers.cpp` | `LayMat.v`, `LayImg.v`, `LayRnn.v`, `Layer.v`, `LayGlu.v` | max-pool positions are stored as floats, as in the code; convolutions whose output size would be negative are excluded by `convOk` |
| `Net.cpp` | `Net.v` | |
| `Loss.cpp`, `Optimizer.cpp`, `Regularizer.cpp` | `Loss.v`, `Optim.v`, `Regul.v` | decimal literals are exact quotients rounded once |
| `NetTrain.cpp` | `NetTrain.v` | the network is passed explicitly instead of through `_pNet`; `_pWeights` etc. are kept as the address of the owning layer; the epoch callback is an observer; batch sizes are naturals |
| `MNISTReader.cpp`, `CIFAR10Reader.cpp`, `DataSource.cpp` | `Reader.v` | files are byte lists; little-endian host; allocation succeeds |
| `CsvFileReader.cpp` | `Csv.v` | files are texts, file names are strings |
| `JsonFile.cpp`, `NetUtil.cpp` | `Json.v`, `JsonSave.v` | printing of floats is a parameter; bytes from 0x80 are ordinary characters |
| `MinMaxScaler.cpp`, `StandardScaler.cpp`, `Metrics.cpp` | `Scaler.v`, `Metrics.v` | |
| `KMeans.cpp`, `KMeansTrain.cpp` | `KMeans.v` | |
| `LayerFactory.cpp`, `MetaOptimizer.cpp` | `Meta.v` | one `NetTrain::fit` is one step: justified by `fit_own` (`MetaProofs1.v`) and `C75`/`C77`, which say a fit touches only objects of the thread's own network; the shared random engine is an arbitrary oracle (and a reported race) |

Not modelled: the Eigen build, thread creation and joining, wall-clock time, console output, the real file system, the
distribution of the random generators, the samples, the Python and Visual Studio glue.

## 4. Properties and outcomes

"partial" means that the property as first written is false of the code or proved under a restriction; the note says which.
Every `..._refuted` theorem carries a concrete witness; `..._partial` and `..._actual` theorems say what the code does instead.

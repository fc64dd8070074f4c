# rust_light: formal model and proofs (Rocq / Coq 8.16.1)

Source: `/repo` (OliverFM/rust_light at the pinned commit). Nothing of it is built or run here; the only tie
between theorem and code is the reading recorded in the comments of `rocq/theories/Model*.v`.

## 1. How the code is modelled

* `Base.v` – `outcome A := Ret a | Panic p | NoFuel` (a Rust computation: value, panic with its kind, or a fuelled
  loop of the model that ran out), Rust's `Result` as data (`result`), indexing that panics, the `Num` class
  (operations of `Numeric`/`Real`, no laws), list helpers.
* `ModelIndex.v` – `src/tensor/utils.rs`: `global_index`, `tensor_index`, `increment_index`, the two iterators.
* `ModelTensor.v` – `raw_tensor.rs`, `tensor_view.rs`, `tensor_like.rs`: constructors, `get`, `set`, views, scalar
  multiplication, equality.
* `ModelOps.v` – `functional/element_wise_ops.rs`, forward half of `functional/misc.rs`.
* `ModelJvp.v` – the backward rules (`add_jvp`, `generic_unary_jvp`, `tanh_derivative_outer`, `bmm_jvp`, `dot_jvp`,
  `ones`, `jvp_from_full_jacobians`, `SplitArrayWriter`).
* `ModelGraph.v` – `RcTensor` handles as positions in an append-only list of nodes (value + history), gradient cells
  as a map from handle to value, `update_grad`, `compute_jvp`, `backward`, the API as a command language.
* `ModelNN.v` – `nn/linear.rs`, `nn/feed_foward.rs`, `optim/sgd.rs`.
* `ModelPar.v` – small-step machines for the thread-level parts: `bmm_raw`'s tasks, `bmm_jvp`'s
  writers/channels/receivers on a worker pool, racing `update_grad`s.
* `ModelSched.v` – whole programs (`run`, `main_program`) in which every concurrent call goes as any run of its machine goes.
* `ModelHandle.v` – gradients as tensors with a history of their own (C54-C57).
* `ModelMain.v` – `main.rs`. `ModelCrash.v` – the state a panic leaves.
* `ModelApi.v` – the whole public interface: `RawTensor`s, views and `RcTensor`s in one program.
* `ModelInt.v` – machine integers as elements: wrapping (release) and checked (dev).
* `ModelConc.v` – threads that call `backward`, `update_grad`, `zero_grad` and `grad` on shared tensors, one step per lock operation.
* `ModelDrop.v` – reference counts, clones, ends of variables and the destruction of tensors, on top of `ModelHandle`.
* `ModelCost.v` – `compute_jvp` and `backward` with counters for updates and nesting.
* `ModelWord.v` – the index arithmetic with machine words (checked and wrapping).
* `ModelUsize.v` – every function that calculates with `usize`, up to whole programs, over checked, wrapping or unbounded words.

`RepoTests.v` transcribes the repository's own `#[test]`s (36 in `src`, 10 in `tests`) and runs them on the model: all pass (the assertions on
the last digits of `tanh` and the ignored training test excepted, as said in its header). It is evidence for the
model, not a source of claims.

`Spec.v` is the small independent specification (row-major position, in-range index, broadcasting, matrix product,
partial derivative). Proof files carry lemmas; `Properties*.v` contain only the property theorems, each followed by
`Print Assumptions`, with a non-vacuity `Example` beside it.

## 2. Modelling decisions (what is simplified)

* `usize` is `nat` (unbounded) except in `ModelWord.v` and `ModelUsize.v`; C86 says when that makes no difference. Subtractions that would underflow panic (`PArith`), as in the
  dev profile that `cargo test` uses; `debug_assert` is modelled as `assert`.
* Element arithmetic is total: `T`'s `+`, `*`, ... never panic (floats; integers without overflow).
* `Vec::with_capacity` allocation, memory exhaustion, bytes of stack (ModelCost counts the nested calls of `compute_jvp`), formatting
  (`Debug`, `Display`), error strings (only the kind of error is kept) are not modelled.
* In `ModelGraph` a gradient cell stores the gradient's value. In the code it stores an `RcTensor` with a history and a
  cell of its own; `ModelHandle` models that, and C54 proves that programs which use gradients as values cannot tell.
* In `ModelGraph` a panic ends the program; `ModelCrash` describes the state a caught panic leaves behind (C61).
* `powi(2)` is `x*x`. `format!(..)` debug info of `Derivative` is dropped.

## 3. Properties: what is modelled and how it is proved

| id | model | method |
|----|-------|--------|
| C01-C05 | `get`, `global_index`, `tensor_index`, iterators | closed form of `global_index` by induction on the reversed zip; iteration = `map unravel (seq 0 size)` by induction |
| C03, C06 | same | refuted by witness; the true statement for non-empty shapes proved |
| C07, C08 | constructors, nested `From` | direct; nested induction |
| C09, C10 | `ModelWord` | bound invariant on `global_idx`, `multiplier`; C10 refuted by `[2^32;2^32]`, proved for checked arithmetic |
| C11, C12 | views | closed form of `global_index` with offsets |
| C13-C16 | views | expected to be false of the code: `_refuted` witnesses plus the part that holds |
| C17-C20 | `generic_binop_raw`, `generic_unary_op` | fold over all indices; spec = numpy broadcasting relation |
| C19 | same | refuted by witness |
| C21-C24 | unary ops, `Mul`, `sum` | fold lemmas, ring laws as hypotheses |
| C23 | scalar * view | refuted by witness |
| C25, C27 | `bmm_raw` | closed form of each element, then ring algebra on sums |
| C26 | `ModelPar` task machine | every complete run = sequential result (slots disjoint) |
| C28, C30 | `bmm_raw`, `dot_raw` | refuted by witness, true part proved |
| C29 | `dot_raw` | fold |
| C31 | whole graph model over `R` | reverse accumulation = forward tangent (any commutative ring), forward tangent = derivative (`derivable_pt_lim`) |
| C32 | each JVP | accumulate-at lemma + finite sums in a ring |
| C33 | `SplitArrayWriter` | exact storage permutation; refuted for > 32 elements, proved for <= 32 |
| C34, C35, C38, C42 | graph | refuted by witness, true part proved |
| C36, C37, C39, C40, C41 | command language | invariants by induction over commands / recursion depth |
| C43 | `ModelPar` channel machine | invariant: delivered + in flight + unsent is a permutation of all messages |
| C44 | channel machine over `SpecFloat` binary32 | refuted: two complete runs with different results; one worker: sequential result; any schedule: every entry is a sum of its contributions in some order, hence within twice the rounding error (Flocq formats) |
| C45 | pool machine | FIFO: progress + decreasing measure; arbitrary order: reachable stuck state (refuted) |
| C46 | update race machine | refuted by a schedule; serial schedules and the subset-sum bound proved |
| C47-C50 | `ModelNN` | composition of the above; C50 refuted with the exact growth |
| C51, C52 | equality, deep_clone | direct / graph reachability |
| C53 | C31 + C47 + C49 | composition |
| C54 | `ModelHandle` vs `ModelGraph` | simulation: a map between the tensors of both heaps, injective on the tracked ones |
| C55, C56 | `ModelHandle`, `ModelGraph` | tensors are append-only; the value [grad] returns is read off the call (ClaimsCall); C56 refuted, growth proved by induction on the contributions |
| C57 | `ModelHandle` | invariant: closed and acyclic references; new tensors point backwards, a cell is set to a tensor that does not reach its owner |
| C58 | C53 over `R` | derivative of the network along a curve of parameters, by induction over the layers, linear in the direction; the direction of the step is minus the gradient |
| C59 | elements are the floats of a Flocq format | induction over the sum: after k roundings the error is at most ((1+u)^k - 1) times the magnitude; C24, C25, C29 say which sums are computed, C44 the same for any schedule |
| C60 | ModelMain: main.rs with the drawn numbers as arguments | invariant of the loop (SpecLoop: sound heap, network of the right shapes in it, no `dot` in the histories) kept by one round; C41's success of `backward` and the fact that the loss uses every parameter give `sgd_step` its gradients |
| C61 | ModelCrash: calls return the gradient cells they leave, also when they panic | agreement with ModelGraph by induction over the recursion; what is left is the result of a list of updates below the root, then the invariants as for C39/C40 |
| C62 | ModelApi: values of three kinds over the heap of ModelGraph, one case per public function and kind of receiver | each call extends the heap or writes cells below its receiver (case analysis), invariants by induction over programs; simulation of ModelGraph programs |
| C63 | ModelApi, `unshares` relates a history with copies to one without | the two backward passes make the same updates up to renaming (induction on both fuels at once), then sums over a ring |
| C64 | ModelCost: compute_jvp with a counter of update_grad calls; a path is the list of input numbers taken | the count is the length of a duplicate-free list of all paths (induction on fuel); doubling program by induction on its length |
| C65 | ModelCost: the same with the nesting depth | depth is the length of the longest path; the chains of C50 are paths |
| C66 | SpecParam: relations between two element types, lifted to tensors, heaps, programs | one lemma per function of the model (ParamFacts), instance: the total relation |
| C67 | ModelInt: arithmetic modulo M | instance of C66's theorem with "equal after wrapping" |
| C68 | ModelInt: arithmetic with an overflow mark; SpecParam: exact value with a bound | instances "marked or exact" and "good while the bound fits"; counterexamples by computation |
| C69 | SpecRound's IEEE floats; SpecParam's bounds | instance "a whole number, exactly"; whole numbers up to 2^p are in the format |
| C70 | ModelDrop: a count per tensor, changed by each call, clone and drop; SpecDrop: references that exist | invariant "count = references" kept by release of any count of references, by induction on the number of live tensors; simulation with the run that keeps everything |
| C71 | as C70; SpecHandle's `holds` | from the invariant: follow references backwards; acyclicity from C57; counterexample by computation |
| C72 | ModelDrop: depth of nested `release` | each level destroys another tensor; induction on the chain |
| C73 | ModelTensor: `raw_set`, `raw_at`, `tl_elem`, ...; Spec's `resolves` | characterisation of `global_index` (C02); row-major positions are injective |
| C74 | ModelConc: `advance`, `conc_run`, `backward_calls`; SpecConc's `alone` | invariant: a thread that shares no cell is where it would be alone; `compute_jvp` = its list of updates; for shared cells: the cell holds the sum of distinct contributions of finished instructions; witnesses by computation |
| C75 | ModelConc: `may_read`, `may_write`, `advance` | a holder of a lock never waits for another; a weight that every step lowers; exclusion as an invariant |
| C76 | ModelGraph: `exec`; SpecShape's rules `shaped` | each call's value from its operands' values; for each operation: the rule gives success and shape, no rule gives a panic; induction on the program |
| C77 | ModelGraph: `backward`, `compute_jvp`, `jvp`; SpecFlow's rules `hands_on`, `gets_through` | each backward rule succeeds with the named shapes if the gradient has a named shape, and with a wrong count or a panic otherwise; induction on the traversal both ways, with an invariant on the shapes of gradients (one row, the tensor's own, or [1;1;n]) |
| C78 | ModelJvp: `bmm_jvp`; ModelOps: `bmm_raw` | corollary of C77: the backward rule of bmm fails for a left factor of rank 3 or more unless all its dimensions are 1 (`deep_only`) |
| C79 | ModelGraph: `run`; ModelMain: `main_program`; SpecError's `ErrNum`, `IntNum` | the relation "float within the bound" is respected by + and * (Flocq) and by abs/relu where the sign is known; relational induction on the program (`branching`); C31 for gradients; rational intervals enclose the bounds in the same way |
| C80 | ModelSched: `run_any`, `main_program_any` | nondeterministic programs related to the deterministic ones by relational induction; the runs of `bmm_jvp`'s machine deliver some permutation of the messages (C43), which a commutative, associative addition cannot see; for floats, relate to an arithmetic that knows nothing; refuted by a two-worker run |
| C81 | ModelSched: `run_any`, `main_program_any`; SpecSpread's `SpreadNum`, `SivalNum` | an error bound whose addition is associative and commutative (value, magnitudes, errors and number of additions are summed separately); the simulation of C80 with the known-sign condition of C79 (`s_branching`); rational intervals, rounded outwards, cover the bounds; whole numbers as in C69 |
| C82 | SpecFrozen: `frozen`, `refreeze` | the linear rules of the frozen operations are the rules of the code, so the reachability argument of C52/C77 applies to a computation that is differentiable everywhere; agreement near points without kinks; refuted variant by a witness |
| C83 | SpecKeep: `kept_loss`, `kept_step`, `kept_descent` | C82 applied to the graph of one round (C53 without its smoothness hypothesis), recomputation of the frozen graph gives the kept loss; induction over the samples |
| C84 | SpecRegret: `rounds`, `dist2`, `slope2` | the kept loss of C83 is affine in the parameters, touches the loss and lies below it, so its derivatives are a subgradient; the usual telescoping of squared distances over the rounds |
| C85 | SpecLocal: `same_history`, `same_gradients`, `nonempty_above`, `matrices_above` | induction over the calls of the derivative functions along the history, with a renaming; the heap with everything else blanked out is a second heap with the same history, so C77 and C31 of that heap carry over; re-evaluation of unused tensors does not change the root |
| C86 | ModelUsize: every function that calculates with `usize`, over a class of word operations (`checked`, `wrapping`, `unbounded`) | one parametricity argument (UsizeFacts, `r_run`): related operations give related programs; with unbounded operations the program is the one of ModelGraph (`n_run`); small tensors: bounds on partial products, offsets and jacobian sizes through forward and backward pass (UsizeSmall) |
| C87 | ModelRust: a small imperative language with Rust's statements and its meaning; ModelKernel: 54 functions of the crate as programs in it | one refinement lemma per function (RustFacts, RustBmm, RustMore), each assuming its callees' specifications; RustLink discharges those for the linked program; loop lemmas by induction with invariants on the store; bmm_jvp (RustJvp) by a simulation between queues emptied at the end and messages delivered at once (QueueFacts) |
| C88 | ModelMachine: the calls of ModelGraph, every calculation done by running the statements of ModelKernel | MachineFacts: each call eventually (in the number of turns) behaves like the model's, through a composition lemma for sequences and recursion; parametricity in the kind of word for overflow checks and release builds; RustLim, MachineLim: words wide enough, by a limit over word lengths carried through the semantics of the small language; MachineSmall: each call whose word-level model (ModelUsize) returns does so by its statements too, so C86's bound on sizes gives a word length |
| C89 | ModelMachineNN: layers, networks, sgd_step, the loop and main.rs over the calls of ModelMachine | MachineNN: the model's training over named activations equals ModelNN.train and ModelMain.main_program; the composition lemmas of C88 for turns and word lengths; RustMono: a program that ended does the same with more turns; MachineSmallNN: training keeps all tensors scalars or matrices of at most D rows and columns, so C86's bound holds through every round |

## 4. Trusted base

* Coq 8.16.1's kernel (`coqc`; `coqchk -o` on all compiled files), including `vm_compute`, which evaluates examples and
  the witnesses of refuted properties.
* The reading of the Rust source: that each definition in `Model*.v` does what the cited lines do. No proof covers
  this; the comments exist so that it can be checked line by line, and section 2 says what is simplified.
* The statements in `Properties*.v` together with the definitions they use from `Spec*.v`.
* Axioms: none of our own. `AXIOMS.md` (written by `tools/mkaxioms.py`) lists the output of `Print Assumptions` for each
  theorem. Most are closed under the global context. Theorems over the reals (C31, C53, C58) use the three axioms
  behind the standard library's `R`; the rounding theorems (C59, part of C44) use `classic` as well, through Flocq.
* Libraries: the standard library; Flocq for the formats of C44/C59. No other library is imported.

## 5. What is and what is not modelled

All functions of `src/` outside `#[cfg(test)]` are modelled except:

* `Debug`/`Display` (`rc_tensor.rs:137`), and the texts of error messages;
* `new_empty` (`rc_tensor.rs:77`, an empty array with a given shape) and `todo_backward`,
  `todo_deriv` (`functional/misc.rs:11-21`, placeholders), which nothing calls;
* trait method declarations without a body; their implementations are modelled where they are.

Outside the model:

* memory: allocation failure, size of a `Vec`, bytes of stack (nesting of calls is C65, of destructors C72);
* the memory model of Rust below locks and channels: a step of a thread in `ModelPar` and `ModelConc` is atomic; poisoned locks
  (no panic happens under a write guard, `ModelConc.v`);
* `rand`: drawn numbers are arbitrary arguments; `rayon`'s scheduler: any schedule of its tasks;
* element arithmetic is total in the model; overflow of integer elements (`i32`, ...) is C67 and C68;
* floats: theorems that need no laws hold for `f32`/`f64` as for any element type; theorems with `is_ring` do not apply
  to floats; C59 and part of C44 say how far off floats can be; the witness of C44 computes in IEEE binary32.

Each table row in section 3 names properties with status `partial` in `MANIFEST.json` where the code does not have the
property: the `_refuted` theorem is a counterexample found by reading the code, and the other theorems of the same
property say what does hold. `seeded/LOG.jsonl` records the edits of the model that were tried against the theorems.

NOTES.update({
 'C34': ('partial', 'False of the code: the rule of sum ignores the incoming gradient (witness; proved for every tensor that (-(x.sum())).backward() gives +1). x.sum().backward() is proved right.'),
 'C35': ('partial', 'False of the code: products carry no history (witness; proved that no product passes any gradient on).'),
 'C36': ('proved', 'Entry by entry, over any ring; that the contribution includes every use of the tensor is part of C31.'),
 'C37': ('proved', 'Programs in which only backward calls update_grad.'),
 'C38': ('partial', 'False of the code: sum() presets the gradient of its result with ones of the summed shape (witness and exact behaviour). Holds after zero_grad.'),
 'C39': ('proved', ''),
 'C40': ('partial', 'False of the code for scalar * view (witness); proved for all programs that do not multiply a rank-0 tensor by a view.'),
 'C41': ('proved', ''),
 'C42': ('partial', 'False of the code: backward always panics at an abs or bmm root (proved); dot roots over leaves or rows succeed (proved); other dot uses panic (witnesses).'),
 'C52': ('proved', ''),
})
NOTES.update({
 'C32': ('partial', 'False of the code for bmm gradients with more than 32 entries (witness). Proved for add, neg, abs, relu, tanh, bmm up to 32 entries per gradient, and dot for the gradients its rule accepts.'),
 'C33': ('partial', 'False of the code above 32 entries (witness). The exact shuffled gradient is proved for all sizes, and that it is right exactly up to 32 entries.'),
})
NOTES.update({
 'C31': ('partial', 'False of the code as stated, because of bmm gradients above 32 entries (witness over the reals). Proved for every program whose bmm operands have at most 32 entries, also for roots that are one-element combinations of sums, or dot; gradients are present exactly for the leaves the root uses.'),
})
NOTES.update({
 'C47': ('proved', 'Any number of layers; activations none, relu, tanh, abs, neg. For other functions the layer is proved to hand its affine value to them.'),
 'C48': ('proved', ''),
 'C49': ('proved', 'The element operations are the ones of the code (negation, addition); over a ring this is p - step*grad.'),
 'C50': ('partial', 'False of the code: the difference p - step*grad keeps its history (witness). Proved for all numbers of rounds: after k rounds every parameter still refers to k+1 tensors, memory grows by three tensors per parameter and round at least, and backward reaches the parameters of all earlier rounds.'),
})
NOTES.update({
 'C53': ('proved', 'One round, and any number of rounds on any samples (training is gradient descent, the graph of earlier rounds does not disturb it). Real arithmetic. C53_large_refuted shows that the bound of 32 entries is needed.'),
})
NOTES.update({
 'C09': ('proved', 'Also for views in the release profile; in the dev profile a view lookup can overflow instead of reporting Err when a coordinate is near the largest word (C09_view_overflow_refuted). Zero dimensions are excluded in the statement and do overflow (proved).'),
 'C10': ('partial', 'False of the code in the release profile (witness [2^32,2^32]); the exact condition there is proved. Holds in the dev profile (proved).'),
})
NOTES.update({
 'C26': ('proved', 'Any element type. A run in which several tasks panic may report another of the panics.'),
 'C43': ('proved', 'Two matrices with non-zero dimensions and well-formed gradients; any number of workers, jobs started in order or not.'),
 'C44': ('partial', 'False of the code: two runs with two workers give different float gradients (witness in IEEE binary32). Proved for any arithmetic: with one worker and jobs started in order the result is the sequential one; in general every message is applied exactly once, so each entry is the sum of its contributions in some order, and for IEEE floats two schedules differ by at most twice the rounding error of one sum (C44_within_rounding).'),
 'C45': ('partial', '(a) proved: jobs started in order, any number of workers. (b) false of the code (witness); the exact bound is proved: in any order the scope ends when there are more workers than 32-entry pieces, and a deadlock is reachable otherwise.'),
 'C46': ('partial', 'False of the code: update_grad releases its read lock before it writes (witness of a lost update). Proved: the full sum when no two threads are between read and write; in general some contributions, each at most once.'),
})
NOTES.update({
 'C54': ('proved', 'C54_all_programs_refuted shows that the restriction is needed: backward on a gradient that is a sum works, and reaches tensors passed to update_grad.'),
 'C55': ('proved', ''),
 'C56': ('partial', 'False of the code (witness: two backward passes). Proved: a gradient refers to all contributions since its cell was empty, and grows by one tensor per contribution.'),
 'C57': ('proved', 'Also for an explicit update_grad whose argument does not refer to the receiver; x.update_grad(x) does create a cycle (C57_with_update_grad_refuted).'),
})
NOTES.update({
 'C58': ('proved', 'Exact real arithmetic, away from kinks, matrices of at most 32 entries (as C53). That the step must be small is shown by C58_any_step_refuted.'),
})
NOTES.update({
 'C59': ('proved', 'IEEE formats through Flocq, one NaN; gradients of bmm for two matrices with non-zero dimensions.'),
 'C60': ('proved', 'Panics only: memory, stack depth (C50) and a deadlock of the thread pool (C45) are outside. The random generator of main.rs is any source of values.'),
 'C61': ('partial', 'False of backward: it may panic after having changed gradients (witness). Proved: all other calls leave no trace; what a failing backward can change; invariants and success of later calls after any caught panics; zero_grad restores.'),
})
NOTES.update({
 'C62': ('partial', 'False in one respect: RawTensor::default() and scaling a view make tensors whose array does not fit the shape (witness). All else is proved, and well-formedness without those two calls.'),
 'C63': ('partial', 'False of the code: x.bmm(&*w) records a hidden copy of w, which gets the gradient (witness). Proved: the gradient of a tensor is the sum of those of its copies (over rings), the same without other copies (any arithmetic), backward of a copy, and which calls record a history. The tensor returned by grad() is treated as a value here; its own history is in C54-C57.'),
})
NOTES.update({
 'C64': ('partial', 'False of the code: one update per path, and there may be exponentially many (witness, for every size). Proved: the exact number, the worst case, and the bound where no tensor is used twice.'),
 'C65': ('partial', 'False of the code: the depth is the length of the longest path, which grows with every training round (C50). Counted are nested calls, not bytes of stack.'),
 'C66': ('proved', 'Parametricity of the whole tensor model, including backward, training and main.rs. Arithmetic is total here: overflow panics of checked integers are C68.'),
 'C67': ('proved', 'Any number of values and any smallest value. ModelInt states what integers do.'),
 'C68': ('partial', 'False of the code: a - b is a + (-b), and sums overflow in between (witnesses in i8). Proved: no wrong values, and no overflow if the run on magnitudes fits. The panic is modelled as a mark that spreads.'),
 'C69': ('proved', 'For all precisions and exponent ranges (Flocq); tanh, which has no whole values, is left out.'),
})
NOTES.update({
 'C70': ('proved', 'Sequential programs over ModelHandle; clones share tensors. Temporaries inside a call are folded into the call.'),
 'C71': ('partial', 'False of the code: a tensor given to its own update_grad, or to that of one of its operands, is never destroyed (witness). Proved: exact for programs that do not call update_grad themselves; with it, what is alive is reached from a variable or from a cycle.'),
 'C72': ('partial', 'False of the code: a chain of n operations is destroyed in n + 1 nested drops (proved for every n). Proved: at most as deep as there are tensors. Counted are nested drops, not bytes of stack.'),
})
NOTES.update({
 'C73': ('proved', 'set and get_first_elem for shapes without zero dimensions (with one there is no element).'),
})
NOTES.update({
 'C74': ('partial', 'False of the code: two backward calls on losses that share a parameter can lose an update (witness, for both lock policies), and grad can panic because of a zero_grad of another thread. Proved: a thread whose cells no other thread changes behaves as alone in every interleaving, and others see in them what it left after whole calls; so do threads on separate graphs; a shared gradient is the old one plus some of the updates, each at most once.'),
 'C75': ('proved', 'Lock operations are atomic steps (sequentially consistent); forward operations take no lock and are left out.'),
})
NOTES.update({
 'C77': ('proved', 'The graphs C41 and C42 name are instances; batches of matrices are C78. Empty tensors are left out.'),
 'C78': ('partial', 'False in general: backward panics on any graph with a batch of more than one element (C78_panics); exact for sums of such products.'),
 'C76': ('proved', 'Without gradient calls (C41, C60) and without scaling a view, which can make an ill-formed tensor (C23). Ranks above 3 on the left of bmm have the rule of what the code does (C28).'),
})
NOTES.update({
 'C79': ('proved', 'Flocq formats, rounding to nearest; tanh is any function with a given error. Known signs are needed (C79_unknown_signs_refuted). The error of the bound is not itself optimal.'),
})
NOTES.update({
 'C80': ('partial', 'False for floats on two or more workers (witness: a program with two different gradients). Proved: exact additions and one worker give the sequential result; floats take the same course under every schedule. Which of several panics is passed on is left open.'),
})
NOTES.update({
 'C81': ('proved', 'Flocq formats, rounding to nearest; tanh is any function with a given error; signs must be known, as in C79. The bound counts one rounding for every addition, also of zero.'),
})
NOTES.update({
 'C82': ('proved', 'Real numbers. The refuted variant (the derivative whenever there is one) is C82_derivative_if_there_is_one_refuted.'),
 'C83': ('proved', 'Real numbers; matrices of at most 32 entries, as in C53 (C33). The refuted variant (a fitted network stays) is C83_fitted_network_stays_refuted.'),
})
NOTES.update({
 'C84': ('proved', 'Real numbers; one layer, no activation (with one the loss is not convex); matrices of at most 32 entries, as in C53 (C33).'),
})
NOTES.update({
 'C85': ('proved', 'Any numbers; c85_gradient over the real numbers. The states are those reachable by programs without update_grad where C77 and C31 need it.'),
})
NOTES.update({
 'C86': ('partial', 'Proved: with overflow checks every program does what the model does or panics on overflow; a returning checked run equals the unchecked one; tensors of at most B elements with B*B below the number of words never overflow. Refuted for builds without overflow checks: a constructor accepts an empty array for dimensions [2; 2^(w-1)].'),
})
NOTES.update({
 'C87': ('proved', 'The crate\'s loops as abstract syntax of a small Rust (ModelRust, ModelKernel) refine the functions of ModelUsize, and with unbounded numbers those of the functional model. For bmm_raw the product of the new shape must not wrap silently (always so with overflow checks). Tasks spawned on rayon run in order here; C26 shows that their order does not matter. For bmm_jvp, whose messages wait in queues before they are added, the claim is about what is returned and that both panic alike, not which panic comes first.'),
})
NOTES.update({
 'C88': ('proved', 'Calls in ModelMachine compute by running ModelKernel\'s statements; only the graph (who is whose input, recursion over inputs) stays outside the small language. Relates to the model for every program from the empty state; panics are related as panics, not by kind. Numbers of turns are bounded per program (existential). C88_small and C88_bits leave out &x * &view and gradients set by hand (tidy programs), like C86_small.'),
})
NOTES.update({
 'C89': ('proved', 'Layers with named activations (none, relu, tanh, abs, neg) so that the activation too is run by the statements; any other function a user passes is covered by the model (C49, C60) only. Numbers of turns are existential; an explicit word length is given by C89_small, C89_main_small and C89_main_bits, whose step is a scalar tensor. main.rs without its random generator and printing.'),
})

{
 "claims": [
  {
   "property": "C01",
   "status": "proved",
   "theorems": [
    "C01_get_row_major"
   ]
  },
  {
   "property": "C02",
   "status": "proved",
   "theorems": [
    "C02_get_total",
    "C02_get_ok_iff",
    "C02_leading_ignored"
   ]
  },
  {
   "property": "C03",
   "status": "partial",
   "theorems": [
    "C03_get_never_panics_refuted",
    "C03_get_empty_full_index"
   ],
   "note": "False of the code: get(&[]) on shape [0] panics (witness proved). Holds on empty tensors for indices covering every dimension."
  },
  {
   "property": "C04",
   "status": "proved",
   "theorems": [
    "C04_position_bijection"
   ]
  },
  {
   "property": "C05",
   "status": "proved",
   "theorems": [
    "C05_iter_indices"
   ]
  },
  {
   "property": "C06",
   "status": "partial",
   "theorems": [
    "C06_iter_empty_refuted",
    "C06_iter_empty_always_panics"
   ],
   "note": "False of the code: iterating any tensor with a zero dimension panics (proved for all such tensors)."
  },
  {
   "property": "C07",
   "status": "proved",
   "theorems": [
    "C07_new_iff",
    "C07_filler_scalar",
    "C07_rc_new"
   ]
  },
  {
   "property": "C08",
   "status": "proved",
   "theorems": [
    "C08_from_nested"
   ]
  },
  {
   "property": "C09",
   "status": "proved",
   "theorems": [
    "C09_positions",
    "C09_built_positions",
    "C09_view_positions",
    "C09_view_overflow_refuted",
    "C09_zero_dimension_overflows",
    "C09_increment",
    "C09_increment_zero_dimension",
    "C09_tensor_index"
   ],
   "note": "Also for views in the release profile; in the dev profile a view lookup can overflow instead of reporting Err when a coordinate is near the largest word (C09_view_overflow_refuted). Zero dimensions are excluded in the statement and do overflow (proved)."
  },
  {
   "property": "C10",
   "status": "partial",
   "theorems": [
    "C10_wrapping_refuted",
    "C10_wrapping_exact",
    "C10_checked",
    "C10_checked_positive",
    "C10_wrapped_get_panics"
   ],
   "note": "False of the code in the release profile (witness [2^32,2^32]); the exact condition there is proved. Holds in the dev profile (proved)."
  },
  {
   "property": "C11",
   "status": "proved",
   "theorems": [
    "C11_view_accepted",
    "C11_view_of_new_ranges",
    "C11_view_get"
   ],
   "note": "A range with end < start panics by subtraction overflow (debug arithmetic)."
  },
  {
   "property": "C12",
   "status": "proved",
   "theorems": [
    "C12_view_materialise",
    "C12_view_eq"
   ]
  },
  {
   "property": "C13",
   "status": "partial",
   "theorems": [
    "C13_view_get_err_refuted",
    "C13_view_get_exact"
   ],
   "note": "False of the code: TensorView::get unwraps and panics (witness). Exact behaviour proved."
  },
  {
   "property": "C14",
   "status": "partial",
   "theorems": [
    "C14_slice_of_view_refuted",
    "C14_slice_of_view_is_slice_of_tensor",
    "C14_slice_exactly"
   ],
   "note": "False of the code: slicing a view slices the underlying tensor (witness and exact behaviour proved)."
  },
  {
   "property": "C15",
   "status": "partial",
   "theorems": [
    "C15_reshape_refuted",
    "C15_reshape_leading_ones"
   ],
   "note": "False of the code: reshape does not re-index (witness). Adding leading ones is proved correct."
  },
  {
   "property": "C16",
   "status": "partial",
   "theorems": [
    "C16_view_broadcast_refuted",
    "C16_view_broadcast"
   ],
   "note": "False of the code for size-1 windows of larger dimensions (witness); holds otherwise, as proved."
  },
  {
   "property": "C17",
   "status": "proved",
   "theorems": [
    "C17_add_broadcast",
    "C17_rc_add"
   ]
  },
  {
   "property": "C18",
   "status": "proved",
   "theorems": [
    "C18_add_comm",
    "C18_add_assoc",
    "C18_add_zero"
   ]
  },
  {
   "property": "C19",
   "status": "partial",
   "theorems": [
    "C19_add_empty_refuted",
    "C19_add_empty_always_panics"
   ],
   "note": "False of the code (witness); proved that addition with any zero dimension always panics."
  },
  {
   "property": "C20",
   "status": "proved",
   "theorems": [
    "C20_call_sub",
    "C20_neg",
    "C20_sub",
    "C20_sub_self"
   ]
  },
  {
   "property": "C21",
   "status": "proved",
   "theorems": [
    "C21_elementwise",
    "C21_rc_elementwise"
   ]
  },
  {
   "property": "C22",
   "status": "proved",
   "theorems": [
    "C22_mul"
   ]
  },
  {
   "property": "C23",
   "status": "partial",
   "theorems": [
    "C23_scale_view_refuted",
    "C23_scale_full_view"
   ],
   "note": "False of the code (witness); holds for whole-tensor windows."
  },
  {
   "property": "C24",
   "status": "proved",
   "theorems": [
    "C24_sum",
    "C24_sum_ring"
   ]
  },
  {
   "property": "C25",
   "status": "proved",
   "theorems": [
    "C25_bmm_rank2",
    "C25_bmm_rank3",
    "C25_bmm_refused"
   ]
  },
  {
   "property": "C26",
   "status": "proved",
   "theorems": [
    "C26_schedule_independent",
    "C26_rows_end",
    "C26_written_once"
   ],
   "note": "Any element type. A run in which several tasks panic may report another of the panics."
  },
  {
   "property": "C27",
   "status": "proved",
   "theorems": [
    "C27_bmm_assoc",
    "C27_bmm_distr",
    "C27_bmm_identity"
   ]
  },
  {
   "property": "C28",
   "status": "partial",
   "theorems": [
    "C28_bmm_rank4_refuted",
    "C28_bmm_high_rank"
   ],
   "note": "False of the code: shape [1,1,n,k] gives only row 0 (witness); the exact behaviour for all ranks >= 4 is proved."
  },
  {
   "property": "C29",
   "status": "proved",
   "theorems": [
    "C29_dot"
   ]
  },
  {
   "property": "C30",
   "status": "partial",
   "theorems": [
    "C30_dot_view_refuted",
    "C30_dot_full_view",
    "C30_dot_view_exact"
   ],
   "note": "False of the code (witness); holds for whole-tensor windows; exact behaviour proved."
  },
  {
   "property": "C31",
   "status": "partial",
   "theorems": [
    "C31_backward_is_gradient",
    "C31_program_gradient",
    "C31_sum_programs",
    "C31_all_sizes_refuted"
   ],
   "note": "False of the code as stated, because of bmm gradients above 32 entries (witness over the reals). Proved for every program whose bmm operands have at most 32 entries, also for roots that are one-element combinations of sums, or dot; gradients are present exactly for the leaves the root uses."
  },
  {
   "property": "C32",
   "status": "partial",
   "theorems": [
    "C32_rules_exact_refuted",
    "C32_rules_exact",
    "C32_dot_rule"
   ],
   "note": "False of the code for bmm gradients with more than 32 entries (witness). Proved for add, neg, abs, relu, tanh, bmm up to 32 entries per gradient, and dot for the gradients its rule accepts."
  },
  {
   "property": "C33",
   "status": "partial",
   "theorems": [
    "C33_bmm_gradient_shuffled",
    "C33_place",
    "C33_small_matrices",
    "C33_all_sizes_refuted"
   ],
   "note": "False of the code above 32 entries (witness). The exact shuffled gradient is proved for all sizes, and that it is right exactly up to 32 entries."
  },
  {
   "property": "C34",
   "status": "partial",
   "theorems": [
    "C34_sum_scales_refuted",
    "C34_neg_sum_gives_ones",
    "C34_rule_ignores_gradient",
    "C34_plain_sum"
   ],
   "note": "False of the code: the rule of sum ignores the incoming gradient (witness; proved for every tensor that (-(x.sum())).backward() gives +1). x.sum().backward() is proved right."
  },
  {
   "property": "C35",
   "status": "partial",
   "theorems": [
    "C35_products_refuted",
    "C35_product_has_no_history",
    "C35_product_gets_no_gradient"
   ],
   "note": "False of the code: products carry no history (witness; proved that no product passes any gradient on)."
  },
  {
   "property": "C36",
   "status": "proved",
   "theorems": [
    "C36_backward_adds",
    "C36_backward_k_times",
    "C36_zero_grad",
    "C36_backward_again"
   ],
   "note": "Entry by entry, over any ring; that the contribution includes every use of the tensor is part of C31."
  },
  {
   "property": "C37",
   "status": "proved",
   "theorems": [
    "C37_gradient_shape"
   ],
   "note": "Programs in which only backward calls update_grad."
  },
  {
   "property": "C38",
   "status": "partial",
   "theorems": [
    "C38_sum_gradient_refuted",
    "C38_sum_preset",
    "C38_sum_gradient_shape"
   ],
   "note": "False of the code: sum() presets the gradient of its result with ones of the summed shape (witness and exact behaviour). Holds after zero_grad."
  },
  {
   "property": "C39",
   "status": "proved",
   "theorems": [
    "C39_tensors_never_change",
    "C39_forward_keeps_gradients",
    "C39_update_and_zero_grad",
    "C39_backward_touches_ancestors"
   ]
  },
  {
   "property": "C40",
   "status": "partial",
   "theorems": [
    "C40_well_formed_refuted",
    "C40_well_formed",
    "C40_programs_without_view_products"
   ],
   "note": "False of the code for scalar * view (witness); proved for all programs that do not multiply a rank-0 tensor by a view."
  },
  {
   "property": "C41",
   "status": "proved",
   "theorems": [
    "C41_programs_terminate",
    "C41_backward_terminates",
    "C41_fails_at_once",
    "C41_backward_succeeds",
    "C41_elementwise_succeeds"
   ]
  },
  {
   "property": "C42",
   "status": "partial",
   "theorems": [
    "C42_one_element_roots_refuted",
    "C42_abs_root_fails",
    "C42_bmm_root_fails",
    "C42_dot_root_succeeds"
   ],
   "note": "False of the code: backward always panics at an abs or bmm root (proved); dot roots over leaves or rows succeed (proved); other dot uses panic (witnesses)."
  },
  {
   "property": "C43",
   "status": "proved",
   "theorems": [
    "C43_schedule_independent",
    "C43_no_job_panics",
    "C43_each_message_once"
   ],
   "note": "Two matrices with non-zero dimensions and well-formed gradients; any number of workers, jobs started in order or not."
  },
  {
   "property": "C44",
   "status": "partial",
   "theorems": [
    "C44_deterministic_refuted",
    "C44_one_worker",
    "C44_some_order",
    "C44_within_rounding"
   ],
   "note": "False of the code: two runs with two workers give different float gradients (witness in IEEE binary32). Proved for any arithmetic: with one worker and jobs started in order the result is the sequential one; in general every message is applied exactly once, so each entry is the sum of its contributions in some order, and for IEEE floats two schedules differ by at most twice the rounding error of one sum (C44_within_rounding)."
  },
  {
   "property": "C45",
   "status": "partial",
   "theorems": [
    "C45_in_order_ends",
    "C45_runs_are_finite",
    "C45_any_order_refuted",
    "C45_any_order_bound"
   ],
   "note": "(a) proved: jobs started in order, any number of workers. (b) false of the code (witness); the exact bound is proved: in any order the scope ends when there are more workers than 32-entry pieces, and a deadlock is reachable otherwise."
  },
  {
   "property": "C46",
   "status": "partial",
   "theorems": [
    "C46_no_lost_update_refuted",
    "C46_some_are_kept",
    "C46_one_at_a_time"
   ],
   "note": "False of the code: update_grad releases its read lock before it writes (witness of a lost update). Proved: the full sum when no two threads are between read and write; in general some contributions, each at most once."
  },
  {
   "property": "C47",
   "status": "proved",
   "theorems": [
    "C47_mlp_forward",
    "C47_linear_forward",
    "C47_activation",
    "C47_mlp_composition"
   ],
   "note": "Any number of layers; activations none, relu, tanh, abs, neg. For other functions the layer is proved to hand its affine value to them."
  },
  {
   "property": "C48",
   "status": "proved",
   "theorems": [
    "C48_params",
    "C48_update_params",
    "C48_update_with_own",
    "C48_other_lengths",
    "C48_linear"
   ]
  },
  {
   "property": "C49",
   "status": "proved",
   "theorems": [
    "C49_sgd_step",
    "C49_sgd_step_linear",
    "C49_descent_elements",
    "C49_missing_gradient"
   ],
   "note": "The element operations are the ones of the code (negation, addition); over a ring this is p - step*grad."
  },
  {
   "property": "C50",
   "status": "partial",
   "theorems": [
    "C50_no_history_refuted",
    "C50_history_grows",
    "C50_memory_grows",
    "C50_backward_reaches_all_rounds"
   ],
   "note": "False of the code: the difference p - step*grad keeps its history (witness). Proved for all numbers of rounds: after k rounds every parameter still refers to k+1 tensors, memory grows by three tensors per parameter and round at least, and backward reaches the parameters of all earlier rounds."
  },
  {
   "property": "C51",
   "status": "proved",
   "theorems": [
    "C51_eq_spec",
    "C51_eq_equivalence"
   ]
  },
  {
   "property": "C52",
   "status": "proved",
   "theorems": [
    "C52_deep_clone",
    "C52_isolation"
   ]
  },
  {
   "property": "C53",
   "status": "proved",
   "theorems": [
    "C53_ready_start",
    "C53_training_step",
    "C53_training",
    "C53_large_refuted"
   ],
   "note": "One round, and any number of rounds on any samples (training is gradient descent, the graph of earlier rounds does not disturb it). Real arithmetic. C53_large_refuted shows that the bound of 32 entries is needed."
  },
  {
   "property": "C54",
   "status": "proved",
   "theorems": [
    "C54_gradients_as_values",
    "C54_all_programs_refuted"
   ],
   "note": "C54_all_programs_refuted shows that the restriction is needed: backward on a gradient that is a sum works, and reaches tensors passed to update_grad."
  },
  {
   "property": "C55",
   "status": "proved",
   "theorems": [
    "C55_call_grad",
    "C55_grad_is_current",
    "C55_grad_is_a_snapshot"
   ]
  },
  {
   "property": "C56",
   "status": "partial",
   "theorems": [
    "C56_gradients_have_no_history_refuted",
    "C56_contributions_are_kept"
   ],
   "note": "False of the code (witness: two backward passes). Proved: a gradient refers to all contributions since its cell was empty, and grows by one tensor per contribution."
  },
  {
   "property": "C57",
   "status": "proved",
   "theorems": [
    "C57_no_reference_cycles",
    "C57_update_grad",
    "C57_with_update_grad_refuted"
   ],
   "note": "Also for an explicit update_grad whose argument does not refer to the receiver; x.update_grad(x) does create a cycle (C57_with_update_grad_refuted)."
  },
  {
   "property": "C58",
   "status": "proved",
   "theorems": [
    "C58_loss_value",
    "C58_first_order",
    "C58_step_decreases_loss",
    "C58_gradient_exists",
    "C58_any_step_refuted"
   ],
   "note": "Exact real arithmetic, away from kinks, matrices of at most 32 entries (as C53). That the step must be small is shown by C58_any_step_refuted."
  },
  {
   "property": "C59",
   "status": "proved",
   "theorems": [
    "C59_sum",
    "C59_sum_finite",
    "C59_dot",
    "C59_bmm",
    "C59_bmm_batch",
    "C59_bmm_backward"
   ],
   "note": "IEEE formats through Flocq, one NaN; gradients of bmm for two matrices with non-zero dimensions."
  },
  {
   "property": "C60",
   "status": "proved",
   "theorems": [
    "C60_training_runs",
    "C60_main_sizes",
    "C60_main"
   ],
   "note": "Panics only: memory, stack depth (C50) and a deadlock of the thread pool (C45) are outside. The random generator of main.rs is any source of values."
  },
  {
   "property": "C61",
   "status": "partial",
   "theorems": [
    "C61_atomic_refuted",
    "C61_agrees",
    "C61_other_calls",
    "C61_backward_left",
    "C61_invariants",
    "C61_still_works",
    "C61_recover"
   ],
   "note": "False of backward: it may panic after having changed gradients (witness). Proved: all other calls leave no trace; what a failing backward can change; invariants and success of later calls after any caught panics; zero_grad restores."
  },
  {
   "property": "C62",
   "status": "partial",
   "theorems": [
    "C62_values_kept",
    "C62_gradient_calls",
    "C62_terminates",
    "C62_acyclic",
    "C62_well_formed_refuted",
    "C62_well_formed_partial",
    "C62_gradient_shapes",
    "C62_includes",
    "C62_meaning",
    "C62_bmm_view"
   ],
   "note": "False in one respect: RawTensor::default() and scaling a view make tensors whose array does not fit the shape (witness). All else is proved, and well-formedness without those two calls."
  },
  {
   "property": "C63",
   "status": "partial",
   "theorems": [
    "C63_copies_refuted",
    "C63_copies_partial",
    "C63_unique",
    "C63_backward_of_copy",
    "C63_history"
   ],
   "note": "False of the code: x.bmm(&*w) records a hidden copy of w, which gets the gradient (witness). Proved: the gradient of a tensor is the sum of those of its copies (over rings), the same without other copies (any arithmetic), backward of a copy, and which calls record a history. The tensor returned by grad() is treated as a value here; its own history is in C54-C57."
  },
  {
   "property": "C64",
   "status": "partial",
   "theorems": [
    "C64_counters_watch",
    "C64_updates_are_paths",
    "C64_linear_work_refuted",
    "C64_doubling",
    "C64_upper_bound",
    "C64_used_once"
   ],
   "note": "False of the code: one update per path, and there may be exponentially many (witness, for every size). Proved: the exact number, the worst case, and the bound where no tensor is used twice."
  },
  {
   "property": "C65",
   "status": "partial",
   "theorems": [
    "C65_bounded_depth_refuted",
    "C65_depth_is_longest_path",
    "C65_training_deepens"
   ],
   "note": "False of the code: the depth is the length of the longest path, which grows with every training round (C50). Counted are nested calls, not bytes of stack."
  },
  {
   "property": "C66",
   "status": "proved",
   "theorems": [
    "C66_any_relation",
    "C66_panics",
    "C66_shapes",
    "C66_main"
   ],
   "note": "Parametricity of the whole tensor model, including backward, training and main.rs. Arithmetic is total here: overflow panics of checked integers are C68."
  },
  {
   "property": "C67",
   "status": "proved",
   "theorems": [
    "C67_mod",
    "C67_fits"
   ],
   "note": "Any number of values and any smallest value. ModelInt states what integers do."
  },
  {
   "property": "C68",
   "status": "partial",
   "theorems": [
    "C68_fits_refuted",
    "C68_never_wrong",
    "C68_room",
    "C68_room_unsigned"
   ],
   "note": "False of the code: a - b is a + (-b), and sums overflow in between (witnesses in i8). Proved: no wrong values, and no overflow if the run on magnitudes fits. The panic is modelled as a mark that spreads."
  },
  {
   "property": "C69",
   "status": "proved",
   "theorems": [
    "C69_whole_numbers",
    "C69_with_signs"
   ],
   "note": "For all precisions and exponent ranges (Flocq); tanh, which has no whole values, is left out."
  },
  {
   "property": "C70",
   "status": "proved",
   "theorems": [
    "C70_counts",
    "C70_nothing_dangles",
    "C70_results"
   ],
   "note": "Sequential programs over ModelHandle; clones share tensors. Temporaries inside a call are folded into the call."
  },
  {
   "property": "C71",
   "status": "partial",
   "theorems": [
    "C71_exact",
    "C71_nothing_left",
    "C71_why_alive",
    "C71_nothing_left_refuted"
   ],
   "note": "False of the code: a tensor given to its own update_grad, or to that of one of its operands, is never destroyed (witness). Proved: exact for programs that do not call update_grad themselves; with it, what is alive is reached from a variable or from a cycle."
  },
  {
   "property": "C72",
   "status": "partial",
   "theorems": [
    "C72_bound",
    "C72_chain",
    "C72_constant_refuted"
   ],
   "note": "False of the code: a chain of n operations is destroyed in n + 1 nested drops (proved for every n). Proved: at most as deep as there are tensors. Counted are nested drops, not bytes of stack."
  },
  {
   "property": "C73",
   "status": "proved",
   "theorems": [
    "C73_set",
    "C73_index",
    "C73_elem",
    "C73_first",
    "C73_count",
    "C73_shapes"
   ],
   "note": "set and get_first_elem for shapes without zero dimensions (with one there is no element)."
  },
  {
   "property": "C74",
   "status": "partial",
   "theorems": [
    "C74_independent",
    "C74_cells_example",
    "C74_snapshot",
    "C74_backward",
    "C74_shared_refuted",
    "C74_zeroed_refuted",
    "C74_some_are_kept"
   ],
   "note": "False of the code: two backward calls on losses that share a parameter can lose an update (witness, for both lock policies), and grad can panic because of a zero_grad of another thread. Proved: a thread whose cells no other thread changes behaves as alone in every interleaving, and others see in them what it left after whole calls; so do threads on separate graphs; a shared gradient is the old one plus some of the updates, each at most once."
  },
  {
   "property": "C75",
   "status": "proved",
   "theorems": [
    "C75_no_deadlock",
    "C75_bounded",
    "C75_exclusive"
   ],
   "note": "Lock operations are atomic steps (sequentially consistent); forward operations take no lock and are left out."
  },
  {
   "property": "C76",
   "status": "proved",
   "theorems": [
    "C76_shapes_decide",
    "C76_shapes_unique"
   ],
   "note": "Without gradient calls (C41, C60) and without scaling a view, which can make an ill-formed tensor (C23). Ranks above 3 on the left of bmm have the rule of what the code does (C28)."
  },
  {
   "property": "C77",
   "status": "proved",
   "theorems": [
    "C77_backward_exactly",
    "C77_panics_otherwise",
    "C77_shapes_only"
   ],
   "note": "The graphs C41 and C42 name are instances; batches of matrices are C78. Empty tensors are left out."
  },
  {
   "property": "C78",
   "status": "partial",
   "theorems": [
    "C78_batches_refuted",
    "C78_panics",
    "C78_sum_exactly"
   ],
   "note": "False in general: backward panics on any graph with a batch of more than one element (C78_panics); exact for sums of such products."
  },
  {
   "property": "C79",
   "status": "proved",
   "theorems": [
    "C79_running_error",
    "C79_unknown_signs_refuted",
    "C79_gradient",
    "C79_checker",
    "C79_checker_main",
    "C79_main"
   ],
   "note": "Flocq formats, rounding to nearest; tanh is any function with a given error. Known signs are needed (C79_unknown_signs_refuted). The error of the bound is not itself optimal."
  },
  {
   "property": "C80",
   "status": "partial",
   "theorems": [
    "C80_exact",
    "C80_same_course",
    "C80_possible",
    "C80_one_worker",
    "C80_main_exact",
    "C80_main_same_course",
    "C80_floats_refuted"
   ],
   "note": "False for floats on two or more workers (witness: a program with two different gradients). Proved: exact additions and one worker give the sequential result; floats take the same course under every schedule. Which of several panics is passed on is left open."
  },
  {
   "property": "C81",
   "status": "proved",
   "theorems": [
    "C81_any_order",
    "C81_schedules_agree",
    "C81_gradient",
    "C81_checker",
    "C81_checker_main",
    "C81_main",
    "C81_whole_numbers"
   ],
   "note": "Flocq formats, rounding to nearest; tanh is any function with a given error; signs must be known, as in C79. The bound counts one rounding for every addition, also of zero."
  },
  {
   "property": "C82",
   "status": "proved",
   "theorems": [
    "C82_backward_keeps_branches",
    "C82_away_from_kinks",
    "C82_sum_programs",
    "C82_derivative_if_there_is_one_refuted"
   ],
   "note": "Real numbers. The refuted variant (the derivative whenever there is one) is C82_derivative_if_there_is_one_refuted."
  },
  {
   "property": "C83",
   "status": "proved",
   "theorems": [
    "C83_training_step_anywhere",
    "C83_training_anywhere",
    "C83_kept_loss_is_the_loss",
    "C83_fitted_network_stays_refuted"
   ],
   "note": "Real numbers; matrices of at most 32 entries, as in C53 (C33). The refuted variant (a fitted network stays) is C83_fitted_network_stays_refuted."
  },
  {
   "property": "C84",
   "status": "proved",
   "theorems": [
    "C84_regret",
    "C84_losses_determined",
    "C84_best_round",
    "C84_reaches_the_optimum"
   ],
   "note": "Real numbers; one layer, no activation (with one the loss is not convex); matrices of at most 32 entries, as in C53 (C33)."
  },
  {
   "property": "C85",
   "status": "proved",
   "theorems": [
    "C85_ancestors_only",
    "C85_work_in_between",
    "C85_succeeds_exactly",
    "C85_gradient"
   ],
   "note": "Any numbers; c85_gradient over the real numbers. The states are those reachable by programs without update_grad where C77 and C31 need it."
  },
  {
   "property": "C86",
   "status": "partial",
   "theorems": [
    "C86_checked",
    "C86_wrapping",
    "C86_small",
    "C86_bits",
    "C86_wrapping_always_refuted"
   ],
   "note": "Proved: with overflow checks every program does what the model does or panics on overflow; a returning checked run equals the unchecked one; tensors of at most B elements with B*B below the number of words never overflow. Refuted for builds without overflow checks: a constructor accepts an empty array for dimensions [2; 2^(w-1)]."
  },
  {
   "property": "C87",
   "status": "proved",
   "theorems": [
    "C87_words",
    "C87_indices",
    "C87_storage",
    "C87_operations",
    "C87_derivatives",
    "C87_model",
    "C87_model_derivatives",
    "C87_matrix_product",
    "C87_addition",
    "C87_any_program",
    "C87_checked",
    "C87_split_writer",
    "C87_bmm_jvp",
    "C87_bmm_jvp_checked",
    "C87_views",
    "C87_model_views"
   ],
   "note": "The crate's loops as abstract syntax of a small Rust (ModelRust, ModelKernel) refine the functions of ModelUsize, and with unbounded numbers those of the functional model. For bmm_raw the product of the new shape must not wrap silently (always so with overflow checks). Tasks spawned on rayon run in order here; C26 shows that their order does not matter. For bmm_jvp, whose messages wait in queues before they are added, the claim is about what is returned and that both panic alike, not which panic comes first."
  },
  {
   "property": "C88",
   "status": "proved",
   "theorems": [
    "C88_programs",
    "C88_rules",
    "C88_more_turns",
    "C88_never_wrong",
    "C88_gradient",
    "C88_wide_words",
    "C88_wide_any",
    "C88_small",
    "C88_bits"
   ],
   "note": "Calls in ModelMachine compute by running ModelKernel's statements; only the graph (who is whose input, recursion over inputs) stays outside the small language. Relates to the model for every program from the empty state; panics are related as panics, not by kind. Numbers of turns are bounded per program (existential). C88_small and C88_bits leave out &x * &view and gradients set by hand (tidy programs), like C86_small."
  },
  {
   "property": "C89",
   "status": "proved",
   "theorems": [
    "C89_training",
    "C89_never_wrong",
    "C89_descent",
    "C89_main",
    "C89_small",
    "C89_main_small",
    "C89_main_bits"
   ],
   "note": "Layers with named activations (none, relu, tanh, abs, neg) so that the activation too is run by the statements; any other function a user passes is covered by the model (C49, C60) only. Numbers of turns are existential; an explicit word length is given by C89_small, C89_main_small and C89_main_bits, whose step is a scalar tensor. main.rs without its random generator and printing."
  }
 ]
}
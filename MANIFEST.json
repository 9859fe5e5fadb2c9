{
 "claims": [
  {
   "property": "C01",
   "status": "partial",
   "theorems": [
    "C01_ranges_disjoint_refuted",
    "C01_ranges_sorted",
    "C01_insert_contents",
    "C01_ranges_disjoint_partial"
   ],
   "note": "The code violates the claim: an insertion whose range strictly encloses stored ranges is accepted (witness in C01_ranges_disjoint_refuted). C01_ranges_disjoint_partial proves disjointness for histories without enclosing insertions; ordering and contents are proved for every history."
  },
  {
   "property": "C02",
   "status": "partial",
   "theorems": [
    "C02_mask_layout_refuted",
    "C02_mask_layout_sound",
    "C02_mask_layout_partial"
   ],
   "note": "The code raises when a gap precedes or separates registered ranges (C02_mask_layout_refuted). Proved for every history: a mask that is returned is right (sound); reading succeeds for prefix-tiling registrations (partial)."
  },
  {
   "property": "C03",
   "status": "proved",
   "theorems": [
    "C03_ratio",
    "C03_leading_channels"
   ],
   "note": "Masks are lists of booleans; indexing and slicing as in Python."
  },
  {
   "property": "C04",
   "status": "partial",
   "theorems": [
    "C04_reapply_ratio_partial",
    "C04_reapply_ratio_refuted",
    "C04_reapply_number_partial"
   ],
   "note": "Refuted in IEEE binary64 (e.g. 49 channels): int(n * (k / n)) can be k - 1. Proved for number mode; the ratio-mode claim is false."
  },
  {
   "property": "C05",
   "status": "proved",
   "theorems": [
    "C05_make_divisible"
   ],
   "note": "min_ratio is an exact rational; rounding of min_ratio * value in binary64 is not modelled."
  },
  {
   "property": "C06",
   "status": "partial",
   "theorems": [
    "C06_default_partial",
    "C06_default_candidates_refuted",
    "C06_independent_partial",
    "C06_choice_in_candidates_partial"
   ],
   "note": "The default candidate list is a shared mutable default: a second construction changes the first (refuted). Proved: instances with explicit candidates are independent of all others, and after accepted in-range assignments the choice is a candidate."
  },
  {
   "property": "C07",
   "status": "partial",
   "theorems": [
    "C07_value_new",
    "C07_oneshot_value",
    "C07_simple_refuted",
    "C07_simple_partial",
    "C07_sequential",
    "C07_value",
    "C07_value_choice_valid",
    "C07_oneshot_op",
    "C07_diff_op",
    "C07_route_refuted",
    "C07_route_partial"
   ],
   "note": "Proved for sequential channels, value mutables, one-shot and differentiable operations. Refuted for SimpleMutableChannel (fixed mask can still be assigned / re-fixed) and DiffChoiceRoute (a rejected second fix overwrites the edge names used for pairing)."
  },
  {
   "property": "C08",
   "status": "partial",
   "theorems": [
    "C08_mask_agrees_partial",
    "C08_concat_masks",
    "C08_divide_float_refuted",
    "C08_simple_expand"
   ],
   "note": "Agreement proved for expansion and integer division of prefix masks and for concatenation; refuted for division by a non-integer."
  },
  {
   "property": "C09",
   "status": "partial",
   "theorems": [
    "C09_fix_preserves_forward_partial",
    "C09_fix_preserves_forward_refuted"
   ],
   "note": "Proved for known names; refuted for unknown names, which are accepted and drop all candidates."
  },
  {
   "property": "C10",
   "status": "partial",
   "theorems": [
    "C10_route_partial",
    "C10_route_refuted"
   ],
   "note": "Proved for one fix_chosen call; refuted for histories with a later rejected call."
  },
  {
   "property": "C11",
   "status": "partial",
   "theorems": [
    "C11_threshold_refuted",
    "C11_threshold_partial"
   ],
   "note": "Refuted: the boolean tensor is used as index, so position 1 is always fixed. Proved: nothing is fixed below the threshold, and the claim holds when position 1 is the most probable."
  },
  {
   "property": "C12",
   "status": "proved",
   "theorems": [
    "C12_edges_consistent",
    "C12_dag_history",
    "C12_delete_bypasses",
    "C12_connect_disconnect",
    "C12_self_loop_refuted"
   ],
   "note": "For histories that keep the graph acyclic. Self loops break delete_node (C12_self_loop_refuted)."
  },
  {
   "property": "C13",
   "status": "proved",
   "theorems": [
    "C13_topo_traverse",
    "C13_topo_sort"
   ],
   "note": "Kahn traversal on the modelled base graph; nodes are compared by name."
  },
  {
   "property": "C14",
   "status": "proved",
   "theorems": [
    "C14_groups",
    "C14_tensor_union",
    "C14_expand"
   ],
   "note": "Hash caches of channel_flow.py are not modelled."
  },
  {
   "property": "C15",
   "status": "partial",
   "theorems": [
    "C15_append",
    "C15_insert",
    "C15_set_index",
    "C15_subnets",
    "C15_subnets_two_part",
    "C15_entries_complete",
    "C15_aligned_refuted",
    "C15_aligned_partial",
    "C15_set_resource_refuted",
    "C15_set_resource_partial",
    "C15_update_resources_partial",
    "C15_entry_order",
    "C15_sort_by"
   ],
   "note": "Refuted: a candidate in the value_subnet/channel_subnet format contributes two scores and two resources but one subnet, and an entry appended twice is aliased. Proved: completeness of indicators, ordering, stable sorting; alignment for one-key candidates; isolation of writes when no dictionary is entered twice."
  },
  {
   "property": "C16",
   "status": "proved",
   "theorems": [
    "C16_missing_metric",
    "C16_check_exact",
    "C16_no_constraints"
   ],
   "note": "Constrained metrics must be reported by the estimator (otherwise the code raises KeyError)."
  },
  {
   "property": "C17",
   "status": "proved",
   "theorems": [
    "C17_children",
    "C17_evolution"
   ],
   "note": "The estimator is a function of the subnet; the evaluator, the sampler and the coin flips are arbitrary. Initial candidates are not checked by the code, so they are assumed to satisfy the constraints."
  },
  {
   "property": "C18",
   "status": "partial",
   "theorems": [
    "C18_resume_refuted",
    "C18_resume_partial"
   ],
   "note": "Refuted: _resume restores _epoch and also subtracts it from _max_epochs, so a search resumed after e epochs stops at max(e, max - e). The exact number of epochs is proved."
  },
  {
   "property": "C19",
   "status": "proved",
   "theorems": [
    "C19_checkpoints"
   ],
   "note": "Checkpoint names only; file contents are not modelled."
  },
  {
   "property": "C20",
   "status": "proved",
   "theorems": [
    "C20_mutation",
    "C20_crossing",
    "C20_crossover",
    "C20_prob_range"
   ],
   "note": "The coin flips are an arbitrary sequence."
  },
  {
   "property": "C21",
   "status": "proved",
   "theorems": [
    "C21_greedy_search",
    "C21_flops_decrease"
   ],
   "note": "The estimator and the evaluator are deterministic functions of the subnet. FLOPs never increase is proved for estimators that charge no more for a smaller subnet."
  },
  {
   "property": "C22",
   "status": "partial",
   "theorems": [
    "C22_resume_refuted",
    "C22_resume_partial"
   ],
   "note": "Refuted: the checkpoint that reaches a target is written before the subnet is recorded and a resumed search skips targets that are already met. Proved for checkpoints that do not meet the next target."
  },
  {
   "property": "C23",
   "status": "partial",
   "theorems": [
    "C23_linear_refuted",
    "C23_consine_refuted",
    "C23_zero_length_refuted",
    "C23_linear_partial",
    "C23_pop_refuted",
    "C23_pop_partial",
    "C23_refill"
   ],
   "note": "Refuted: the linear schedule ignores init_prob, the cosine schedule runs from 1 to init_prob, a zero-length schedule divides by zero and the pool is never consumed (the same best subnet is returned again and again). The behaviour inside these limits is proved."
  },
  {
   "property": "C24",
   "status": "partial",
   "theorems": [
    "C24_no_custom",
    "C24_named_module",
    "C24_sources_refuted",
    "C24_derived_refuted",
    "C24_alias_refuted",
    "C24_groups_partial"
   ],
   "note": "Refuted: a mutable that is registered itself and is also the source of a derived mutable gets two groups; mutables of one alias are separated if one of them is named in a custom group. The exact grouping is proved for models in which every mutable is registered once."
  },
  {
   "property": "C25",
   "status": "partial",
   "theorems": [
    "C25_derived_refuted",
    "C25_prefix_refuted",
    "C25_roundtrip_partial",
    "C25_extra_prefix_partial",
    "C25_missing_raises"
   ],
   "note": "Refuted: several sources of one derived mutable share one key, and prefix stripping uses str.lstrip, which removes characters and not the prefix. Round trip proved when mutables under one key agree and stripping stops at the name; the missing-entry part is proved in full."
  },
  {
   "property": "C26",
   "status": "partial",
   "theorems": [
    "C26_same_function_refuted",
    "C26_leak_grows",
    "C26_restored_partial"
   ],
   "note": "Refuted: managers leave recorders in entering order, so two function recorders on one function leave a wrapper behind, one more per block. Proved for at most one function recorder per function, any number of method and module recorders and any number of blocks."
  },
  {
   "property": "C27",
   "status": "partial",
   "theorems": [
    "C27_outside_block",
    "C27_negative_index",
    "C27_same_method_refuted",
    "C27_records_partial",
    "C27_get_record_data"
   ],
   "note": "Refuted: of two method recorders on one method only the last records. Proved for any number of function and module recorders, one recorder per method and any history of blocks; indexing proved in full (negative indices are not stated)."
  },
  {
   "property": "C28",
   "status": "partial",
   "theorems": [
    "C28_iteration",
    "C28_overflow_raises",
    "C28_empty_raises",
    "C28_stale_refuted",
    "C28_balanced_partial"
   ],
   "note": "Refuted: the queue is never cleared, so outputs that the student does not consume are handed out in the next iteration. Proved for iterations that consume everything; the error cases are proved."
  },
  {
   "property": "C29",
   "status": "proved",
   "theorems": [
    "C29_stop_distill"
   ],
   "note": "For epoch-based runs, including runs resumed at any epoch. Loss dictionaries are assumed to have distinct keys (they are python dicts)."
  },
  {
   "property": "C30",
   "status": "partial",
   "theorems": [
    "C30_flops",
    "C30_params_refuted",
    "C30_params_per_call",
    "C30_params_partial",
    "C30_accumulate_refuted",
    "C30_accumulate_partial"
   ],
   "note": "FLOPs part proved in full (any nesting and sharing). Refuted: parameters are added at every call, and per-module results are wrong for a layer shared by two branches. Proved: parameters for layers called exactly once; per-module sums for trees without sharing."
  },
  {
   "property": "C31",
   "status": "partial",
   "theorems": [
    "C31_other_layers",
    "C31_conv",
    "C31_deconv_refuted",
    "C31_deconv_partial",
    "C31_dynamic_refuted",
    "C31_dynamic_partial",
    "C31_dynamic_depthwise"
   ],
   "note": "Convolutions proved. Refuted: bias FLOPs of a transposed convolution use the output height twice; a pruned depthwise dynamic convolution is charged with the unpruned group number (exact factor proved)."
  },
  {
   "property": "C32",
   "status": "partial",
   "theorems": [
    "C32_after_separation",
    "C32_separation",
    "C32_ctor_ignored_refuted",
    "C32_history_refuted",
    "C32_per_call_partial",
    "C32_no_call_partial",
    "C32_illegal_key"
   ],
   "note": "Refuted: input_shape/units/as_strings of the constructor are ignored when no per-call configuration is given, and estimate_separation_modules without a configuration switches seperate_return on for ever. Proved for per-call configurations and histories without such calls."
  },
  {
   "property": "C33",
   "status": "partial",
   "theorems": [
    "C33_prune_times",
    "C33_zero_times",
    "C33_construct",
    "C33_ints_partial",
    "C33_ratios_refuted",
    "C33_ratios_partial"
   ],
   "note": "Prune times proved; for integer channel numbers the full statement is proved in binary64 arithmetic. For ratios the endpoint is refuted (target 0.1 from 1.0 ends at 0.09999999999999998); proved: monotone, and exact when the target is at least half of the supernet ratio."
  },
  {
   "property": "C34",
   "status": "partial",
   "theorems": [
    "C34_range_refuted",
    "C34_partial",
    "C34_fits"
   ],
   "note": "Refuted: a value equal to max_iters is documented as legal but rejected (strict comparison). Proved for all other values, and that the derived schedule fits into the training run."
  },
  {
   "property": "C35",
   "status": "partial",
   "theorems": [
    "C35_conv_partial",
    "C35_depthwise_refuted",
    "C35_group_without_input_mutable",
    "C35_group_uneven",
    "C35_linear"
   ],
   "note": "Linear layers proved in full. Convolutions: refuted for depthwise layers whose input and output masks differ; proved for dense convolutions, depthwise ones with equal masks, and group convolutions with the same number of active channels in every group. Also proved: other group masks raise AssertionError, and a group convolution with only an output mutable always raises. Exact arithmetic."
  },
  {
   "property": "C36",
   "status": "partial",
   "theorems": [
    "C36_window",
    "C36_even_rejected",
    "C36_same_size_refuted",
    "C36_same_size_partial",
    "C36_centre",
    "C36_ofa_identity"
   ],
   "note": "Centre crop (any stride, dilation 1), rejection of even sizes and OFA with identity matrices proved. Refuted: padding ignores the dilation, so the size is kept only for dilation 1 (exact size proved)."
  },
  {
   "property": "C37",
   "status": "partial",
   "theorems": [
    "C37_conv_equal",
    "C37_linear_equal",
    "C37_conv_exports",
    "C37_refusal_refuted",
    "C37_refusal_partial"
   ],
   "note": "Equality of static and dynamic forward proved for convolutions and linear layers. Refuted: unfixed channel containers and derived mutables do not prevent the export; proved: any other unfixed mutable does."
  },
  {
   "property": "C38",
   "status": "partial",
   "theorems": [
    "C38_tensor_partial",
    "C38_dict_raises",
    "C38_dict_refuted",
    "C38_dict_overshoot_refuted",
    "C38_mask_refuted",
    "C38_mask_partial",
    "C38_dist_refuted",
    "C38_dist_partial",
    "C38_dist_samples_refuted"
   ],
   "note": "Refuted: dict batches raise TypeError or overshoot; averages go to the first channels even if the mask is not a prefix; workers with different batch sizes disagree and several workers overshoot the sample number. Proved for tensor batches in one process, prefix masks, and equal batch sizes on all workers."
  },
  {
   "property": "C39",
   "status": "partial",
   "theorems": [
    "C39_restart_refuted",
    "C39_one_pass_partial",
    "C39_epoch"
   ],
   "note": "Refuted: the restarted iterators are stored in the misspelt attribute iter_loader, so the iteration after the shortest loader is exhausted raises StopIteration. Proved: exactly one pass is delivered; the epoch-based loop delivers exactly one pass per epoch."
  },
  {
   "property": "C40",
   "status": "partial",
   "theorems": [
    "C40_percent_refuted",
    "C40_percent_partial",
    "C40_contrast",
    "C40_eligible",
    "C40_ragged",
    "C40_fetch",
    "C40_test_mode"
   ],
   "note": "Refuted: with 0<percent<1 every class is cut to the percentage of the first class, so unbalanced classes are not treated as configured (and ragged lists are refused by newer numpy). Proved: negatives are of other classes and all of them are eligible; the percentage for balanced classes."
  },
  {
   "property": "C41",
   "status": "proved",
   "theorems": [
    "C41_in_space",
    "C41_default_groups"
   ],
   "note": "With binary64 rounding of the pruning rates; signs of max_sample_rate and sample_offset assumed non-negative."
  },
  {
   "property": "C42",
   "status": "partial",
   "theorems": [
    "C42_nowhere_zero",
    "C42_units_refuted",
    "C42_band_partial",
    "C42_l1_l2",
    "C42_inverted_refuted",
    "C42_finite_partial"
   ],
   "note": "Refuted: the band is computed from target_flops as plain FLOPs and compared with MFLOPs scaled values, so the loss is nowhere zero on the documented band; inverted_log_l1 is NaN below the target. Proved: the exact zero set; l1 and l2 vanish exactly on the target and grow with the distance."
  },
  {
   "property": "C43",
   "status": "partial",
   "theorems": [
    "C43_step_partial",
    "C43_never_empty",
    "C43_history",
    "C43_step_refuted",
    "C43_stuck_refuted",
    "C43_reset"
   ],
   "note": "Refuted when every prunable importance is at least 1e5: the first unit is pruned instead of the minimum, or nothing at all. Proved when one prunable channel is below 1e5 (C43_step_partial); never emptying a unit is proved for all values and histories. Rounded x+1 and argmin are parameters with stated laws."
  },
  {
   "property": "C44",
   "status": "partial",
   "theorems": [
    "C44_width_refuted",
    "C44_width_partial",
    "C44_width_history",
    "C44_divisible",
    "C44_matrix",
    "C44_vector",
    "C44_preserves",
    "C44_network",
    "C44_preserves_dw",
    "C44_bn_refuted",
    "C44_preserves_bn_partial",
    "C44_short"
   ],
   "note": "Refuted: expand_to is relative to the original width, so a second call over-widens; a batch norm without affine parameters cannot be expanded. Proved: the width after any sequence of calls, least multiple, placement of old weights, function preservation for convolution/linear/depthwise/batch-norm layers and for whole chains with any activation."
  },
  {
   "property": "C45",
   "status": "partial",
   "theorems": [
    "C45_compensated",
    "C45_magnitude",
    "C45_smaller_first",
    "C45_sparsity_zero_refuted",
    "C45_sparsity_one_raises",
    "C45_mask_partial",
    "C45_unstructured_partial",
    "C45_nm_refuted",
    "C45_nm_blocksize_refuted",
    "C45_nm_partial"
   ],
   "note": "Refuted: sparsity 0 masks an entry, sparsity 1 raises IndexError, 2:4 raises for a width (or block size) that is no multiple of four. Proved: exact mask count floor+1 below 1 for distinct scores, at least that many zeros in every block, and n:m patterns for multiples of m."
  },
  {
   "property": "C46",
   "status": "partial",
   "theorems": [
    "C46_products_partial",
    "C46_uninitialised",
    "C46_reinit_refuted",
    "C46_workers_refuted",
    "C46_exact",
    "C46_first_partial"
   ],
   "note": "Refuted: the batch counter survives init_hessian, and workers with different batch sizes are weighted by the size of rank 0. Proved: the exact value in general, and the claim for the first initialisation with equal sizes."
  },
  {
   "property": "C47",
   "status": "partial",
   "theorems": [
    "C47_factorised",
    "C47_in_place_refuted",
    "C47_half_pruned_refuted",
    "C47_hessian",
    "C47_copies_partial",
    "C47_continues"
   ],
   "note": "Refuted: a failed layer keeps zeroed or half-pruned columns and a damped Hessian because the computation works in place. Proved if it works on copies."
  },
  {
   "property": "C48",
   "status": "partial",
   "theorems": [
    "C48_sym_positive_refuted",
    "C48_asym_partial",
    "C48_sym_partial",
    "C48_grid",
    "C48_mse",
    "C48_trits"
   ],
   "note": "Refuted: in symmetric mode with no negative value the upper half of the range saturates. Proved: half a step of error in asymmetric mode and in symmetric mode with a negative value; positive scale, number of levels, idempotence in every mode (also with the mse search, which never increases the error); ternary mode."
  },
  {
   "property": "C49",
   "status": "proved",
   "theorems": [
    "C49_axis",
    "C49_range",
    "C49_arguments"
   ],
   "note": "All bit widths and keyword arguments."
  },
  {
   "property": "C50",
   "status": "partial",
   "theorems": [
    "C50_consumed_refuted",
    "C50_unflagged_partial",
    "C50_second_build"
   ],
   "note": "Refuted: _return_architecture_ is popped from the configuration of the caller. Proved for configurations without the flag; from the second build on the whole algorithm is returned."
  },
  {
   "property": "C51",
   "status": "partial",
   "theorems": [
    "C51_limit_refuted",
    "C51_keeps_all_partial"
   ],
   "note": "Refuted: max_keep_subnets is never used. Proved: exact set of files written, which is what -1 promises."
  },
  {
   "property": "C52",
   "status": "partial",
   "theorems": [
    "C52_resume_refuted",
    "C52_resume_forgets",
    "C52_uninterrupted_partial"
   ],
   "note": "Refuted: is_first_batch is not part of the checkpoint, so a resumed run re-estimates the scale on its first batch whatever was learned. Proved for uninterrupted runs."
  },
  {
   "property": "C53",
   "status": "partial",
   "theorems": [
    "C53_neighbours_refuted",
    "C53_neighbours_partial",
    "C53_kind_refuted",
    "C53_kind_partial",
    "C53_routes_refuted",
    "C53_routes_partial"
   ],
   "note": "Refuted: parse_linear does not remove its node, so layers behind a linear layer on a later branch are reported with it; a one-channel convolution is reported as depthwise. Proved when linear layers occur on last branches only: the paths are the routes if no unshared layer is met twice, and in general the neighbouring layers found are exactly those of the graph."
  },
  {
   "property": "C54",
   "status": "partial",
   "theorems": [
    "C54_other_names_refuted",
    "C54_numbered_partial",
    "C54_latest_file"
   ],
   "note": "Refuted: a file such as best_acc.pth next to the numbered ones raises ValueError. Proved if all checkpoint files are numbered."
  },
  {
   "property": "C55",
   "status": "partial",
   "theorems": [
    "C55_read_then_register_refuted",
    "C55_read_then_read_partial"
   ],
   "note": "Reading fills the trailing range, so a registration that was possible before the read raises after it (refuted). Proved: reads do not change what later reads return nor the stored mutables."
  },
  {
   "property": "C56",
   "status": "partial",
   "theorems": [
    "C56_out_of_range_refuted",
    "C56_out_of_range_behaviour_partial",
    "C56_oneshot_rejects_partial"
   ],
   "note": "Refuted for sequential channels (negative and oversized counts are silently accepted). The exact behaviour is characterised; one-shot channels do reject."
  },
  {
   "property": "C57",
   "status": "partial",
   "theorems": [
    "C57_ratio_candidates",
    "C57_candidate_selectable_refuted",
    "C57_candidate_selectable_partial"
   ],
   "note": "Refuted in both modes; proved for number mode with min_value a multiple of the divisor (see theorem hypotheses)."
  },
  {
   "property": "C58",
   "status": "partial",
   "theorems": [
    "C58_sample_in_range_refuted",
    "C58_sample_in_range_partial"
   ],
   "note": "Refuted for n=12, divisor 8 (draw rounds up to 16); proved when the divisor divides the channel number."
  },
  {
   "property": "C59",
   "status": "partial",
   "theorems": [
    "C59_follows_sources_refuted",
    "C59_follows_sources_partial"
   ],
   "note": "Refuted for channel // value (value captured at derivation); proved for the other derivations."
  },
  {
   "property": "C60",
   "status": "partial",
   "theorems": [
    "C60_probs_sum_refuted",
    "C60_probs_sum_partial"
   ],
   "note": "Refuted: sums far below one are accepted. Proved: exactly the sums exceeding one are rejected."
  },
  {
   "property": "C61",
   "status": "proved",
   "theorems": [
    "C61_ranges_tile"
   ],
   "note": "Any sequence of unions."
  },
  {
   "property": "C62",
   "status": "partial",
   "theorems": [
    "C62_empty_group",
    "C62_later_empty_group",
    "C62_alias_groups_refuted",
    "C62_alias_groups_partial"
   ],
   "note": "Refuted: line 163 looks up the last item of a custom group as a module name, so the documented example [[a1],[a2]] raises KeyError. Proved when the last item of each group is a module name."
  },
  {
   "property": "C63",
   "status": "partial",
   "theorems": [
    "C63_set_choices",
    "C63_missing_group",
    "C63_shared_refuted",
    "C63_empty_group"
   ],
   "note": "Proved for groups that do not share mutables; refuted for a mutable in two groups (which C24 shows to be possible)."
  },
  {
   "property": "C64",
   "status": "proved",
   "theorems": [
    "C64_inputs_in_order",
    "C64_default_refuted"
   ],
   "note": "Also shown (C64_default_refuted): if a defaulted parameter is omitted, later values move to earlier positions."
  },
  {
   "property": "C65",
   "status": "partial",
   "theorems": [
    "C65_upsample_refuted",
    "C65_per_image_partial"
   ],
   "note": "Refuted for UpsampleCounter, which counts one image of the batch; proved for the convolution, linear, normalization and pooling counters."
  },
  {
   "property": "C66",
   "status": "partial",
   "theorems": [
    "C66_resume_refuted",
    "C66_constant_partial",
    "C66_final_partial"
   ],
   "note": "Refuted for linear scheduling: after a resume the pruned structure is taken as the supernet. Proved: unchanged without linear scheduling; with integer numbers the last pruning still sets the target."
  },
  {
   "property": "C67",
   "status": "partial",
   "theorems": [
    "C67_expected_refuted",
    "C67_direct_partial",
    "C67_zero_target"
   ],
   "note": "Refuted: the subnet of the expected mode is saved without a check and is logged with the FLOPs of another subnet. Proved for the directly sampled subnets."
  },
  {
   "property": "C68",
   "status": "proved",
   "theorems": [
    "C68_switches",
    "C68_resume"
   ],
   "note": "The loop is modelled as the sequence of switch settings; observers and batch norm are flags."
  },
  {
   "property": "C69",
   "status": "proved",
   "theorems": [
    "C69_calibration"
   ],
   "note": "Batches are abstract; what observers compute from them is not part of this claim."
  },
  {
   "property": "C70",
   "status": "partial",
   "theorems": [
    "C70_returned_refuted",
    "C70_hooks_partial"
   ],
   "note": "Refuted: the dictionary is emptied before the original metrics are added, so run() returns only original.*. Proved: the hooks get both."
  },
  {
   "property": "C71",
   "status": "proved",
   "theorems": [
    "C71_slimmable",
    "C71_kinds",
    "C71_teacher"
   ],
   "note": "Metric names are arbitrary strings; prefixing is modelled with string append."
  },
  {
   "property": "C72",
   "status": "partial",
   "theorems": [
    "C72_zero_refuted",
    "C72_small_refuted",
    "C72_all_zero_refuted",
    "C72_packed_partial"
   ],
   "note": "Refuted: a zero point of 0 is stored as -1, sizes that are no multiple of 32 lose values, and all-zero words make forward raise AttributeError. Proved for multiples of 32 and zero points of at least 1."
  },
  {
   "property": "C73",
   "status": "proved",
   "theorems": [
    "C73_deploy",
    "C73_check"
   ],
   "note": "Observers are described by their constructor arguments."
  },
  {
   "property": "C74",
   "status": "proved",
   "theorems": [
    "C74_on_grid"
   ],
   "note": "Exact rational arithmetic; the Hessian inverse is arbitrary."
  },
  {
   "property": "C75",
   "status": "partial",
   "theorems": [
    "C75_in_place_refuted",
    "C75_cpu_fails",
    "C75_copies_partial"
   ],
   "note": "Refuted: the computation works in place, and without CUDA it always fails at torch.cuda.synchronize after changing the weight. Proved if it works on a copy."
  },
  {
   "property": "C76",
   "status": "proved",
   "theorems": [
    "C76_walk",
    "C76_expected_is_mean",
    "C76_expected_in_space"
   ],
   "note": "Exact rationals; exp is a parameter with values in (0,1] for non-positive arguments."
  },
  {
   "property": "C77",
   "status": "proved",
   "theorems": [
    "C77_factors"
   ],
   "note": "One value per channel; exact rationals."
  },
  {
   "property": "C78",
   "status": "partial",
   "theorems": [
    "C78_substring_refuted",
    "C78_strategy_partial",
    "C78_prefixes",
    "C78_resume_refuted",
    "C78_resume_partial"
   ],
   "note": "Refuted: entries are matched as substrings (so \"ma\" trains the max subnet), and the probability of scheduled_random starts again at 1 after resuming. Proved: strategies of the four names, different prefixes for any strategy, resuming without scheduled_random."
  },
  {
   "property": "C79",
   "status": "proved",
   "theorems": [
    "C79_oneshot_all",
    "C79_weighted",
    "C79_zero_not_run",
    "C79_diff_fix",
    "C79_one_hot",
    "C79_route_all",
    "C79_route_sample"
   ],
   "note": "Tensor addition is a commutative monoid and scaling by 0 and 1 behaves exactly (exact arithmetic)."
  },
  {
   "property": "C80",
   "status": "partial",
   "theorems": [
    "C80_pairs_partial",
    "C80_pairs_refuted",
    "C80_importance",
    "C80_no_layers"
   ],
   "note": "The importance formula is proved (exact rationals). The pairing of inputs and gradients is proved for one forward phase followed by one backward phase and refuted for several rounds in one step."
  },
  {
   "property": "C81",
   "status": "partial",
   "theorems": [
    "C81_layer",
    "C81_flops_partial",
    "C81_depthwise_refuted",
    "C81_depthwise_twice",
    "C81_normalize",
    "C81_grouped"
   ],
   "note": "Refuted: a depthwise convolution is counted twice. Proved per layer, and for units without layers on both sides; the doubling is proved for every depthwise layer."
  },
  {
   "property": "C82",
   "status": "partial",
   "theorems": [
    "C82_saved",
    "C82_all_saved_partial",
    "C82_delay_refuted",
    "C82_names_refuted",
    "C82_names_partial"
   ],
   "note": "Order, uniqueness, strictness and early stop proved. Refuted: one check writes at most one checkpoint; thresholds that agree to two digits share a file. Proved with as many low checks as thresholds and for thresholds in whole hundredths."
  },
  {
   "property": "C83",
   "status": "proved",
   "theorems": [
    "C83_parents",
    "C83_next"
   ],
   "note": "Nodes identified by kind and name; the order of a Python set is unspecified."
  },
  {
   "property": "C84",
   "status": "partial",
   "theorems": [
    "C84_draws_partial",
    "C84_draws_refuted",
    "C84_caller_scaled"
   ],
   "note": "Refuted for weights with sum below 1, which the constructor does not scale (witness [1/2, 1/4]); proved for every vector of non-negative weights with sum at least 1, with the usable table and exact probabilities. The in-place scaling of the caller tensor is a theorem of its own. Exact rationals stand for floats."
  },
  {
   "property": "C85",
   "status": "proved",
   "theorems": [
    "C85_value",
    "C85_minimum",
    "C85_temperature"
   ],
   "note": "Over exact reals; torch softmax, log_softmax and kl_div are written out from their documentation. Rounding, overflow and gradients are not modelled."
  },
  {
   "property": "C86",
   "status": "proved",
   "theorems": [
    "C86_value",
    "C86_minimum"
   ],
   "note": "Over exact reals."
  },
  {
   "property": "C87",
   "status": "partial",
   "theorems": [
    "C87_tckd",
    "C87_nckd_partial",
    "C87_leak",
    "C87_mask_refuted",
    "C87_decomposition",
    "C87_reduction_partial",
    "C87_reduction_refuted",
    "C87_minimum"
   ],
   "note": "Target part, decomposition and minimum proved. The non-target part is refuted as an exact formula (the mask subtracts 1000 instead of removing the target): C87_nckd_partial gives the exact value and C87_leak bounds the difference. The reductions mean and none are refuted: size_average=False makes both return the undivided sum."
  },
  {
   "property": "C88",
   "status": "proved",
   "theorems": [
    "C88_value",
    "C88_weight",
    "C88_bounds"
   ],
   "note": "Over exact reals, num_classes equal to the number of logits."
  },
  {
   "property": "C89",
   "status": "proved",
   "theorems": [
    "C89_onehot",
    "C89_entropy"
   ],
   "note": "Over exact reals; the loss weight is a plain factor."
  },
  {
   "property": "C90",
   "status": "proved",
   "theorems": [
    "C90_ab_value",
    "C90_ab_zero",
    "C90_ofd"
   ],
   "note": "Over exact reals."
  },
  {
   "property": "C91",
   "status": "partial",
   "theorems": [
    "C91_l1",
    "C91_batchmean_refuted",
    "C91_l2_normalized",
    "C91_l2_plain",
    "C91_l2_zero",
    "C91_nan_refuted",
    "C91_nan",
    "C91_mgd"
   ],
   "note": "Refuted: reduction batchmean is accepted by the constructor but raises ValueError in forward; with normalisation an all-zero row gives NaN (C91_nan: exactly then). The values and zero sets are proved."
  },
  {
   "property": "C92",
   "status": "proved",
   "theorems": [
    "C92_at_value",
    "C92_at_bounds",
    "C92_at_zero",
    "C92_at_scale",
    "C92_ft_value",
    "C92_ft_zero"
   ],
   "note": "Over exact reals; F.normalize with eps 1e-12 is written out."
  },
  {
   "property": "C93",
   "status": "partial",
   "theorems": [
    "C93_value",
    "C93_bounds",
    "C93_zero",
    "C93_resize_partial",
    "C93_resize_refuted",
    "C93_correlation_refuted",
    "C93_correlation_partial",
    "C93_nan_refuted"
   ],
   "note": "Refuted: the loss is (n-1)/n times 1 minus the correlation up to eps (C93_correlation_partial bounds the difference); equal heights with different widths raise AssertionError; one entry per channel gives NaN. Value, bounds and zero set proved."
  },
  {
   "property": "C94",
   "status": "partial",
   "theorems": [
    "C94_value",
    "C94_range",
    "C94_shift",
    "C94_identical",
    "C94_identical_refuted",
    "C94_one_sample"
   ],
   "note": "Refuted: equal logits give a strictly positive loss (C94_identical gives the exact value). The rest proved over exact reals."
  },
  {
   "property": "C95",
   "status": "partial",
   "theorems": [
    "C95_distance",
    "C95_value",
    "C95_zero",
    "C95_nan_refuted",
    "C95_nan",
    "C95_angle_value",
    "C95_angle_bounds",
    "C95_angle_moved"
   ],
   "note": "Refuted: a batch of one sample makes DistanceWiseRKD NaN (C95_nan: only then). The rest proved over exact reals; distances below 1e-6 count as 1e-6."
  },
  {
   "property": "C96",
   "status": "proved",
   "theorems": [
    "C96_ce",
    "C96_soft_ce",
    "C96_activation",
    "C96_fbkd"
   ],
   "note": "Over exact reals; KDSoftCELoss only with reduction mean, no weight and no avg_factor; mmcls soft_cross_entropy written out."
  },
  {
   "property": "C97",
   "status": "partial",
   "theorems": [
    "C97_value",
    "C97_positive",
    "C97_monotone",
    "C97_memory",
    "C97_constants",
    "C97_first_batch",
    "C97_outputs",
    "C97_total",
    "C97_weight_refuted"
   ],
   "note": "Refuted: loss_weight is stored and ignored. The rest proved over exact reals; a running average of 0 (NaN in torch) is excluded."
  },
  {
   "property": "C98",
   "status": "proved",
   "theorems": [
    "C98_groups"
   ],
   "note": "Elements created and dropped at once by cat and slicing are left out of the model; the nodes come in topological order."
  },
  {
   "property": "C99",
   "status": "proved",
   "theorems": [
    "C99_check",
    "C99_forward",
    "C99_checked_runs",
    "C99_no_inputs"
   ],
   "note": "Graphs in topological order; module numbers as read by the node classes."
  },
  {
   "property": "C100",
   "status": "partial",
   "theorems": [
    "C100_units",
    "C100_mask_partial",
    "C100_mask_refuted"
   ],
   "note": "Refuted for the mask: a grouped convolution whose groups are one channel wide ties all its channels while num_channels stays the full width (C100_mask_refuted). Success, ranges, units and num_channels proved for every accepted graph (C100_units); the mask claim proved for graphs without concatenation, expansion, group norm and grouped (non-depthwise) convolutions (C100_mask_partial)."
  },
  {
   "property": "C101",
   "status": "partial",
   "theorems": [
    "C101_second_call_raises",
    "C101_again_refuted",
    "C101_again_partial"
   ],
   "note": "Refuted: on every graph with an end node the second call raises AssertionError (C101_second_call_raises), because the tensors made inside EndNode are recorded by no node and keep their hashes. Proved when every channel tied to a recorded one is recorded."
  },
  {
   "property": "C102",
   "status": "partial",
   "theorems": [
    "C102_expand_exact",
    "C102_all_expanded_refuted",
    "C102_all_expanded_partial"
   ],
   "note": "Refuted: the input behind an expanded one is skipped (channels 8, 4, 4). The result is given exactly for all inputs (C102_expand_exact); the claim is proved when no two neighbouring inputs can be expanded."
  },
  {
   "property": "C103",
   "status": "partial",
   "theorems": [
    "C103_inputs_refuted",
    "C103_repeated_cat",
    "C103_inputs_partial"
   ],
   "note": "Refuted: an input used twice is kept once, and the expand node then ties channel 1 of the reader of cat([x, x]) to channel 0 of x. Proved that the inputs are kept once each and unchanged exactly when none is repeated."
  },
  {
   "property": "C104",
   "status": "partial",
   "theorems": [
    "C104_together_refuted",
    "C104_find_mutable",
    "C104_together_partial",
    "C104_exactly_the_good"
   ],
   "note": "Refuted: units that pass one by one need not pass together, and the bisection never runs the returned units as one set. Proved what is kept and tried; correct when running depends on every unit by itself."
  },
  {
   "property": "C105",
   "status": "partial",
   "theorems": [
    "C105_full_width_refuted",
    "C105_start_width",
    "C105_full_width_partial"
   ],
   "note": "Refuted: the analyzer config keeps the choice of the last trial, so units tried last start at int(0.9 n). Proved the exact starting width and full width when the unit was not in the last trial."
  },
  {
   "property": "C106",
   "status": "proved",
   "theorems": [
    "C106_is_mutable"
   ],
   "note": "Modules are described by whether they have parameters and are dynamic."
  },
  {
   "property": "C107",
   "status": "partial",
   "theorems": [
    "C107_effect",
    "C107_failure",
    "C107_again_partial",
    "C107_read_partial",
    "C107_read_refuted",
    "C107_again_refuted"
   ],
   "note": "Reading back a sample and setting the current choices are refuted (12 channels with divisor 8: 16 is set, 12 is read; 17 channels become 16). Proved in number mode when the divisor divides the width and the minimum fits, after any history; the effect of set_choices and of a failing call is proved in general for distinct names."
  },
  {
   "property": "C108",
   "status": "partial",
   "theorems": [
    "C108_rebuilt_unit_partial",
    "C108_rebuilt_unit_refuted"
   ],
   "note": "Refuted: 17 channels with divisor 8 become 16. Proved for units whose divisor divides the width, in number mode."
  },
  {
   "property": "C109",
   "status": "partial",
   "theorems": [
    "C109_rebuilt_refuted",
    "C109_rebuilt_config_refuted",
    "C109_rebuilt_partial"
   ],
   "note": "Refuted: the template keeps parse_cfg, so the tracer path ignores the choices; with type Config, OneShot units go back to their largest choice. Proved for distinct names and divisors that divide the width, with type Config: same units, same choices for Sequential units, largest choices for the others."
  },
  {
   "property": "C110",
   "status": "partial",
   "theorems": [
    "C110_dict_or_file_refuted",
    "C110_dict_or_file_partial"
   ],
   "note": "Refuted: with a file, default_args are not merged into the init_args of a unit. Proved without from_cfg, when all units list channels, or when they hold only choices."
  },
  {
   "property": "C111",
   "status": "partial",
   "theorems": [
    "C111_prepare_again_refuted",
    "C111_prepare_again_partial"
   ],
   "note": "Refuted: from_cfg is removed by the first call, so the second ignores the choices. Proved for all other parse_cfg."
  },
  {
   "property": "C112",
   "status": "partial",
   "theorems": [
    "C112_transposed",
    "C112_settable_refuted",
    "C112_settable_partial"
   ],
   "note": "Refuted: subnets hold the candidates as written, units hold them rounded to the divisor, so setting a subnet can raise AssertionError. Proved: subnets are the transposed table, uneven rows are refused, and all subnets can be set when candidates are multiples of the divisor."
  },
  {
   "property": "C113",
   "status": "partial",
   "theorems": [
    "C113_graph",
    "C113_tied_partial",
    "C113_accepted",
    "C113_registered",
    "C113_read_partial",
    "C113_read_refuted"
   ],
   "note": "Refuted: a range after a gap cannot be read back (a concatenated network input leaves one). Proved for ranges without a gap, and for all aligned channel graphs: all masks can be read and tied channels agree."
  },
  {
   "property": "C114",
   "status": "partial",
   "theorems": [
    "C114_units",
    "C114_flag_partial",
    "C114_flag_refuted",
    "C114_prepared_refuted",
    "C114_prepared_partial",
    "C114_register"
   ],
   "note": "Refuted: unit_predefined is popped by the first unit, so only that one gets it, and a later unit with a range narrower than its mutable raises NotImplementedError. Proved: which models give units and which channels they list; containers are unchanged when no range is narrower than its mutable."
  },
  {
   "property": "C115",
   "status": "proved",
   "theorems": [
    "C115_read_back",
    "C115_graph"
   ],
   "note": "For tidy lists of units (C113); the corollary is for channel graphs. Before any mask was read."
  },
  {
   "property": "C116",
   "status": "partial",
   "theorems": [
    "C116_step_partial",
    "C116_run_partial",
    "C116_slimmable_partial",
    "C116_each",
    "C116_refuted",
    "C116_losses_refuted",
    "C116_losses_partial",
    "C116_other_entries",
    "C116_teacher_first"
   ],
   "note": "Refuted: with another accumulative_counts than the number of subnets the steps are taken in between (1: after each subnet, proved as C116_each) and gradients are left over; a distillation loss with the name of an own loss replaces it. Proved: with the matching number, one averaged step per iteration, also over resumed runs; disjoint names train all losses."
  },
  {
   "property": "C117",
   "status": "partial",
   "theorems": [
    "C117_config_partial",
    "C117_tracer_partial",
    "C117_ends",
    "C117_refuted"
   ],
   "note": "Refuted: for units found by the tracer, own init_args replace default_args altogether. Proved: the order holds for units read from a configuration with channels; what tracer units get; the ends of the candidates."
  },
  {
   "property": "C118",
   "status": "partial",
   "theorems": [
    "C118_sorted_partial",
    "C118_order_partial",
    "C118_optional_refuted",
    "C118_unnamed_refuted"
   ],
   "note": "Refuted: an omitted optional input (an empty name) raises KeyError; nodes without a name are sorted wrongly. Proved: for graphs with unique node names where every input has a producer, the result is a topologically ordered permutation; it fails, with RuntimeError, only if no order exists."
  },
  {
   "property": "C119",
   "status": "partial",
   "theorems": [
    "C119_same_partial",
    "C119_kept_partial",
    "C119_outputs_refuted",
    "C119_unused_refuted"
   ],
   "note": "Refuted: a node fed by graph inputs and initializers only whose output is a graph output is removed (single-node network), which loses the output; an initializer used only by removed nodes stays. Proved: if no graph output comes from an isolated node or an unused initializer, the outputs are kept for all operators and inputs; what is removed is characterised."
  },
  {
   "property": "C120",
   "status": "partial",
   "theorems": [
    "C120_same_partial",
    "C120_last_refuted",
    "C120_computed_refuted",
    "C120_kept_refuted"
   ],
   "note": "Refuted: a Pad whose output is the graph output raises KeyError, as does padding computed at run time; a padded tensor that is used and also a graph output is lost as output. Proved: with constant paddings whose zero-padded outputs are used and are not graph outputs, it succeeds, keeps all outputs for all operators and inputs, and removes exactly the paddings with zero amounts."
  },
  {
   "property": "C121",
   "status": "partial",
   "theorems": [
    "C121_checks",
    "C121_same_partial",
    "C121_int8",
    "C121_axis_refuted",
    "C121_narrow_refuted"
   ],
   "note": "Refuted: quantize and dequantize lose the axis of per-channel nodes, and the range -127..127 becomes -128..127. Proved: for graphs whose quantizers the pair expresses the outputs are the same for all inputs; a quantizer of another width or with a zero point is never let through (C121_checks)."
  },
  {
   "property": "C122",
   "status": "partial",
   "theorems": [
    "C122_removed_partial",
    "C122_fails",
    "C122_none",
    "C122_refuted",
    "C122_all_refuted"
   ],
   "note": "Refuted: a constant that only the last fake-quantize node uses is listed twice and removing it again raises ValueError; constants of earlier nodes are left over. Proved: exactly when the step fails (C122_fails) and what it removes otherwise."
  },
  {
   "property": "C123",
   "status": "partial",
   "theorems": [
    "C123_same_partial",
    "C123_ranges",
    "C123_axis_refuted",
    "C123_names_refuted",
    "C123_shape",
    "C123_shape_vector"
   ],
   "note": "Refuted: the shape of weights that are transposed first is not found, so the ranges of the rows are applied to the columns; a tensor quantized twice with different parameters gets the first range for both. Proved: for graphs whose quantizers FakeQuantize represents and whose constants can be removed (C122), the outputs are the same for all operators and inputs and nothing unused is left; the range of per-tensor nodes represents them (C123_ranges); the shape of the ranges (C123_shape, C123_shape_vector)."
  },
  {
   "property": "C124",
   "status": "partial",
   "theorems": [
    "C124_same_partial",
    "C124_even_partial",
    "C124_close",
    "C124_halfway_refuted",
    "C124_channels"
   ],
   "note": "Over the reals. Refuted: halfway between two steps when the lowest value and the zero point have different parity (range -127..127). Proved: equal for all numbers that are not halfway for all roundings to nearest, for all numbers with the same parity, and never more than one step apart."
  },
  {
   "property": "C125",
   "status": "partial",
   "theorems": [
    "C125_op_partial",
    "C125_method_partial",
    "C125_function_partial",
    "C125_module_partial",
    "C125_meaning_partial",
    "C125_shared_refuted"
   ],
   "note": "Proved for well-formed graphs (topological order, quantizers with one unquantized input, each quantizer module called by one node, modules that are children of the root). If two nodes call the same quantizer module, deleting one leaves the other without module (C125_shared_refuted)."
  },
  {
   "property": "C126",
   "status": "partial",
   "theorems": [
    "C126_op_partial",
    "C126_method_partial",
    "C126_function_partial",
    "C126_safe_partial",
    "C126_output_partial",
    "C126_square_refuted",
    "C126_only_refuted",
    "C126_tuple_refuted"
   ],
   "note": "Exact if no quantizer is met twice. Otherwise only quantizers go or an assertion fails (C126_safe_partial): for q(x) * q(x) the assertion fails (C126_square_refuted), two targets sharing a quantizer delete quantizers further back (C126_only_refuted), quantizers in an output tuple stay (C126_tuple_refuted)."
  },
  {
   "property": "C127",
   "status": "partial",
   "theorems": [
    "C127_exact_partial",
    "C127_residual_refuted",
    "C127_keyword_refuted"
   ],
   "note": "Exact if those modules are called with a positional node. A quantizer shared with other nodes is deleted for them too (C127_residual_refuted); a call by keyword raises IndexError (C127_keyword_refuted)."
  },
  {
   "property": "C128",
   "status": "partial",
   "theorems": [
    "C128_safe_partial",
    "C128_backend_partial",
    "C128_pool_refuted"
   ],
   "note": "Safe for all patterns (given C127 calls are positional); exact if walking back from the output meets no quantizer that an earlier pass deletes. Otherwise the walk goes on: with a MaxPool2d as last layer the quantizer before the pooling goes too (C128_pool_refuted)."
  },
  {
   "property": "C129",
   "status": "partial",
   "theorems": [
    "C129_one_mode_iff",
    "C129_one_mode",
    "C129_all_modes_partial",
    "C129_modes",
    "C129_sync_refuted",
    "C129_more_refuted"
   ],
   "note": "Proved exactly when and how one mode is synchronized, and that all modes are, given that each other mode needs only what the source has. Refuted in general: a None child outside the quantizers is an AttributeError since the loop tests the parent for None (C129_sync_refuted), a quantizer that only the other mode has is a KeyError (C129_more_refuted)."
  },
  {
   "property": "C130",
   "status": "partial",
   "theorems": [
    "C130_batch_norms_partial",
    "C130_none_left_partial",
    "C130_new_modules",
    "C130_float_functionals_partial",
    "C130_tensors_refuted",
    "C130_shared_refuted",
    "C130_order_refuted"
   ],
   "note": "Proved where things are replaced if no parent registers a module under two names. Refuted: parameters and running statistics of converted norms are not kept (C130_tensors_refuted), a norm under a second name stays (C130_shared_refuted), swapped float functionals move behind their siblings (C130_order_refuted)."
  },
  {
   "property": "C131",
   "status": "partial",
   "theorems": [
    "C131_reset_partial",
    "C131_structure",
    "C131_observers_refuted"
   ],
   "note": "Exact effect proved. Refuted: observers that are not MinMaxObserver or PerChannelMinMaxObserver, such as HistogramObserver, keep the statistics of the random dummy input."
  },
  {
   "property": "C132",
   "status": "partial",
   "theorems": [
    "C132_val_partial",
    "C132_learning",
    "C132_observation_partial",
    "C132_gradients_partial",
    "C132_observation_refuted",
    "C132_val_refuted",
    "C132_gradients_refuted"
   ],
   "note": "Proved: enable_val for scales of at least eps, enable_param_learning, outputs under enable_static_observation, gradients after any call about learning. Refuted: enable_static_observation overwrites scale and zero point at every forward pass; enable_val raises a scale below eps; a new module requires a gradient for the scale though learning is off."
  },
  {
   "property": "C133",
   "status": "partial",
   "theorems": [
    "C133_statistics_partial",
    "C133_scale_partial",
    "C133_first_refuted",
    "C133_positive_refuted",
    "C133_empty_refuted"
   ],
   "note": "Over the reals, one process. Proved: bounds over all batches, scale of the last batch, never negative and zero exactly for channels of zeros. Refuted: the scale is not that of the first batch; it can be 0, which is then divided by; an empty first input raises TypeError."
  },
  {
   "property": "C134",
   "status": "partial",
   "theorems": [
    "C134_run_partial",
    "C134_first_partial",
    "C134_refuted",
    "C134_arch_refuted"
   ],
   "note": "Over the reals, one vector of weights and one of architecture parameters, all of them part of the loss. Proved: the exact run and the first step of the architecture parameters. Refuted: the weights step along the sum of the gradients of both losses, and from the second iteration on the architecture parameters along a sum with the left-over gradient of the training loss."
  },
  {
   "property": "C135",
   "status": "partial",
   "theorems": [
    "C135_run_partial",
    "C135_refuted"
   ],
   "note": "Same model. Proved: the exact run. Refuted: there is no virtual step that lasts and the stored gradients are aliases, so the second-order term is zero and gradients of four backward passes are summed."
  },
  {
   "property": "C136",
   "status": "proved",
   "theorems": [
    "C136_restored",
    "C136_accepts",
    "C136_logs"
   ],
   "note": "Same model; the logs have distinct keys."
  },
  {
   "property": "C137",
   "status": "partial",
   "theorems": [
    "C137_new",
    "C137_mutator",
    "C137_frozen",
    "C137_finetune_partial",
    "C137_refuted"
   ],
   "note": "Proved: epochs of the mutator updates, constant parameters in all others, and one best subnet from epoch finetune_epochs on for runs that pass the first step of that epoch and reach no threshold. Refuted: after resuming behind finetune_epochs the supernet goes on sampling."
  },
  {
   "property": "C138",
   "status": "partial",
   "theorems": [
    "C138_partial",
    "C138_grouped",
    "C138_refuted"
   ],
   "note": "Proved without aliases and custom groups. Refuted: with two mutables in one group; as soon as there is such a group, some mutable does not get its own parameters."
  },
  {
   "property": "C139",
   "status": "partial",
   "theorems": [
    "C139_step_partial",
    "C139_none",
    "C139_loss_partial",
    "C139_refuted"
   ],
   "note": "Proved: the exact step, the samples and the condition of the flops term. Refuted: the gradients are multiplied after the step and after zero_grad; with PyTorch 2 (gradients set to None) every update raises."
  },
  {
   "property": "C140",
   "status": "partial",
   "theorems": [
    "C140_runs_partial",
    "C140_refuted"
   ],
   "note": "Proved if no threshold is reached (gradients set to zero). Refuted: after a threshold the best operation is looked up among the one candidate that is left, which raises IndexError."
  },
  {
   "property": "C141",
   "status": "partial",
   "theorems": [
    "C141_accepts",
    "C141_unmapped",
    "C141_computes_partial",
    "C141_missing_refuted",
    "C141_default_refuted",
    "C141_option_refuted"
   ],
   "note": "Proved: which configurations are accepted, and that losses are computed if all required parameters are mapped, there are no unknown options and the mappings of parameters with defaults are valid. Refuted without these: none of them is checked."
  },
  {
   "property": "C142",
   "status": "proved",
   "theorems": [
    "C142_values",
    "C142_frame"
   ],
   "note": "Connectors, losses, indexing and detach are arbitrary functions."
  },
  {
   "property": "C143",
   "status": "partial",
   "theorems": [
    "C143_run_partial",
    "C143_dafl_partial",
    "C143_ideal_partial",
    "C143_refuted",
    "C143_first_refuted",
    "C143_dafl_refuted"
   ],
   "note": "Over the reals, one vector of weights each, without batch statistics. Proved: the exact runs, and the documented one if the generator losses have no gradient for the student. Refuted: the gradient of the generator losses for the student is never cleared and is added to the next step of the student (also in DAFL)."
  },
  {
   "property": "C144",
   "status": "proved",
   "theorems": [
    "C144_rounds",
    "C144_logs",
    "C144_dafl"
   ],
   "note": "The logged dictionaries have distinct keys."
  },
  {
   "property": "C145",
   "status": "proved",
   "theorems": [
    "C145_forward",
    "C145_images",
    "C145_heads"
   ],
   "note": "Elements are of any type with any addition and multiplication; dropout is the identity; inputs have three dimensions."
  },
  {
   "property": "C146",
   "status": "proved",
   "theorems": [
    "C146_embedding",
    "C146_dynamic",
    "C146_square",
    "C146_injective"
   ],
   "note": "int(n**0.5) is the integer square root."
  },
  {
   "property": "C147",
   "status": "partial",
   "theorems": [
    "C147_exports",
    "C147_same_partial",
    "C147_range_refuted",
    "C147_scale_refuted",
    "C147_heads_refuted",
    "C147_bias_refuted",
    "C147_convert_refuted"
   ],
   "note": "Holds for heads of width 64, the default scale and max_relative_position 14, with a bias in all projections. Refuted without: max_relative_position, qk_scale and the head width are lost, a missing bias is an AttributeError, and convert_from copies no weights."
  },
  {
   "property": "C148",
   "status": "proved",
   "theorems": [
    "C148_register",
    "C148_run",
    "C148_get",
    "C148_unknown"
   ],
   "note": "Mutables are opaque; the checks of the class are any function."
  },
  {
   "property": "C149",
   "status": "partial",
   "theorems": [
    "C149_forward",
    "C149_export",
    "C149_run_partial",
    "C149_bare_partial",
    "C149_plain_partial",
    "C149_again_refuted",
    "C149_run_refuted",
    "C149_bare_refuted",
    "C149_convert_refuted"
   ],
   "note": "Proved: forward and export with a mutable registered; registrations under channel names never break the layer. Refuted: forward overwrites normalized_shape, so num_features registered again after a forward is checked against the narrowed width; nothing registered raises KeyError; convert_from drops the weights."
  },
  {
   "property": "C150",
   "status": "partial",
   "theorems": [
    "C150_forward",
    "C150_export",
    "C150_same",
    "C150_register_partial",
    "C150_register_refuted",
    "C150_bare_refuted"
   ],
   "note": "Proved: forward, export and the exact acceptance condition. Refuted: a depth of one more than the number of children is accepted (mutable_attrs is counted) and an unregistered depth raises KeyError."
  },
  {
   "property": "C151",
   "status": "partial",
   "theorems": [
    "C151_tokens",
    "C151_forward",
    "C151_exports",
    "C151_same_partial",
    "C151_convert_partial",
    "C151_norm_refuted",
    "C151_padding_refuted",
    "C151_bias_refuted",
    "C151_convert_refuted"
   ],
   "note": "Proved: forward with a mask, when export works, same function without normalisation, padding and dilation and for stride 16. Refuted: export drops normalisation and padding, needs a bias; conversion ignores the stride."
  },
  {
   "property": "C152",
   "status": "partial",
   "theorems": [
    "C152_exact",
    "C152_attentive_refuted",
    "C152_kernel_refuted",
    "C152_padding_refuted",
    "C152_excite_refuted",
    "C152_dilated_refuted",
    "C152_skip_refuted",
    "C152_zero_refuted",
    "C152_up",
    "C152_shape",
    "C152_exchange"
   ],
   "note": "Seven operations that can be built do not return the shape of their choice: refuted with witnesses."
  },
  {
   "property": "C153",
   "status": "partial",
   "theorems": [
    "C153_forward",
    "C153_resolution",
    "C153_outputs_partial",
    "C153_outputs_refuted",
    "C153_index"
   ],
   "note": "out_indices out of order or beyond a short architecture do not give the maps they name: refuted."
  },
  {
   "property": "C154",
   "status": "partial",
   "theorems": [
    "C154_train",
    "C154_frozen",
    "C154_missing",
    "C154_conv1_refuted"
   ],
   "note": "The first convolution keeps its training mode although it is frozen: refuted."
  },
  {
   "property": "C155",
   "status": "partial",
   "theorems": [
    "C155_forward",
    "C155_last",
    "C155_index",
    "C155_size_refuted",
    "C155_aux_partial",
    "C155_aux_refuted",
    "C155_empty"
   ],
   "note": "Sides not divisible by 4 and small images with the auxiliary module: refuted."
  },
  {
   "property": "C156",
   "status": "proved",
   "theorems": [
    "C156_copy",
    "C156_clash",
    "C156_fx"
   ],
   "note": "Proved for every converter and every graph reachable by graph operations; two different images of one name raise."
  },
  {
   "property": "C157",
   "status": "proved",
   "theorems": [
    "C157_check",
    "C157_fixed",
    "C157_fix",
    "C157_misplaced"
   ],
   "note": "Exact acceptance condition of check, and exactly which nodes and edges check(fix=True) adds."
  },
  {
   "property": "C158",
   "status": "partial",
   "theorems": [
    "C158_bind",
    "C158_single",
    "C158_rename_partial",
    "C158_other",
    "C158_cyclic",
    "C158_rename_refuted"
   ],
   "note": "The full claim that renaming loses no node is refuted (C158_rename_refuted): a module of the model named like a placeholder, e.g. 'bind_0', and the placeholder of that name end under one key, so one node vanishes from the graph. C158_rename_partial proves the claim for models without such names; the part on bind nodes (C158_bind, C158_single) is proved in full."
  },
  {
   "property": "C159",
   "status": "proved",
   "theorems": [
    "C159_parse",
    "C159_names"
   ],
   "note": "Nodes and edges of the parsed graph, and exactly which concatenations are merged."
  },
  {
   "property": "C160",
   "status": "proved",
   "theorems": [
    "C160_mean",
    "C160_negative",
    "C160_loss"
   ],
   "note": "Stated with the antiderivative of the density that vanishes at minus infinity (whose existence is proved); zero weights raise."
  },
  {
   "property": "C161",
   "status": "proved",
   "theorems": [
    "C161_init",
    "C161_connect",
    "C161_unknown",
    "C161_uninitialized"
   ],
   "note": "Exact condition for success and the margins of every connector."
  },
  {
   "property": "C162",
   "status": "partial",
   "theorems": [
    "C162_keeps_partial",
    "C162_range_refuted",
    "C162_transposed_refuted",
    "C162_read",
    "C162_nested",
    "C162_none"
   ],
   "note": "Ranking, reading and nesting are proved for units of convolutions and linear layers. Refuted: rounding to the divisor can exceed the number of channels, and then setting raises (C162_range_refuted). Refuted: transposed convolutions are ranked by the weights of their inputs (C162_transposed_refuted). A unit without convolutions and linear layers raises ZeroDivisionError for every choice (C162_none)."
  },
  {
   "property": "C163",
   "status": "proved",
   "theorems": [
    "C163_pooled",
    "C163_shares",
    "C163_convex",
    "C163_sharp",
    "C163_unpruned"
   ],
   "note": "Over the real numbers."
  },
  {
   "property": "C164",
   "status": "partial",
   "theorems": [
    "C164_fuse_partial",
    "C164_fuse_refuted",
    "C164_square",
    "C164_all",
    "C164_groups",
    "C164_dcff",
    "C164_static",
    "C164_exports"
   ],
   "note": "Proved for square kernels (C164_fuse_partial) and the rest in full. Refuted for other kernels: the fused weight is reshaped with the kernel height for both sides, so a 1x3 kernel turns one kept filter into three 1x1 filters (C164_fuse_refuted)."
  },
  {
   "property": "C165",
   "status": "proved",
   "theorems": [
    "C165_temperature",
    "C165_no_iterations"
   ],
   "note": "Over the real numbers, so exp(-max) is never rounded."
  },
  {
   "property": "C166",
   "status": "partial",
   "theorems": [
    "C166_values",
    "C166_refused",
    "C166_bound_partial",
    "C166_bound_refuted"
   ],
   "note": "The second entry of a range is only a value when the step divides the distance, and never for a descending range (C166_bound_refuted); the exact values and what is accepted are proved in general."
  },
  {
   "property": "C167",
   "status": "partial",
   "theorems": [
    "C167_activations",
    "C167_consumed",
    "C167_default",
    "C167_once",
    "C167_rebuild_refuted"
   ],
   "note": "Building twice from the same arguments does not give the same network (C167_rebuild_refuted): the caller's list is popped in place. What each construction uses and leaves is proved for all lists."
  },
  {
   "property": "C168",
   "status": "partial",
   "theorems": [
    "C168_forward_partial",
    "C168_square",
    "C168_widest",
    "C168_even",
    "C168_widths",
    "C168_forward_refuted"
   ],
   "note": "Refuted in full (C168_forward_refuted) by plain shortcuts between two chosen widths, by sides of different parity at attentive shortcuts and by depth 0; proved for all other choices, in particular for all square inputs with attentive shortcuts and for the widest subnet without them."
  },
  {
   "property": "C169",
   "status": "partial",
   "theorems": [
    "C169_range",
    "C169_refused",
    "C169_count",
    "C169_frozen_partial",
    "C169_exists_refuted"
   ],
   "note": "Accepted indices and stages need not exist (C169_exists_refuted); how many maps come out and when freezing raises is proved exactly."
  },
  {
   "property": "C170",
   "status": "proved",
   "theorems": [
    "C170_forward",
    "C170_channels",
    "C170_heads",
    "C170_width"
   ],
   "note": "int(k * ratio) is any growing function; the condition on images is exact"
  },
  {
   "property": "C171",
   "status": "partial",
   "theorems": [
    "C171_patch_refuted",
    "C171_patch_partial"
   ],
   "note": "Refuted for patch sizes other than 16 (C171_patch_refuted); the exact condition is proved."
  },
  {
   "property": "C172",
   "status": "partial",
   "theorems": [
    "C172_order_refuted",
    "C172_depth",
    "C172_heads",
    "C172_ratios",
    "C172_again_refuted",
    "C172_again_partial",
    "C172_settles"
   ],
   "note": "Refuted (C172_order_refuted, C172_again_refuted): each list must end with its largest entry. What happens otherwise is proved for each list (C172_depth, C172_heads, C172_ratios, C170_width), and that building settles after the first time."
  },
  {
   "property": "C173",
   "status": "partial",
   "theorems": [
    "C173_encode",
    "C173_roundtrip_partial",
    "C173_single_refuted",
    "C173_injective",
    "C173_refused"
   ],
   "note": "Decoding fails for vectors of one entry (C173_single_refuted); encoding is total and injective, and decoding inverts it for all longer vectors."
  },
  {
   "property": "C174",
   "status": "partial",
   "theorems": [
    "C174_order_refuted",
    "C174_channel",
    "C174_same_partial",
    "C174_vector"
   ],
   "note": "Refuted with aliases (C174_order_refuted); C174_channel shows that channel mutables always make predict raise; C174_same_partial proves the claim for mutables without aliases, custom groups and derived mutables."
  },
  {
   "property": "C175",
   "status": "partial",
   "theorems": [
    "C175_checkpoint",
    "C175_checkpoint_refuted",
    "C175_trained_partial",
    "C175_samples",
    "C175_encoding",
    "C175_scored"
   ],
   "note": "Refuted for predictors loaded from a checkpoint (C175_checkpoint_refuted, C175_checkpoint); proved for trained ones."
  },
  {
   "property": "C176",
   "status": "partial",
   "theorems": [
    "C176_accepts",
    "C176_forward",
    "C176_usable_partial",
    "C176_usable_refuted"
   ],
   "note": "the constructor and the accepted features are characterised exactly; that every connector is usable is refuted (default stride 1, or fewer output than input channels), and the exact condition is C176_usable_partial"
  },
  {
   "property": "C177",
   "status": "partial",
   "theorems": [
    "C177_stride_partial",
    "C177_stride_refuted",
    "C177_gaussian",
    "C177_whole"
   ],
   "note": "that the block pools by maxpool_stride is refuted: it pools by twice that (C177_stride_partial), and gaussian mode with sub_sample accepts nothing (C177_gaussian)"
  },
  {
   "property": "C178",
   "status": "proved",
   "theorems": [
    "C178_spatial",
    "C178_channel",
    "C178_order"
   ],
   "note": "exact reals"
  },
  {
   "property": "C179",
   "status": "proved",
   "theorems": [
    "C179_unit",
    "C179_scale",
    "C179_similarity"
   ],
   "note": "exact reals; a zero image gives a division by zero"
  },
  {
   "property": "C180",
   "status": "proved",
   "theorems": [
    "C180_masked",
    "C180_ratio",
    "C180_forward"
   ],
   "note": "exact reals; torch.rand is an argument"
  },
  {
   "property": "C181",
   "status": "proved",
   "theorems": [
    "C181_factors",
    "C181_reconstruction"
   ],
   "note": "shapes only"
  },
  {
   "property": "C182",
   "status": "partial",
   "theorems": [
    "C182_best",
    "C182_raises",
    "C182_split",
    "C182_split_partial",
    "C182_split_refuted",
    "C182_width"
   ],
   "note": "the kept network, the split and the exact condition for raising are proved; that every split works is refuted (no validation samples)"
  },
  {
   "property": "C183",
   "status": "proved",
   "theorems": [
    "C183_trees",
    "C183_order",
    "C183_predict"
   ],
   "note": "exact rationals; how a tree is fitted is a parameter"
  },
  {
   "property": "C184",
   "status": "partial",
   "theorems": [
    "C184_interval_partial",
    "C184_interval_refuted",
    "C184_iterations"
   ],
   "note": "the claim is refuted by an offset of one epoch; the exact epochs are proved (mmengine counts the epoch before validating)"
  },
  {
   "property": "C185",
   "status": "partial",
   "theorems": [
    "C185_current_partial",
    "C185_current_refuted",
    "C185_fixed"
   ],
   "note": "refuted for supernets: random choices are reported; what is reported and changed is proved"
  },
  {
   "property": "C186",
   "status": "partial",
   "theorems": [
    "C186_exact",
    "C186_nested_refuted",
    "C186_inplace_partial"
   ],
   "note": "Refuted (C186_nested_refuted): the recursion stops at a module with an attribute inplace, so the activation of a ConvModule keeps working in place. What happens to every module is proved exactly; the claim holds when no module with the attribute contains one that works in place."
  },
  {
   "property": "C187",
   "status": "proved",
   "theorems": [
    "C187_frozen",
    "C187_mode"
   ],
   "note": "the loading of a checkpoint is left out"
  },
  {
   "property": "C188",
   "status": "partial",
   "theorems": [
    "C188_fpn_refuted",
    "C188_reports_partial",
    "C188_fpn"
   ],
   "note": "Refuted (C188_fpn_refuted): FpnTeacherDistill ignores calculate_student_loss (and never reports a trainable teacher). Proved for the other two and for FpnTeacherDistill with the default switches."
  },
  {
   "property": "C189",
   "status": "partial",
   "theorems": [
    "C189_student_refuted",
    "C189_gradients_partial",
    "C189_passes"
   ],
   "note": "Refuted (C189_student_refuted): student_trainable=False has no effect unless calculate_student_loss=False, and none at all in FpnTeacherDistill. The exact condition is proved."
  },
  {
   "property": "C190",
   "status": "partial",
   "theorems": [
    "C190_self_refuted",
    "C190_self",
    "C190_teacher_partial"
   ],
   "note": "Refuted (C190_self_refuted): SelfDistill overrides from the start, so a delivery that is called always fails. Proved for the two algorithms with a teacher."
  },
  {
   "property": "C191",
   "status": "partial",
   "theorems": [
    "C191_method_refuted",
    "C191_records_partial"
   ],
   "note": "Refuted (C191_method_refuted): of two method recorders only the teacher one records. Proved for function and module recorders."
  },
  {
   "property": "C192",
   "status": "partial",
   "theorems": [
    "C192_registry",
    "C192_name_refuted",
    "C192_leak_refuted",
    "C192_other_refuted",
    "C192_single_partial"
   ],
   "note": "Refuted: methods are kept by name alone, so two classes with a skipped method of the same name lose one (C192_name_refuted); methods of tracers constructed earlier stay replaced (C192_leak_refuted); a tracer constructed later takes over the calls (C192_other_refuted). The exact contents of the registry after any history are proved, and the property for one tracer with distinct method names."
  },
  {
   "property": "C193",
   "status": "partial",
   "theorems": [
    "C193_class",
    "C193_short_refuted",
    "C193_method_partial"
   ],
   "note": "Refuted (C193_short_refuted): a method of a top-level class given as Class.method raises. Proved for paths with a module."
  },
  {
   "property": "C194",
   "status": "partial",
   "theorems": [
    "C194_nested_refuted",
    "C194_twice_refuted",
    "C194_prepare_partial",
    "C194_missing"
   ],
   "note": "Refuted: a module inside another module raises AttributeError (C194_nested_refuted); a second get_attr node of the same module forgets the methods called before (C194_twice_refuted). Proved, with exactly the called methods, for top-level modules fetched once."
  },
  {
   "property": "C195",
   "status": "partial",
   "theorems": [
    "C195_names_refuted",
    "C195_separated_partial"
   ],
   "note": "Refuted (C195_names_refuted): a module already named like a copy is replaced by the copy. Proved for graphs in which no called module has such a name."
  },
  {
   "property": "C196",
   "status": "partial",
   "theorems": [
    "C196_fixed_refuted",
    "C196_observed_partial",
    "C196_modes"
   ],
   "note": "Refuted (C196_fixed_refuted): torch operations with fixed parameters (a sigmoid) are observed although listed. Which qconfig every class gets is proved."
  },
  {
   "property": "C197",
   "status": "proved",
   "theorems": [
    "C197_priority",
    "C197_accepts"
   ],
   "note": ""
  },
  {
   "property": "C198",
   "status": "partial",
   "theorems": [
    "C198_relative",
    "C198_failure_refuted",
    "C198_config_refuted",
    "C198_success_partial"
   ],
   "note": "Refuted: when building a graph fails the records stay popped (C198_failure_refuted); the function names of the deployment configuration are removed from it (C198_config_refuted). Proved when building succeeds."
  },
  {
   "property": "C199",
   "status": "partial",
   "theorems": [
    "C199_deployed",
    "C199_complete",
    "C199_root_refuted"
   ],
   "note": ""
  },
  {
   "property": "C200",
   "status": "partial",
   "theorems": [
    "C200_range_refuted",
    "C200_learned_refuted",
    "C200_halfway_refuted",
    "C200_keeps_refuted",
    "C200_used_partial",
    "C200_observed_partial"
   ],
   "note": "Refuted: the observer recomputes parameters from the fake-quantized weights and gets others in a symmetric scheme with the default range -128..127 (C200_range_refuted), for learned scales that do not use the whole range (C200_learned_refuted), and in affine schemes with the least weight halfway between steps (C200_halfway_refuted). Proved when the range is used to its ends, which observed parameters of symmetric ranges always do."
  },
  {
   "property": "C201",
   "status": "partial",
   "theorems": [
    "C201_same_refuted",
    "C201_directory_refuted",
    "C201_named_partial"
   ],
   "note": "Refuted: a path without .onnx is overwritten (C201_same_refuted); .onnx in a directory name changes the directory (C201_directory_refuted). Proved when .onnx occurs only as the extension."
  },
  {
   "property": "C202",
   "status": "proved",
   "theorems": [
    "C202_range",
    "C202_range2",
    "C202_reached",
    "C202_sensible"
   ],
   "note": ""
  },
  {
   "property": "C203",
   "status": "partial",
   "theorems": [
    "C203_ignored_refuted",
    "C203_translate_refuted",
    "C203_obeys_partial"
   ],
   "note": "Refuted: the augmentations of auto_augmentv2.py never look at their parameters, so they fill with black and always use nearest (C203_ignored_refuted); translate_const is ignored (C203_translate_refuted). Proved for colour and resampling in auto_augment.py."
  },
  {
   "property": "C204",
   "status": "proved",
   "theorems": [
    "C204_fields",
    "C204_fields2",
    "C204_total",
    "C204_policies",
    "C204_sequence",
    "C204_unknown"
   ],
   "note": ""
  },
  {
   "property": "C205",
   "status": "partial",
   "theorems": [
    "C205_second_refuted",
    "C205_first_partial",
    "C205_inputs",
    "C205_data"
   ],
   "note": "Refuted (C205_second_refuted): meta_keys becomes a generator that is used up by the first sample with an index, so all later samples have no meta information. Proved exactly which samples have it; images, labels and indices are proved for all."
  },
  {
   "property": "C206",
   "status": "partial",
   "theorems": [
    "C206_warmup_refuted",
    "C206_unit_refuted",
    "C206_mean_partial",
    "C206_returned"
   ],
   "note": "Refuted: with num_warmup 0 one pass more is counted than is made, as the numbers start at 1 (C206_warmup_refuted); a unit other than ms is printed after a number of milliseconds (C206_unit_refuted). Proved from num_warmup 1 on, and when it returns."
  },
  {
   "property": "C207",
   "status": "proved",
   "theorems": [
    "C207_float",
    "C207_position",
    "C207_missing",
    "C207_ceil"
   ],
   "note": ""
  },
  {
   "property": "C208",
   "status": "partial",
   "theorems": [
    "C208_nested_refuted",
    "C208_directory_partial",
    "C208_names",
    "C208_steps",
    "C208_due"
   ],
   "note": "Refuted (C208_nested_refuted): out_dir is joined to the working directory again at each stage, so with a relative work_dir (the default) the directory gets deeper each time. Proved for absolute paths; names, steps and intervals are proved for all."
  },
  {
   "property": "C209",
   "status": "proved",
   "theorems": [
    "C209_scope",
    "C209_threads",
    "C209_again"
   ],
   "note": ""
  },
  {
   "property": "C210",
   "status": "partial",
   "theorems": [
    "C210_module_refuted",
    "C210_each_partial"
   ],
   "note": "Refuted (C210_module_refuted): any model with a child called module is taken for a wrapper. Proved for all models without such a child and for wrapped models."
  },
  {
   "property": "C211",
   "status": "proved",
   "theorems": [
    "C211_forward",
    "C211_adjoint"
   ],
   "note": ""
  },
  {
   "property": "C212",
   "status": "partial",
   "theorems": [
    "C212_norm_refuted",
    "C212_shapes_partial",
    "C212_depth",
    "C212_built",
    "C212_residual"
   ],
   "note": "Refuted (C212_norm_refuted): forward asks for bn1 and bn2, so a network built with any norm layer but batch norm raises AttributeError. Proved for batch norm, for all options and sizes; depth and stages are proved for all."
  },
  {
   "property": "C213",
   "status": "partial",
   "theorems": [
    "C213_frozen_refuted",
    "C213_never_frozen",
    "C213_drop_refuted",
    "C213_blocks",
    "C213_identity"
   ],
   "note": "Refuted: _freeze_stages runs before norm1 exists, so no network with frozen_stages >= 0 can be built (C213_frozen_refuted, C213_never_frozen); ResLayer does not pass droprate on (C213_drop_refuted). Strides, dilations and zero_init_residual are proved."
  },
  {
   "property": "C214",
   "status": "partial",
   "theorems": [
    "C214_classifier_refuted",
    "C214_detector_refuted",
    "C214_pose_refuted",
    "C214_segmentor_refuted",
    "C214_asked_partial",
    "C214_class",
    "C214_rotate"
   ],
   "note": "Refuted: more than four images for classifiers raise IndexError, detectors always get one image, segmentors never train, and for pose estimators the shape is taken for the training flag and width and height are swapped. Proved for the other cases."
  },
  {
   "property": "C215",
   "status": "partial",
   "theorems": [
    "C215_default_refuted",
    "C215_call_refuted",
    "C215_shape_partial"
   ],
   "note": "Refuted: the default shape of DefaultMMYoloDemoInput is not used by its constructor (C215_default_refuted) and a generator that is called ignores its own shape (C215_call_refuted). Proved for get_data and the other generators."
  },
  {
   "property": "C216",
   "status": "partial",
   "theorems": [
    "C216_release",
    "C216_candidate",
    "C216_suffix_refuted",
    "C216_empty"
   ],
   "note": "Refuted (C216_suffix_refuted): the last number of a version such as 1.0.2b1 is dropped. Proved for releases and release candidates."
  },
  {
   "property": "C217",
   "status": "proved",
   "theorems": [
    "C217_fastest",
    "C217_cached",
    "C217_key",
    "C217_default"
   ],
   "note": ""
  },
  {
   "property": "C218",
   "status": "partial",
   "theorems": [
    "C218_cached_refuted",
    "C218_reset_partial",
    "C218_overwrite",
    "C218_conflict"
   ],
   "note": "Refuted (C218_cached_refuted): once a key is tuned (or with a single configuration) the tensors are not reset, so an accumulating kernel adds to what was there. Proved for the first call and for kernels that overwrite."
  },
  {
   "property": "C219",
   "status": "partial",
   "theorems": [
    "C219_pruner",
    "C219_pruner_raises",
    "C219_nearest",
    "C219_optional_refuted",
    "C219_fraction_refuted",
    "C219_generator",
    "C219_top",
    "C219_share"
   ],
   "note": "Refuted: leaving out early_config_prune raises UnboundLocalError (C219_optional_refuted), a small fraction for top_k leaves nothing to try (C219_fraction_refuted). The pruner, the model and the keys are proved; the pruner is a generator, so it cannot be combined with a model (C219_generator)."
  },
  {
   "property": "C220",
   "status": "partial",
   "theorems": [
    "C220_once",
    "C220_covered",
    "C220_methods",
    "C220_classes",
    "C220_refuted",
    "C220_partial",
    "C220_names"
   ],
   "note": "Refuted as a claim about names: a function with two names, or one a module class of an earlier name binds, is patched only there (C220_refuted). Proved: at most once, somewhere for each function named or method of a module class named, and in full for a namespace of distinct functions."
  },
  {
   "property": "C221",
   "status": "partial",
   "theorems": [
    "C221_transparent",
    "C221_caught",
    "C221_never_raises",
    "C221_concrete",
    "C221_once_refuted",
    "C221_node_refuted",
    "C221_partial"
   ],
   "note": "Refuted: a wrapped function that rejects concrete arguments runs twice (C221_once_refuted), and nodes recorded before a failure stay (C221_node_refuted). Proved: transparency on success, no exception with a proxy argument, one node on failure."
  },
  {
   "property": "C222",
   "status": "partial",
   "theorems": [
    "C222_module",
    "C222_trace",
    "C222_graph",
    "C222_leaf",
    "C222_stopped",
    "C222_method_refuted",
    "C222_leftover_refuted",
    "C222_partial",
    "C222_inlined"
   ],
   "note": "Refuted: a module that fails with a wrapped forward is a call_method node (C222_method_refuted), and earlier nodes stay (C222_leftover_refuted). Proved: when trace fails, the shape of the graph, leaves, inlining and the node of a module that stopped."
  },
  {
   "property": "C223",
   "status": "partial",
   "theorems": [
    "C223_nearest",
    "C223_refuted",
    "C223_partial",
    "C223_chosen",
    "C223_undriven",
    "C223_default_refuted",
    "C223_scaled",
    "C223_rounded"
   ],
   "note": "Refuted: nearest, area and nearest-exact are accepted and always raise (C223_refuted), and the searchable resizer without a mutable and a size always raises (C223_default_refuted). Proved for the other types, and that a chosen size acts as the static resizer."
  },
  {
   "property": "C224",
   "status": "partial",
   "theorems": [
    "C224_mean",
    "C224_tuple",
    "C224_refuted",
    "C224_tensor",
    "C224_partial"
   ],
   "note": "Refuted: a tensor that is not in a tuple raises in evaluation or without dropout (C224_refuted, C224_tensor). The means are proved for every number of dimensions; the tensor case in training with dropout."
  },
  {
   "property": "C225",
   "status": "partial",
   "theorems": [
    "C225_shape",
    "C225_refuted",
    "C225_partial",
    "C225_small",
    "C225_other"
   ],
   "note": "Refuted: img_size 30 gives 28 (C225_refuted). Proved: the exact size for all inputs, and img_size when the squared scale factor divides it."
  },
  {
   "property": "C226",
   "status": "partial",
   "theorems": [
    "C226_sum",
    "C226_fails",
    "C226_refuted",
    "C226_partial"
   ],
   "note": "Refuted: an output without tensors gives the integer 0 (C226_refuted). Proved: the sum, when it fails, and when the result is a tensor."
  },
  {
   "property": "C227",
   "status": "partial",
   "theorems": [
    "C227_others",
    "C227_rate",
    "C227_refuted",
    "C227_order_partial"
   ],
   "note": "Refuted: blocks of other classes push rates above the one asked for (C227_refuted). Proved: the exact rate when all blocks are of the class, growth within a layer and what stays unchanged in general."
  },
  {
   "property": "C228",
   "status": "partial",
   "theorems": [
    "C228_last",
    "C228_norm_training",
    "C228_backbone",
    "C228_teacher",
    "C228_frozen_refuted",
    "C228_norm_eval_refuted",
    "C228_return_refuted",
    "C228_return_partial"
   ],
   "note": "Refuted: the stem of a frozen backbone trains (C228_frozen_refuted), norm_eval layers train in evaluation with norm_training (C228_norm_eval_refuted), train returns None (C228_return_refuted). Proved: the last call decides, and the modes after it."
  },
  {
   "property": "C229",
   "status": "partial",
   "theorems": [
    "C229_hooks",
    "C229_own_refuted",
    "C229_partial",
    "C229_shared_refuted",
    "C229_cover",
    "C229_disabled",
    "C229_reenter_refuted"
   ],
   "note": "Parameters of the model itself are never moved (C229_own_refuted), modules shared between places move tied parameters away (C229_shared_refuted) and re-entering an object leaks hooks (C229_reenter_refuted). Proved for all trees of distinct modules without parameters at the root."
  },
  {
   "property": "C230",
   "status": "partial",
   "theorems": [
    "C230_once",
    "C230_shared_refuted",
    "C230_partial",
    "C230_root_refuted"
   ],
   "note": "A module used under two names stays static under the second (C230_shared_refuted) and a mapped root gets a nameless child (C230_root_refuted). Each module is replaced exactly once; all places are if no module is used twice."
  },
  {
   "property": "C231",
   "status": "partial",
   "theorems": [
    "C231_restored",
    "C231_inside",
    "C231_early_refuted",
    "C231_entered"
   ],
   "note": "An object built before the default changed and entered later puts back the older default (C231_early_refuted). All programs that build the object in the with statement are covered."
  },
  {
   "property": "C232",
   "status": "proved",
   "theorems": [
    "C232_last",
    "C232_absent",
    "C232_swap",
    "C232_once"
   ],
   "note": ""
  },
  {
   "property": "C233",
   "status": "proved",
   "theorems": [
    "C233_linear",
    "C233_weighted_layers",
    "C233_static",
    "C233_native",
    "C233_conv"
   ],
   "note": ""
  },
  {
   "property": "C234",
   "status": "partial",
   "theorems": [
    "C234_root_kept_refuted",
    "C234_root_kept_partial"
   ],
   "note": "Refuted for the fused convolution + ReLU modules (C234_root_kept_refuted); C234_root_kept_partial proves it for every other pattern of the four tables and says what is left for these. For the native table the fixed-parameter operators are left out."
  },
  {
   "property": "C235",
   "status": "proved",
   "theorems": [
    "C235_share_names",
    "C235_share",
    "C235_binary"
   ],
   "note": ""
  },
  {
   "property": "C236",
   "status": "proved",
   "theorems": [
    "C236_release",
    "C236_outside"
   ],
   "note": ""
  },
  {
   "property": "C237",
   "status": "partial",
   "theorems": [
    "C237_value",
    "C237_zero",
    "C237_refused",
    "C237_elementwise_refuted"
   ],
   "note": "The docstring says the error is the mean of the relative squared differences of the elements (refuted: C237_elementwise_refuted). The value the code returns, when it is 0 and what it refuses is proved for all tensors."
  },
  {
   "property": "C238",
   "status": "proved",
   "theorems": [
    "C238_widest",
    "C238_narrowest",
    "C238_random",
    "C238_unknown",
    "C238_sequential"
   ],
   "note": "Plain units (neat): number mode, widths a multiple of the divisor. Ratio mode loses choices to rounding, see C107."
  },
  {
   "property": "C239",
   "status": "partial",
   "theorems": [
    "C239_total",
    "C239_total_unique",
    "C239_crop",
    "C239_size",
    "C239_draw_refuted",
    "C239_draw_partial",
    "C239_reduced",
    "C239_panels",
    "C239_refused"
   ],
   "note": "A map of one column over a wide image is cut to nothing and interpolation fails (C239_draw_refuted); C239_draw_partial says exactly when that happens. All other parts are proved."
  },
  {
   "property": "C240",
   "status": "proved",
   "theorems": [
    "C240_score",
    "C240_refused"
   ],
   "note": "Layers are functions; a forward pass is the list of layer calls."
  },
  {
   "property": "C241",
   "status": "partial",
   "theorems": [
    "C241_main",
    "C241_aux",
    "C241_accuracy",
    "C241_refused",
    "C241_name_refuted"
   ],
   "note": "The names get two dots, aux_head..loss (C241_name_refuted). Everything else is proved."
  },
  {
   "property": "C242",
   "status": "proved",
   "theorems": [
    "C242_connect",
    "C242_failure",
    "C242_no_head",
    "C242_resizer",
    "C242_inputs"
   ],
   "note": "Attribute lookups and head methods are functions with outcomes; the resizer itself is C223."
  },
  {
   "property": "C243",
   "status": "partial",
   "theorems": [
    "C243_level_of_a_name",
    "C243_other_levels",
    "C243_printed_once",
    "C243_bad_level_agrees_refuted",
    "C243_bad_level_agrees_partial",
    "C243_set_log_level"
   ],
   "note": "Everything but the agreement of ranks is proved. Refuted: the level is looked at on rank 0 only, so a wrong level raises there and other ranks go on; partial: they agree with only_rank0=False."
  },
  {
   "property": "C244",
   "status": "partial",
   "theorems": [
    "C244_iterations_trained",
    "C244_whole_epochs",
    "C244_stops_at_refuted",
    "C244_stops_at_partial"
   ],
   "note": "The number of iterations is proved exactly. Refuted: the hook compares runner.iter before it is counted up, so stop_iter_or_epoch=5 trains 6 iterations; partial: at most one more than asked."
  },
  {
   "property": "C245",
   "status": "partial",
   "theorems": [
    "C245_registers_the_offered",
    "C245_second_time_nothing",
    "C245_never_fails_refuted",
    "C245_never_fails_partial",
    "C245_keeps_registry"
   ],
   "note": "Proved if every class is bound to its own name. Refuted in general: the registry is asked for the attribute name but registers the class name, so a second alias raises KeyError."
  },
  {
   "property": "C246",
   "status": "partial",
   "theorems": [
    "C246_gradients",
    "C246_device",
    "C246_one_device_refuted",
    "C246_one_device_partial"
   ],
   "note": "Gradients proved exactly. Refuted: only the first parameter is looked at, so a module spread over devices reports the first one; partial: the first parameter is there."
  },
  {
   "property": "C247",
   "status": "partial",
   "theorems": [
    "C247_centred",
    "C247_put_back",
    "C247_order_kept",
    "C247_constant_column",
    "C247_unit_variance_partial",
    "C247_unit_variance_refuted",
    "C247_prepare",
    "C247_kernels"
   ],
   "note": "All but the unit variance is proved, over real numbers. Refuted: 1e-6 is added to the standard deviation, so the variance is (s/(s+1e-6))^2 < 1, as C247_unit_variance_partial states."
  },
  {
   "property": "C248",
   "status": "partial",
   "theorems": [
    "C248_blocks_do_not_matter",
    "C248_in_the_order_chosen",
    "C248_groups_refuted",
    "C248_groups_partial"
   ],
   "note": "Proved without groups for every block size and order. Refuted with groups: a group takes its scale from the weights as they were when its block began, so the block size changes the result."
  },
  {
   "property": "C249",
   "status": "proved",
   "theorems": [
    "C249_blocks_are_one_by_one"
   ],
   "note": "Exact rationals; the factor of the inverse Hessian is given."
  },
  {
   "property": "C250",
   "status": "partial",
   "theorems": [
    "C250_output_size_partial",
    "C250_output_size_refuted",
    "C250_balanced",
    "C250_least",
    "C250_pixels",
    "C250_export_partial",
    "C250_export_refuted",
    "C250_no_stride"
   ],
   "note": "Holds for layers without a padding of their own, which is all that the conversion from Conv2dAdaptivePadding makes. C250_output_size_refuted and C250_export_refuted: a padding argument is applied on top by the dynamic layer, and ignored by the static layer it exports."
  },
  {
   "property": "C251",
   "status": "proved",
   "theorems": [
    "C251_order",
    "C251_orders",
    "C251_functional",
    "C251_functional_total",
    "C251_module",
    "C251_module_other"
   ],
   "note": ""
  },
  {
   "property": "C252",
   "status": "partial",
   "theorems": [
    "C252_current_partial",
    "C252_found_partial",
    "C252_tied_refuted",
    "C252_right_one",
    "C252_before",
    "C252_again"
   ],
   "note": "C252_tied_refuted: a shared parameter is listed once by named_parameters, so its second name is not found."
  },
  {
   "property": "C253",
   "status": "proved",
   "theorems": [
    "C253_tiles",
    "C253_stored"
   ],
   "note": ""
  },
  {
   "property": "C254",
   "status": "partial",
   "theorems": [
    "C254_forward_partial",
    "C254_backward_partial",
    "C254_blocks_refuted",
    "C254_strides_refuted",
    "C254_packed_partial",
    "C254_packed_gradient_partial",
    "C254_tuned_partial",
    "C254_tuned_gradient_partial",
    "C254_tuned_refuted"
   ],
   "note": "Holds if the block size of the summed dimension divides it and the rows of the input are contiguous. C254_blocks_refuted: 96 inputs in blocks of 64 (which the configuration pruner allows) read past the end of the rows. C254_strides_refuted: the input pointer advances by BLOCK_SIZE_K instead of BLOCK_SIZE_K * stride_ak, so a transposed input is misread. C254_tuned_*: every configuration that the autotuner may choose, also one cached for other sizes, is right if the summed dimension is a multiple of 128; C254_packed_* joins this with pack (C72): the packed layer and its gradient use the quantized weights."
  },
  {
   "property": "C255",
   "status": "partial",
   "theorems": [
    "C255_values",
    "C255_errors",
    "C255_missing",
    "C255_once_refuted",
    "C255_roundtrip"
   ],
   "note": "C255_once_refuted: a missing scale or zero_point is reported twice in a strict load, by this class and by torch. The rest is proved."
  }
 ]
}
{"id": "C01", "title": "Registered channel ranges never overlap", "statement": "An IndexDict accepts a new (start, end) range only if it is non-empty and shares no index with any range already stored; after any history of insertions the stored ranges are pairwise disjoint and enumerated in increasing order, and a rejected insertion leaves the dictionary unchanged.", "quantifier": "for every finite history of insertions with arbitrary integer ranges, accepted or rejected", "why_tests_cant": "Overlap depends on the relative position of an unbounded number of ranges inserted in any order; tests sample a few positions and miss e.g. a new range that encloses an old one.", "anchors": ["mmrazor/utils/index_dict.py:IndexDict.__setitem__", "mmrazor/utils/index_dict.py:IndexDict.__contains__"]}
{"id": "C02", "title": "A channel container's mask lays out its registered mutables", "statement": "The mask of a MutableChannelContainer always has exactly num_channels entries; channel i carries the mask bit of the mutable registered over the range containing i (at offset i-start) and every channel not covered by a registered range is active.", "quantifier": "for every num_channels, every set of registered disjoint ranges (with or without gaps) and every mask contents", "why_tests_cant": "Gaps may be leading, interior or trailing and there are unboundedly many layouts; unit tests only register contiguous prefixes.", "anchors": ["mmrazor/models/mutables/mutable_channel/mutable_channel_container.py:MutableChannelContainer.current_choice", "mmrazor/models/mutables/mutable_channel/mutable_channel_container.py:_fill_unregistered_range"]}
{"id": "C03", "title": "A sequential channel choice keeps exactly the leading channels", "statement": "After current_choice = c on a number-mode SquentialMutableChannel of n channels with 0 <= c <= n, the mask keeps its length n, channels 0..c-1 are active and all others inactive, current_choice reads back c, and earlier history of choices has no influence.", "quantifier": "for every n, every history of choice assignments and every final choice c", "why_tests_cant": "The mask is mutated in place through slices; independence from all previous assignments is a history property.", "anchors": ["mmrazor/models/mutables/mutable_channel/sequential_mutable_channel.py:SquentialMutableChannel.current_choice", "mmrazor/models/mutables/mutable_channel/sequential_mutable_channel.py:_ratio2num"]}
{"id": "C04", "title": "Re-applying a reported ratio choice keeps the sub-network", "statement": "In ratio mode, reading current_choice and assigning the very same value back leaves the mask unchanged (choices exported as ratios can be re-loaded).", "quantifier": "for every channel count n and every reachable mask", "why_tests_cant": "The round trip goes through binary64 division and multiplication followed by truncation; failures occur only for isolated (n,k) pairs.", "anchors": ["mmrazor/models/mutables/mutable_channel/sequential_mutable_channel.py:SquentialMutableChannel.current_choice", "mmrazor/models/mutables/mutable_channel/units/one_shot_mutable_channel_unit.py"]}
{"id": "C05", "title": "make_divisible returns an admissible channel number", "statement": "make_divisible(value, divisor, min_value, min_ratio) returns a multiple of divisor (when min_value is a multiple of it or is absent), never below min_value nor below min_ratio*value for min_ratio <= 1 (so at most a 1-min_ratio reduction), and is within one divisor of value when value >= min_value.", "quantifier": "for all positive values, divisors, minimum values and ratios in [0,1]", "why_tests_cant": "Four-parameter integer/rational arithmetic with a rounding correction step; tests pin a handful of values.", "anchors": ["mmrazor/models/utils/make_divisible.py:make_divisible"]}
{"id": "C06", "title": "Candidate lists of different channel mutables are independent", "statement": "A OneShotMutableChannel constructed without candidates accepts exactly its full width; constructing or using other channel mutables never changes which choices it accepts; after any accepted in-range assignment its current choice is one of its candidates.", "quantifier": "for every sequence of constructions (with and without explicit candidates) and assignments", "why_tests_cant": "Sharing shows up only after a particular history of constructions in one process.", "anchors": ["mmrazor/models/mutables/mutable_channel/oneshot_mutable_channel.py:OneShotMutableChannel.__init__"]}
{"id": "C07", "title": "Fixing a mutable is final and a rejected second fix changes nothing", "statement": "fix_chosen succeeds at most once on a mutable; any later fix_chosen call raises and leaves the chosen value, the mask and the selected branch exactly as the first fix left them.", "quantifier": "for every interleaving of choice assignments and fix_chosen calls on each kind of mutable", "why_tests_cant": "A state-machine property over all call histories including the failing calls.", "anchors": ["mmrazor/models/mutables/base_mutable.py:BaseMutable.is_fixed", "mmrazor/models/mutables/mutable_channel/base_mutable_channel.py:BaseMutableChannel.fix_chosen", "mmrazor/models/mutables/mutable_channel/sequential_mutable_channel.py:SquentialMutableChannel.fix_chosen", "mmrazor/models/mutables/mutable_value/mutable_value.py:MutableValue.fix_chosen"]}
{"id": "C08", "title": "A derived channel mutable's mask agrees with its choice", "statement": "For a mutable derived by expansion, division or concatenation, the number of active entries of current_mask equals current_choice, and concatenation concatenates the source masks in order.", "quantifier": "for all source masks, expansion ratios, divisors and numbers of sources", "why_tests_cant": "Choice and mask are computed by two independent closures; they must agree for every source state.", "anchors": ["mmrazor/models/mutables/derived_mutable.py:derive_expand_mutable", "mmrazor/models/mutables/derived_mutable.py:derive_divide_mutable", "mmrazor/models/mutables/derived_mutable.py:derive_concat_mutable", "mmrazor/models/mutables/derived_mutable.py:_expand_mask_fn"]}
{"id": "C09", "title": "Fixing a one-shot operation preserves its forward result", "statement": "After fix_chosen(c) with c one of the candidates, only candidate c remains and forward(x) equals what forward with choice c gave before fixing; fixing with an unknown name is refused.", "quantifier": "for all candidate sets, all candidate operations (as arbitrary functions), all inputs and choices", "why_tests_cant": "Candidates are arbitrary modules; equality before/after fixing must hold for all of them.", "anchors": ["mmrazor/models/mutables/mutable_module/one_shot_mutable_module.py:OneShotMutableOP.fix_chosen", "mmrazor/models/mutables/mutable_module/one_shot_mutable_module.py:OneShotMutableOP.forward_fixed"]}
{"id": "C10", "title": "A fixed differentiable route routes each input to its own edge", "statement": "After DiffChoiceRoute.fix_chosen(cs), forward of inputs pairs each surviving edge with the input of the same edge name/position, and this pairing is unaffected by later rejected fix_chosen calls.", "quantifier": "for all edge dictionaries, chosen subsets and call histories", "why_tests_cant": "Depends on history of (rejected) calls and on positional pairing for arbitrary numbers of edges.", "anchors": ["mmrazor/models/mutables/mutable_module/diff_mutable_module.py:DiffChoiceRoute.fix_chosen", "mmrazor/models/mutables/mutable_module/diff_mutable_module.py:DiffChoiceRoute.forward_fixed"]}
{"id": "C11", "title": "fix_threshold fixes the operation with the highest probability", "statement": "When the gap between the two most probable candidates of a OneHotMutableOP reaches fix_threshold, the candidate with the highest probability is the one that gets fixed.", "quantifier": "for every candidate list and every probability vector", "why_tests_cant": "Depends on the ranking of arbitrary probabilities; a test using only two candidates cannot distinguish the positions.", "anchors": ["mmrazor/models/mutables/mutable_module/diff_mutable_module.py:OneHotMutableOP.forward_arch_param"]}
{"id": "C12", "title": "Graph edits keep the edge relation symmetric and bypass deleted nodes", "statement": "In BaseGraph, b is a successor of a exactly when a is a predecessor of b, after any history of add_node/connect/disconnect/delete_node; deleting a node with at most one predecessor or at most one successor connects its predecessors to its successors, leaves all other edges unchanged and removes every mention of the node.", "quantifier": "for every finite history of graph operations, on graphs of any size, that keeps the graph acyclic (the class documents a directed acyclic graph)", "why_tests_cant": "Invariant over all operation histories and all graph shapes.", "anchors": ["mmrazor/structures/graph/base_graph.py:BaseGraph.connect", "mmrazor/structures/graph/base_graph.py:BaseGraph.disconnect", "mmrazor/structures/graph/base_graph.py:BaseGraph.delete_node"]}
{"id": "C13", "title": "Topological traversal visits every node once, predecessors first", "statement": "topo_traverse yields every node of an acyclic graph exactly once and each node only after all its predecessors; on a cyclic graph it raises instead of looping.", "quantifier": "for every finite graph, acyclic or not", "why_tests_cant": "Quantifies over all graph shapes including cyclic ones; termination is part of the claim.", "anchors": ["mmrazor/structures/graph/base_graph.py:BaseGraph.topo_traverse"]}
{"id": "C14", "title": "Channel dependency groups are exactly the generated equivalence", "statement": "After any sequence of channel unions, two channel elements belong to the same group exactly when they are related by the equivalence generated by the requested unions; every element belongs to exactly one group.", "quantifier": "for every number of channel elements and every sequence of union requests (including repeated ones)", "why_tests_cant": "Union-find with path compression mutates parent links on reads; correctness is an invariant over all histories.", "anchors": ["mmrazor/structures/graph/channel_flow.py:ChannelElem.union", "mmrazor/structures/graph/channel_flow.py:ChannelElem.root", "mmrazor/structures/graph/channel_flow.py:ChannelElem.union_two"]}
{"id": "C15", "title": "Candidate collections keep subnets, scores and resources aligned", "statement": "Every entry of a Candidates collection is a subnet with a score and the resource metrics; append/extend/insert keep entry order, set_resource and update_resources touch only the addressed entries, and sort_by yields a stable descending permutation.", "quantifier": "for every history of append/extend/insert/set_resource/update_resources/sort operations", "why_tests_cant": "Alignment is an invariant over arbitrary operation histories and list lengths.", "anchors": ["mmrazor/structures/subnet/candidate.py:Candidates"]}
{"id": "C16", "title": "Resource constraints are checked inclusively and completely", "statement": "check_subnet_resources passes a subnet exactly when every constrained metric lies in its inclusive [low, high] range, a scalar bound v meaning [0, v].", "quantifier": "for all metric dictionaries and all constraint dictionaries", "why_tests_cant": "All boundary combinations of arbitrarily many constraints.", "anchors": ["mmrazor/engine/runner/utils/check.py:check_subnet_resources"]}
{"id": "C17", "title": "Evolution search never loses its best subnets and honours its constraints", "statement": "After each epoch the top-k set has at most k entries, contains the best k of (previous top-k and current candidates) so its i-th best score never decreases, and every sampled/mutated/crossed candidate satisfied the resource constraint.", "quantifier": "for every sequence of sampler/evaluator outcomes, epochs and sizes", "why_tests_cant": "Random search: must hold for every random outcome and any number of epochs.", "anchors": ["mmrazor/engine/runner/evolution_search_loop.py:EvolutionSearchLoop.run_epoch", "mmrazor/engine/runner/evolution_search_loop.py:gen_mutation_candidates", "mmrazor/engine/runner/evolution_search_loop.py:gen_crossover_candidates"]}
{"id": "C18", "title": "Resuming an evolution search runs the epochs that were left", "statement": "A search interrupted after e of max epochs and resumed from its checkpoint runs exactly the remaining max-e epochs, and ends with the epoch counter at max.", "quantifier": "for every crash point e < max_epochs", "why_tests_cant": "A crash-point property: must hold for every interruption epoch.", "anchors": ["mmrazor/engine/runner/evolution_search_loop.py:EvolutionSearchLoop._resume", "mmrazor/engine/runner/evolution_search_loop.py:EvolutionSearchLoop.run"]}
{"id": "C19", "title": "Searcher checkpoints: exactly the newest max_keep_ckpts survive", "statement": "After epoch n has been saved by a search that started from epoch 1 with an empty directory, the searcher checkpoints present are exactly those of the last min(n, max_keep) epochs.", "quantifier": "for every n and every max_keep_ckpts >= 1", "why_tests_cant": "An invariant of a growing set of files over any number of epochs.", "anchors": ["mmrazor/engine/runner/evolution_search_loop.py:EvolutionSearchLoop._save_searcher_ckpt"]}
{"id": "C20", "title": "Crossover takes every gene from one of its parents", "statement": "crossover(a, b, prob) returns a choice mapping with the keys of the parents in which each value is that key's value in a or in b, and does not modify either parent.", "quantifier": "for all parent mappings and all random outcomes", "why_tests_cant": "All random outcomes and all sizes.", "anchors": ["mmrazor/engine/runner/utils/genetic.py:crossover"]}
{"id": "C21", "title": "Greedy slimming search finds one subnet per target within budget", "statement": "An uninterrupted AutoSlim greedy search ends with exactly one subnet per distinct FLOPs target; each exported subnet is within its target, each step shrinks exactly one unit, and FLOPs never increase along the search if the estimator charges no more for a smaller subnet.", "quantifier": "for every target list, every estimator and every evaluator outcome", "why_tests_cant": "The evaluator and the estimator are arbitrary; termination and per-target completeness must hold for all of them.", "anchors": ["mmrazor/engine/runner/autoslim_greedy_search_loop.py:AutoSlimGreedySearchLoop.run"]}
{"id": "C22", "title": "Greedy slimming search survives a crash", "statement": "A greedy search that is interrupted at any point and resumed from the last written checkpoint ends with the same list of searched subnets as an uninterrupted run.", "quantifier": "for every crash point and every target list", "why_tests_cant": "A crash-point property; tests do not interrupt the loop between two statements.", "anchors": ["mmrazor/engine/runner/autoslim_greedy_search_loop.py:AutoSlimGreedySearchLoop.run", "mmrazor/engine/runner/autoslim_greedy_search_loop.py:_resume", "mmrazor/engine/runner/autoslim_greedy_search_loop.py:_save_searcher_ckpt"]}
{"id": "C23", "title": "Greedy subnet sampler: probability schedule and pool consumption", "statement": "The probability of sampling from the candidate pool stays within [init_prob, max_prob], equals init_prob at the start iteration and max_prob at the end iteration; subnets taken from the pool are consumed one by one.", "quantifier": "for every iteration number and every schedule configuration", "why_tests_cant": "A schedule property over all iterations and parameters.", "anchors": ["mmrazor/engine/runner/subnet_sampler_loop.py:GreedySamplerTrainLoop.update_cur_prob", "mmrazor/engine/runner/subnet_sampler_loop.py:GreedySamplerTrainLoop.sample_subnet"]}
{"id": "C24", "title": "Search groups partition the mutables", "statement": "Building search groups from custom groups and aliases either raises or yields groups in which every searchable mutable occurs exactly once, mutables of one custom group or of the same alias share a group and all others are in groups of their own.", "quantifier": "for all sets of mutables, alias assignments and custom group lists", "why_tests_cant": "Quantifies over all alias/custom-group configurations.", "anchors": ["mmrazor/models/mutators/group_mixin.py:GroupMixin.build_search_groups"]}
{"id": "C25", "title": "Exported subnets can be loaded back", "statement": "Loading the dictionary produced by export_fix_subnet into an identical supernet (optionally under a name prefix) fixes every mutable to the choice it had when exported and raises if some mutable has no entry.", "quantifier": "for every module tree, every mutable naming and every prefix", "why_tests_cant": "Naming is unbounded; prefix handling must be right for every string.", "anchors": ["mmrazor/structures/subnet/fix_subnet.py:export_fix_subnet", "mmrazor/structures/subnet/fix_subnet.py:_load_fix_subnet_by_mutable"]}
{"id": "C26", "title": "Recording does not permanently alter the recorded functions", "statement": "After leaving a `with recorder_manager` (or delivery manager) block, every patched function or method is bound to the same object as before entering, for any set of recorders.", "quantifier": "for every list of recorders, including several on the same target, and every number of repetitions", "why_tests_cant": "The set of recorders is arbitrary and the block may be entered any number of times.", "anchors": ["mmrazor/models/task_modules/recorder/recorder_manager.py:RecorderManager.__exit__", "mmrazor/models/task_modules/recorder/function_outputs_recorder.py", "mmrazor/models/task_modules/delivery/delivery_manager.py"]}
{"id": "C27", "title": "Recorders return the data of the requested call", "statement": "Within one recording block the i-th record is the outcome of the i-th call of the source; entering a new block discards old records; get_record_data(i, j) returns the j-th component of the i-th record, or the whole record if j is None.", "quantifier": "for every history of blocks and calls and every index", "why_tests_cant": "History property over arbitrarily many calls and blocks.", "anchors": ["mmrazor/models/task_modules/recorder/base_recorder.py:BaseRecorder.get_record_data", "mmrazor/models/task_modules/recorder/base_recorder.py:BaseRecorder.__enter__"]}
{"id": "C28", "title": "Deliveries hand the teacher's i-th output to the student's i-th call", "statement": "With a delivery in record mode during the teacher pass and override mode during the student pass, the student's i-th call returns the teacher's i-th output without executing the function; reading an empty delivery or recording beyond max_keep_data raises.", "quantifier": "for every number of teacher/student calls and every number of training iterations", "why_tests_cant": "FIFO behaviour across arbitrarily many iterations, including iterations in which the counts differ.", "anchors": ["mmrazor/models/task_modules/delivery/function_outputs_delivery.py:deliver_wrapper", "mmrazor/models/task_modules/delivery/distill_delivery.py"]}
{"id": "C29", "title": "Distillation stops permanently at the configured epoch", "statement": "A distilled training step reports student losses in every iteration and distillation losses exactly in the iterations before stop_epoch; once stopped, distillation never restarts.", "quantifier": "for every training length and every stop_epoch", "why_tests_cant": "A temporal property over the whole training run.", "anchors": ["mmrazor/engine/hooks/stop_distillation_hook.py:StopDistillHook.before_train_epoch", "mmrazor/models/algorithms/distill/configurable/single_teacher_distill.py:SingleTeacherDistill.loss"]}
{"id": "C30", "title": "Model FLOPs and parameters are the sum over its layers", "statement": "The FLOPs/params reported for a model equal the sum over its distinct leaf layers of the layer's own cost, whatever the nesting and however often a layer is called (FLOPs per call, parameters once).", "quantifier": "for every module tree and every call multiplicity", "why_tests_cant": "All module trees, including shared modules, of any depth.", "anchors": ["mmrazor/models/task_modules/estimators/counters/flops_params_counter.py:compute_average_flops_params_cost", "mmrazor/models/task_modules/estimators/counters/flops_params_counter.py:accumulate_sub_module_flops_params"]}
{"id": "C31", "title": "Layer counters implement the textbook cost", "statement": "For a (transposed) convolution with kernel k, in/out channels, groups and output (transposed: input) size H x W the reported FLOPs are batch*H*W*prod(k)*in*out/groups (+ one addition per output element for the bias), and for a dynamic convolution they equal the cost of the sliced static convolution.", "quantifier": "for all layer geometries and all channel masks", "why_tests_cant": "Six independent geometry parameters; tests use square inputs, which hide H/W confusions.", "anchors": ["mmrazor/models/task_modules/estimators/counters/op_counters/conv_layer_counter.py", "mmrazor/models/task_modules/estimators/counters/op_counters/deconv_layer_counter.py"]}
{"id": "C32", "title": "A resource estimator applies its own configuration and has no memory", "statement": "estimate(model) uses the flops_params_cfg given at construction (merged with defaults), a per-call flops_params_cfg overrides it for that call only, and the result of a call does not depend on earlier estimate/estimate_separation_modules calls.", "quantifier": "for every configuration and every history of calls", "why_tests_cant": "Leakage of configuration appears only after particular call histories.", "anchors": ["mmrazor/models/task_modules/estimators/resource_estimator.py:ResourceEstimator.estimate", "mmrazor/models/task_modules/estimators/resource_estimator.py:ResourceEstimator.estimate_separation_modules"]}
{"id": "C33", "title": "Iterative pruning moves monotonically and ends at the target", "statement": "With linear scheduling, the structure set at the k-th prune time moves monotonically from the supernet to the target structure and the last prune time sets exactly the target; prune times are exactly the first prune_times multiples of step_freq.", "quantifier": "for all integer structures and targets, all prune_times and step_freq >= 1, and for floating point ratios", "why_tests_cant": "All schedules; float rounding at the end point.", "anchors": ["mmrazor/models/algorithms/pruning/ite_prune_algorithm.py:ItePruneConfigManager"]}
{"id": "C34", "title": "DCFF accepts every legal prune frequency", "statement": "Exactly one of prune_times/step_freq must be given and any value in [1, max_iters] is accepted, everything else rejected.", "quantifier": "for all values of both arguments and all training lengths", "why_tests_cant": "Boundary values of two arguments against an arbitrary training length.", "anchors": ["mmrazor/models/algorithms/pruning/dcff.py:DCFF._legal_freq_time"]}
{"id": "C35", "title": "Pruned dynamic layers compute the masked dense layer", "statement": "A dynamic linear / convolution layer evaluated on the active input channels returns, for each active output channel, what the full layer would return on the input whose inactive channels are zero.", "quantifier": "for all weights, biases, inputs, masks and group structures", "why_tests_cant": "All masks and all real weights: an algebraic identity.", "anchors": ["mmrazor/models/architectures/dynamic_ops/mixins/dynamic_conv_mixins.py:DynamicConvMixin._get_dynamic_params_by_mutable_channels", "mmrazor/models/architectures/dynamic_ops/mixins/dynamic_mixins.py:DynamicLinearMixin._get_dynamic_params"]}
{"id": "C36", "title": "Kernel-size choices crop the centre of the kernel", "statement": "For odd kernel sizes a dynamic convolution set to kernel size t uses the centred t x t window of the largest kernel, padding keeps the output size, and the progressive (OFA) transformation with identity matrices yields the same window.", "quantifier": "for all odd kernel lists and all targets", "why_tests_cant": "All kernel-size chains.", "anchors": ["mmrazor/models/architectures/dynamic_ops/mixins/dynamic_conv_mixins.py:_get_current_kernel_pos", "mmrazor/models/architectures/dynamic_ops/mixins/dynamic_conv_mixins.py:_get_same_padding", "mmrazor/models/architectures/dynamic_ops/mixins/dynamic_conv_mixins.py:OFAConvMixin.get_dynamic_params"]}
{"id": "C37", "title": "Static export of a dynamic layer equals the dynamic layer", "statement": "to_static_op of a dynamic layer yields a plain layer whose result equals the dynamic forward for the same input, and refuses to export while a mutable is not fixed.", "quantifier": "for all weights, masks and inputs, and every fixed/unfixed combination of the registered mutables", "why_tests_cant": "All masks and weights; every combination of mutables.", "anchors": ["mmrazor/models/architectures/dynamic_ops/mixins/dynamic_conv_mixins.py:DynamicConvMixin.to_static_op", "mmrazor/models/architectures/dynamic_ops/mixins/dynamic_mixins.py:DynamicLinearMixin.to_static_op", "mmrazor/models/architectures/dynamic_ops/mixins/dynamic_mixins.py:DynamicMixin.check_if_mutables_fixed"]}
{"id": "C38", "title": "BN calibration averages statistics over the requested samples", "statement": "Calibration sets each BN layer's running statistics to the sample-weighted average of batch statistics over exactly the requested number of samples, identically on every worker.", "quantifier": "for every stream of batches, every batch size and every number of workers", "why_tests_cant": "Arbitrary batch-size sequences and worker counts.", "anchors": ["mmrazor/engine/runner/utils/calibrate_bn_mixin.py:AverageMeter", "mmrazor/engine/runner/utils/calibrate_bn_mixin.py:CalibrateBNMixin.calibrate_bn_statistics"]}
{"id": "C39", "title": "Iteration-based DARTS training can draw batches for any number of iterations", "statement": "The combined loader of DartsIterBasedTrainLoop restarts exhausted loaders, so for non-empty loaders it delivers a pair of batches for every one of max_iters iterations.", "quantifier": "for all (non-empty) loader lengths and every number of iterations", "why_tests_cant": "Fails only after a full epoch of the shorter loader; a liveness claim for every iteration count.", "anchors": ["mmrazor/engine/runner/darts_loop.py:IterMultiLoader.__next__"]}
{"id": "C40", "title": "CRD negatives come from other classes, in the configured proportion", "statement": "Every negative index sampled for a data sample belongs to a different class, every sample of another class is eligible, and with 0<percent<1 each class keeps that percentage of its own negatives.", "quantifier": "for all label lists, class counts and percentages", "why_tests_cant": "All label distributions, in particular unbalanced ones.", "anchors": ["mmrazor/datasets/crd_dataset_wrapper.py:CRDDataset._parse_fullset_contrast_info", "mmrazor/datasets/crd_dataset_wrapper.py:CRDDataset._get_contrast_info"]}
{"id": "C41", "title": "DMCP channel samples stay in the search space", "statement": "Whatever the architecture parameters and random numbers, the channel number sampled for a unit in max/min/random/direct mode is min_ch plus a whole number of groups and lies between min_ch and the full width, with max mode giving the full width.", "quantifier": "for all widths, pruning configurations, probabilities and random outcomes", "why_tests_cant": "All random outcomes and all configurations.", "anchors": ["mmrazor/models/mutators/channel_mutator/dmcp_channel_mutator.py:DMCPChannelMutator._generate_arch_message", "mmrazor/models/mutators/channel_mutator/dmcp_channel_mutator.py:DMCPChannelMutator._prune_by_arch"]}
{"id": "C42", "title": "DMCP's FLOPs loss vanishes on the target band", "statement": "With flops_loss_type log_l1 the FLOPs loss is zero exactly when the expected FLOPs lie in [95%, 100%) of target_flops (target given in MFLOPs).", "quantifier": "for all expected FLOPs and all targets", "why_tests_cant": "Unit confusion is invisible unless magnitudes are compared for all inputs.", "anchors": ["mmrazor/models/algorithms/pruning/dmcp.py:DMCP._compute_flops_loss"]}
{"id": "C43", "title": "Group Fisher prunes the globally least important channel and never empties a layer", "statement": "try_prune deactivates exactly one channel: an active channel of minimum importance over all units with more than one active channel; every unit keeps at least one active channel forever.", "quantifier": "for all importance vectors, masks and histories of prune steps", "why_tests_cant": "All importance magnitudes and all histories.", "anchors": ["mmrazor/implementations/pruning/group_fisher/mutator.py:GroupFisherChannelMutator.try_prune", "mmrazor/implementations/pruning/group_fisher/unit.py:GroupFisherChannelUnit.try_to_prune_min_channel", "mmrazor/implementations/pruning/group_fisher/unit.py:GroupFisherChannelUnit.importance"]}
{"id": "C44", "title": "Expanding a model widens it to the requested width and preserves its function", "statement": "expand_to(n) makes a unit exactly n channels wide whatever happened before; make_channel_divisible yields the least multiple of the divisor not below the original width; an operation expanded with zero weights computes the original outputs on the old channels and zero (bias 0) on the new ones.", "quantifier": "for all widths, divisors, expansion histories and weights", "why_tests_cant": "All widths and histories, all weights.", "anchors": ["mmrazor/models/utils/expandable_utils/unit.py:ExpandableUnit.expand_to", "mmrazor/models/utils/expandable_utils/tools.py:make_channel_divisible", "mmrazor/models/utils/expandable_utils/ops.py:ExpandableMixin.expand_matrix"]}
{"id": "C45", "title": "SparseGPT prunes the requested fraction / pattern", "statement": "Unstructured pruning with sparsity s zeroes the fraction s of each weight block (rounded down) for every s in [0,1]; 2:4 pruning leaves at least two zeros in every aligned group of four columns.", "quantifier": "for all block contents, sparsities and group counts", "why_tests_cant": "Ties, end points s=0 and s=1 and all block sizes.", "anchors": ["mmrazor/implementations/pruning/sparse_gpt/ops.py:SparseGptMixIn.prune", "mmrazor/implementations/pruning/sparse_gpt/sparse24_utils.py:is_weight_sparse_24"]}
{"id": "C46", "title": "The Hessian accumulator is the mean over all inputs since its initialisation", "statement": "After init_hessian followed by update_hessian calls, the stored matrix equals 2*sum(X X^T) divided by the number of samples seen since that init_hessian.", "quantifier": "for every history of init/update calls", "why_tests_cant": "History property (re-initialisation).", "anchors": ["mmrazor/implementations/pruning/sparse_gpt/ops.py:SparseGptMixIn.update_hessian", "mmrazor/implementations/pruning/sparse_gpt/ops.py:SparseGptMixIn.init_hessian"]}
{"id": "C47", "title": "A failed SparseGPT prune leaves the layer unchanged", "statement": "If pruning a layer fails (the compressor logs the failure and continues), the layer keeps the weights and the accumulated Hessian it had before.", "quantifier": "for every failure point and every weight dtype", "why_tests_cant": "Crash-point property involving aliasing of tensors.", "anchors": ["mmrazor/implementations/pruning/sparse_gpt/ops.py:SparseGptMixIn.prune", "mmrazor/implementations/pruning/sparse_gpt/compressor.py:SparseGptCompressor.prune"]}
{"id": "C48", "title": "The GPTQ quantizer represents the observed range", "statement": "After find_params on data x (asymmetric or symmetric), every observed value is reproduced by quantize with an error of at most one step, quantize is idempotent and has at most 2^bits levels; the scale is positive for every input.", "quantifier": "for all data ranges, bit widths and both symmetry modes", "why_tests_cant": "All data ranges, e.g. all-positive data in symmetric mode.", "anchors": ["mmrazor/implementations/quantization/gptq/quantizer.py:Quantizer.find_params", "mmrazor/implementations/quantization/gptq/quantizer.py:Quantizer._quantize"]}
{"id": "C49", "title": "Quantization ranges match the configured bit width", "statement": "A QSchemeHandler produces 0..2^bit-1 for quint8 and a signed range of 2^bit levels (2^bit-1 symmetric ones with is_symmetric_range) for qint8, never overridden by extra keyword arguments.", "quantifier": "for every bit width and every set of extra arguments", "why_tests_cant": "All bit widths and argument combinations.", "anchors": ["mmrazor/structures/quantization/qconfig.py:QSchemeHandler.to_observer_params"]}
{"id": "C50", "title": "Building from a config does not consume the config", "statement": "Building a model twice from the same configuration object gives the same kind of object both times.", "quantifier": "for every configuration and every number of builds", "why_tests_cant": "History property: only the second build exposes it.", "anchors": ["mmrazor/registry/registry.py:build_razor_model_from_cfg"]}
{"id": "C51", "title": "Dumped subnets are limited to max_keep_subnets", "statement": "DumpSubnetHook keeps at most max_keep_subnets subnet files (all if it is -1), the newest ones.", "quantifier": "for every training length and every limit", "why_tests_cant": "Property of a growing set of files.", "anchors": ["mmrazor/engine/hooks/dump_subnet_hook.py:DumpSubnetHook"]}
{"id": "C52", "title": "Resuming LSQ training keeps the learned scales", "statement": "Interrupting quantization-aware training with LSQ after any iteration and resuming from the checkpoint continues with the learned quantization scales of the checkpoint.", "quantifier": "for every crash point", "why_tests_cant": "Crash-point property.", "anchors": ["mmrazor/engine/runner/quantization_loops.py:LSQEpochBasedLoop.run_epoch", "mmrazor/models/fake_quants/lsq.py:LearnableFakeQuantize.forward"]}
{"id": "C53", "title": "Backward tracing reports each branch with its own layers only", "statement": "Every path found by BackwardTracer consists of exactly the traced layers lying on one route through the autograd graph from the loss to a graph input.", "quantifier": "for every autograd graph shape", "why_tests_cant": "All graph shapes; needs siblings after a particular layer type.", "anchors": ["mmrazor/models/task_modules/tracer/parsers.py:parse_linear", "mmrazor/models/task_modules/tracer/parsers.py:parse_conv", "mmrazor/models/task_modules/tracer/backward_tracer.py:BackwardTracer.backward_trace"]}
{"id": "C54", "title": "The latest checkpoint is found by its number", "statement": "find_latest_checkpoint returns latest.<suffix> if present, otherwise the checkpoint file with the largest trailing number, otherwise nothing.", "quantifier": "for every directory content", "why_tests_cant": "All sets of file names.", "anchors": ["mmrazor/utils/misc.py:find_latest_checkpoint"]}
{"id": "C55", "title": "Reading a container's mask has no side effects", "statement": "Reading the current mask of a channel container never changes which later registrations are accepted nor what later reads return.", "quantifier": "every container size, registration history and later registration", "why_tests_cant": "Depends on the order of reads and registrations in arbitrary histories.", "anchors": ["mmrazor/models/mutables/mutable_channel/mutable_channel_container.py:MutableChannelContainer.current_mask,_fill_unregistered_range,register_mutable"]}
{"id": "C56", "title": "Out-of-range channel choices are rejected", "statement": "Assigning a channel count outside 1..num_channels to a sequential channel mutable is rejected; it never silently selects another count.", "quantifier": "every channel count and every assigned integer or ratio", "why_tests_cant": "Needs all integers, including negative and oversized ones.", "anchors": ["mmrazor/models/mutables/mutable_channel/sequential_mutable_channel.py:SquentialMutableChannel.current_choice"]}
{"id": "C57", "title": "Every advertised candidate of a one-shot channel unit can be selected", "statement": "Every value listed by a one-shot channel unit as a candidate choice is accepted when it is assigned as the unit's current choice.", "quantifier": "for all channel counts, divisors, minimum values, minimum ratios, choice modes and candidate lists", "why_tests_cant": "Candidates pass through rounding twice; the double rounding is inexact only for particular combinations.", "anchors": ["mmrazor/models/mutables/mutable_channel/units/one_shot_mutable_channel_unit.py:OneShotMutableChannelUnit.prepare_for_pruning", "mmrazor/models/mutables/mutable_channel/units/sequential_mutable_channel_unit.py:SequentialMutableChannelUnit._make_divisible"]}
{"id": "C58", "title": "A sampled unit choice never exceeds the unit's channel number", "statement": "sample_choice of a sequential channel unit returns a number of channels between 1 and the number of channels of the unit.", "quantifier": "for all channel counts, divisors and random draws", "why_tests_cant": "Needs all combinations of width, divisor and draw.", "anchors": ["mmrazor/models/mutables/mutable_channel/units/sequential_mutable_channel_unit.py:SequentialMutableChannelUnit.sample_choice"]}
{"id": "C59", "title": "A derived mutable follows later changes of its source mutables", "statement": "After a derived mutable is created from source mutables, any later change of a source's choice is reflected in the derived choice and mask.", "quantifier": "for all derivation expressions and all histories of source choices", "why_tests_cant": "Needs all histories; captured values only show after a later change.", "anchors": ["mmrazor/models/mutables/derived_mutable.py:DerivedMethodMixin", "mmrazor/models/mutables/mutable_channel/base_mutable_channel.py:BaseMutableChannel.__floordiv__"]}
{"id": "C60", "title": "Candidate probabilities of a OneShotProbMutableOP sum to one", "statement": "A OneShotProbMutableOP can only be constructed with choice_probs summing to one (up to rounding).", "quantifier": "for every probability list", "why_tests_cant": "All probability lists.", "anchors": ["mmrazor/models/mutables/mutable_module/one_shot_mutable_module.py:OneShotProbMutableOP.__init__"]}
{"id": "C61", "title": "The channel ranges a tensor is split into tile it", "statement": "Splitting a channel tensor into groups of equal dependency yields consecutive ranges that start at 0, end at the number of channels, do not overlap and leave no gap, and each range contains exactly the channels of one maximal run with the same dependency class.", "quantifier": "for every tensor width and every history of unions", "why_tests_cant": "All union histories and widths; the run boundaries depend on the equivalence classes.", "anchors": ["mmrazor/structures/graph/channel_flow.py:ChannelTensor.elems_hash_dict"]}
{"id": "C62", "title": "Aliases can be used in custom groups", "statement": "Building search groups succeeds for every custom group list whose groups are non-empty, whose keys are aliases or module names and which names no mutable twice.", "quantifier": "for every set of mutables and every legal list of custom groups", "why_tests_cant": "Legal group lists mix aliases and names in any order; the existing tests only put a module name last.", "anchors": ["mmrazor/models/mutators/group_mixin.py:GroupMixin.build_search_groups"]}
{"id": "C63", "title": "Setting and reading the choices of a search space", "statement": "After set_choices every mutable of a group has that group's choice, no mutable outside the groups is changed, and current_choices returns the choices that were set; a choice dictionary that misses a group raises KeyError.", "quantifier": "for every grouping of mutables and every choice dictionary", "why_tests_cant": "The grouping and the choices are arbitrary; sharing of mutables between groups matters.", "anchors": ["mmrazor/models/mutators/nas_mutator.py:NasMutator.set_choices", "mmrazor/models/mutators/nas_mutator.py:NasMutator.current_choices"]}
{"id": "C64", "title": "Recorded inputs appear in parameter order", "statement": "For a call that supplies every parameter once, positionally or by keyword in any order, an inputs recorder stores the argument values in the order of the signature.", "quantifier": "for every signature, every split into positional and keyword arguments and every keyword order", "why_tests_cant": "All argument-passing styles of all signatures.", "anchors": ["mmrazor/models/task_modules/recorder/function_inputs_recorder.py:FunctionInputsRecorder.func_record_wrapper", "mmrazor/models/task_modules/recorder/method_inputs_recorder.py:MethodInputsRecorder.method_record_wrapper"]}
{"id": "C65", "title": "Per-image FLOPs do not depend on the batch size", "statement": "For every counted layer type (convolution, linear, normalization, pooling, upsampling) the FLOPs that the counter adds for a batch of b images, divided by b, equal the FLOPs for one image.", "quantifier": "for all layer sizes and batch sizes", "why_tests_cant": "The existing tests estimate with batch size 1 only; the claim quantifies over every batch size and layer shape.", "anchors": ["mmrazor/models/task_modules/estimators/counters/op_counters/conv_layer_counter.py", "mmrazor/models/task_modules/estimators/counters/op_counters/upsample_layer_counter.py"]}
{"id": "C66", "title": "Interrupting iterative pruning does not change the structures it sets", "statement": "An iterative pruning run that is interrupted and resumed from a checkpoint at any moment sets the same structures as the uninterrupted run.", "quantifier": "for all targets, schedules and interruption points", "why_tests_cant": "All interruption points of all schedules; no test resumes an iterative pruning run.", "anchors": ["mmrazor/models/algorithms/pruning/ite_prune_algorithm.py:ItePruneAlgorithm.forward", "mmrazor/models/algorithms/pruning/ite_prune_algorithm.py:ItePruneAlgorithm._init_prune_config_manager"]}
{"id": "C67", "title": "The subnets sampled by DMCP meet the FLOPs target", "statement": "Every subnet file that DMCPSubnetHook writes after training holds a subnet within 5% of the FLOPs target, and the FLOPs logged for a file are those of the subnet in it.", "quantifier": "for every sequence of sampled subnets and every number of samples", "why_tests_cant": "The samples are random and the loop is unbounded; a test sees one lucky sequence.", "anchors": ["mmrazor/engine/hooks/dmcp_subnet_hook.py:DMCPSubnetHook.after_run"]}
{"id": "C68", "title": "Switches of quantization-aware training follow the epoch number", "statement": "In every epoch fake quantization is on, observers are on unless disable_observer_begin is positive and reached, batch norm is frozen from freeze_bn_begin on; whenever checkpoints are written or validation runs, observers are off. Resuming at any epoch sets the same switches as the uninterrupted run.", "quantifier": "for all settings, epochs and crash points", "why_tests_cant": "Interplay of two thresholds with every epoch and every crash point.", "anchors": ["mmrazor/engine/runner/quantization_loops.py:QATEpochBasedLoop.run", "mmrazor/engine/runner/quantization_loops.py:QATEpochBasedLoop.prepare_for_run_epoch"]}
{"id": "C69", "title": "Post-training calibration uses exactly the requested batches", "statement": "PTQLoop shows the observers exactly the first calibrate_steps calibration batches (all if there are fewer or the number is negative, none with only_val), and no evaluation batch.", "quantifier": "for all loader lengths and step numbers", "why_tests_cant": "Boundary conditions at every length.", "anchors": ["mmrazor/engine/runner/quantization_loops.py:PTQLoop.run"]}
{"id": "C70", "title": "Quantized validation returns the metrics of the quantized model", "statement": "QATValLoop.run returns the metrics of the quantized model (under qat.*) together with those of the original model; PTQLoop returns and logs the same dictionary.", "quantifier": "for all metric dictionaries", "why_tests_cant": "A test that checks only that some metric is returned passes.", "anchors": ["mmrazor/engine/runner/quantization_loops.py:QATValLoop.run", "mmrazor/engine/runner/quantization_loops.py:PTQLoop.run"]}
{"id": "C71", "title": "Metrics of several subnets do not overwrite each other", "statement": "The validation loops that evaluate several networks (slimmable subnets, max/min/random subnets, student and teacher) report every metric of every network under its own key.", "quantifier": "for all numbers of subnets, kinds and metric names", "why_tests_cant": "Key collisions need particular combinations of names and numbers (such as subnet_1 and subnet_11).", "anchors": ["mmrazor/engine/runner/slimmable_val_loop.py:SlimmableValLoop.run", "mmrazor/engine/runner/subnet_val_loop.py:SubnetValLoop.run", "mmrazor/engine/runner/distill_val_loop.py:SingleTeacherDistillValLoop.run"]}
{"id": "C72", "title": "Packed GPTQ weights decode to the quantized weights", "statement": "After TritonGPTQLinear packs its quantized weight into integer words, the layer multiplies with exactly those quantized weights.", "quantifier": "for all supported bit widths, layer sizes, group assignments, scales and zero points", "why_tests_cant": "Needs every size modulo 32, every zero point and the packed kernel, which only runs on a GPU.", "anchors": ["mmrazor/implementations/quantization/gptq/gptq.py:GPTQMixIn.pack", "mmrazor/implementations/quantization/gptq/ops.py:matmul_248_kernel", "mmrazor/implementations/quantization/gptq/ops.py:TritonGPTQLinear.forward"]}
{"id": "C73", "title": "Deployed fake quantizers keep the scheme and drop the rest", "statement": "replace_fakequant builds an observer of the configured granularity with exactly the dtype, scheme, range, reduce_range (and channel axis) of the scheme, whatever extra arguments were given; a qconfig is accepted exactly if all six parts are dictionaries.", "quantifier": "for all schemes, extra arguments and qconfigs", "why_tests_cant": "All combinations of extra arguments and missing parts.", "anchors": ["mmrazor/structures/quantization/qconfig.py:QConfigHandler.replace_fakequant", "mmrazor/structures/quantization/qconfig.py:QConfigHandler.check_qconfig"]}
{"id": "C74", "title": "GPTQ leaves every weight on the grid of its group", "statement": "After a successful GPTQ quantization of a layer each weight is one of the 2^bits levels of the scale and zero point recorded for its output row and its input's group, also with activation ordering and with grouping.", "quantifier": "for all weights, inverse Hessian factors, orders, dead columns, group sizes, block sizes and bit widths", "why_tests_cant": "The order, the block boundaries and the group boundaries interact; tests cover a few sizes.", "anchors": ["mmrazor/implementations/quantization/gptq/gptq.py:GPTQMixIn.quant"]}
{"id": "C75", "title": "A layer that cannot be quantized is left unchanged", "statement": "If GPTQ quantization of a layer fails, its weight is what it was before.", "quantifier": "for all layers, Hessians and devices", "why_tests_cant": "Failures (a Hessian that is not positive definite, no CUDA) are rare in tests.", "anchors": ["mmrazor/implementations/quantization/gptq/gptq.py:GPTQMixIn.quant", "mmrazor/implementations/quantization/gptq/compressor.py:GPTQCompressor.quant"]}
{"id": "C76", "title": "DMCP's expected channel number is the mean of its samples", "statement": "The channel number used for the expected FLOPs is the mean of the channel numbers that direct sampling draws, and lies between min_ch and the full width; direct sampling passes group i exactly when its draw is at most exp(-max(arch_i, 0)).", "quantifier": "for all group sizes, group numbers and architecture parameters", "why_tests_cant": "A statement about a distribution; sampling only approximates it.", "anchors": ["mmrazor/models/mutators/channel_mutator/dmcp_channel_mutator.py:DMCPChannelMutator._prune_by_arch"]}
{"id": "C77", "title": "DMCP weights channels by their survival probability", "statement": "In architecture training DMCPBatchNorm2d leaves the first min_ch channels unchanged and multiplies every other channel by a factor in (0,1] that does not increase with the channel number.", "quantifier": "for all inputs, group layouts and architecture parameters", "why_tests_cant": "All parameters and widths.", "anchors": ["mmrazor/models/architectures/dynamic_ops/bricks/dynamic_norm.py:DMCPBatchNorm2d.forward_arch_param"]}
{"id": "C78", "title": "A DMCP step trains the configured subnets and can be resumed", "statement": "train_step trains one subnet for each strategy entry that is one of max, min, arch_random, scheduled_random and none for other entries, keeps the losses under different prefixes, updates the architecture only after arch_start_train every arch_train_freq steps, and a resumed run trains the same subnets as an uninterrupted one.", "quantifier": "for all strategies, schedules, random draws and interruption points", "why_tests_cant": "All strategies and interruption points.", "anchors": ["mmrazor/models/algorithms/pruning/dmcp.py:DMCP.train_step"]}
{"id": "C79", "title": "The forward passes of searchable operations are weighted sums of their candidates", "statement": "A one-shot operation without a choice returns the sum of all candidates' outputs. A differentiable operation with non-negative weights returns the weighted sum over all candidates, although it never runs those of weight zero; with one-hot weights the result is the sampled candidate's output, which is also what the operation computes after being fixed to that candidate. Fixing to a list keeps exactly the listed candidates and the fixed forward pass adds their outputs. A choice route run on all edges needs one input per edge, and sampling it picks the edges with the largest architecture parameters.", "quantifier": "for all candidate dictionaries, candidate functions, inputs, weights, chosen lists and parameter orders", "why_tests_cant": "The tests use two or three fixed convolutions and check only tensor shapes, never the value of the sum.", "anchors": ["mmrazor/models/mutables/mutable_module/one_shot_mutable_module.py:29-53", "mmrazor/models/mutables/mutable_module/one_shot_mutable_module.py:205-219", "mmrazor/models/mutables/mutable_module/diff_mutable_module.py:155-229", "mmrazor/models/mutables/mutable_module/diff_mutable_module.py:471-532"]}
{"id": "C80", "title": "Group Fisher measures each active channel by the squared gradient of its multiplier", "statement": "The importance added for one batch to an active channel is the sum over the samples of the square of the total, over all input-related layers and all their uses, of input times gradient of that channel; a pruned channel gets zero. The k-th recorded input is paired with the gradient of the same use of the layer, in every well-nested history of forward and backward calls.", "quantifier": "for all masks, layer numbers, uses, batch sizes and tensor values; for all call histories", "why_tests_cant": "The tests run one forward and backward pass on a toy network and check only that something is recorded.", "anchors": ["mmrazor/implementations/pruning/group_fisher/unit.py:GroupFisherChannelUnit.current_batch_fisher", "mmrazor/implementations/pruning/group_fisher/unit.py:GroupFisherChannelUnit._fisher_of_a_module", "mmrazor/implementations/pruning/group_fisher/ops.py:GroupFisherMixin"]}
{"id": "C81", "title": "Group Fisher normalises by the FLOPs that pruning one channel saves", "statement": "The divisor of a unit's importances equals the difference between the FLOPs of its layers before and after removing one channel, and the normalised importances are the recorded ones divided by that number of GFLOPs.", "quantifier": "for all units, layer types, kernel sizes, output sizes and active channel numbers", "why_tests_cant": "The tests never compare the divisor with a FLOPs count; the error appears only for depthwise layers, which sit on both sides of their unit.", "anchors": ["mmrazor/implementations/pruning/group_fisher/ops.py:GroupFisherConv2d.delta_flop_of_a_out_channel", "mmrazor/implementations/pruning/group_fisher/ops.py:GroupFisherConv2d.delta_flop_of_a_in_channel", "mmrazor/implementations/pruning/group_fisher/unit.py:GroupFisherChannelUnit._delta_flop_of_a_channel", "mmrazor/implementations/pruning/group_fisher/unit.py:GroupFisherChannelUnit._get_normalized_fisher_info"]}
{"id": "C82", "title": "A checkpoint is written for every resource threshold that was passed", "statement": "ResourceInfoHook writes, in descending order and once each, one checkpoint per threshold, at a check that found the remaining resource strictly below it; after a check below all thresholds every checkpoint exists, under its own file name; training stops early exactly when no threshold is left.", "quantifier": "for all threshold lists, intervals and sequences of resource measurements", "why_tests_cant": "Depends on how many thresholds are crossed between two checks and on how thresholds are printed.", "anchors": ["mmrazor/implementations/pruning/group_fisher/hook.py:ResourceInfoHook.after_train_iter", "mmrazor/implementations/pruning/group_fisher/hook.py:ResourceInfoHook._save_checkpoint"]}
{"id": "C83", "title": "find_nodes_parents lists exactly the nearest stopping nodes", "statement": "PathList.find_nodes_parents(target_nodes, non_pass) has one entry per target layer occurring in the paths (also inside concatenations), and the entry holds exactly the nodes that are the first behind some occurrence of it whose type is in non_pass.", "quantifier": "for all path lists, nested concatenations, target and non-pass types", "why_tests_cant": "Arbitrary nesting and repeated occurrences.", "anchors": ["mmrazor/models/task_modules/tracer/path.py:Path.find_nodes_parents", "mmrazor/models/task_modules/tracer/path.py:PathConcatNode.find_nodes_parents", "mmrazor/models/task_modules/tracer/path.py:_merge_node_parents"]}
{"id": "C84", "title": "Alias sampling draws every outcome with its own probability", "statement": "For every vector of non-negative weights, the table built by AliasMethod holds probabilities in [0, 1] and aliases in range, its construction ends, and one draw has outcome j with probability exactly probs[j] / sum(probs).", "quantifier": "for all lengths and all non-negative rational weights with a positive sum", "why_tests_cant": "Sampling tests only check frequencies of a few vectors; exact equality of every outcome's probability for every vector needs an invariant of the pairing loop.", "anchors": ["mmrazor/models/losses/crd_loss.py:AliasMethod.__init__", "mmrazor/models/losses/crd_loss.py:AliasMethod.draw"]}
{"id": "C85", "title": "KLDivergence is a scaled teacher-to-student divergence with minimum at equal distributions", "statement": "For preds of one shape, KLDivergence(tau, reduction, loss_weight) returns loss_weight * tau^2 times the sum over rows of KL(softmax(T/tau) || softmax(S/tau)), undivided for 'sum', divided by the batch size for 'batchmean' and by the number of entries for 'mean', and one value per entry adding up to the sum for 'none'. With positive weight and non-zero tau the reduced loss is never negative and is 0 exactly when each student row is the teacher row plus a constant. Scaling logits and temperature by k scales the loss by k^2.", "quantifier": "all batches of equal non-empty shape, all real logits, temperatures and weights", "why_tests_cant": "The claim is an inequality over all real logits and its equality case; tests compare a few tensors with a tolerance.", "anchors": ["mmrazor/models/losses/kl_divergence.py:48-66"]}
{"id": "C86", "title": "ChannelWiseDivergence compares channels as spatial distributions", "statement": "ChannelWiseDivergence returns loss_weight * tau^2 / (C * N) times the sum over samples and channels of KL between the teacher's and the student's softmax over positions; it is never negative for a positive weight and is 0 exactly when every student map is the teacher map of that channel plus a constant.", "quantifier": "all batch sizes, channel counts, spatial sizes, real features, temperatures", "why_tests_cant": "Inequality over all reals and its equality case.", "anchors": ["mmrazor/models/losses/cwd.py:25-51"]}
{"id": "C87", "title": "DKDLoss decomposes distillation into a target and a non-target part", "statement": "DKDLoss's target part is tau^2 times the divergence between the two-point distributions {target, rest}; its non-target part is tau^2 times the divergence among the other classes; on each row the plain KL loss is the target part plus (1 - p_t) times the non-target part. The reductions 'none', 'mean', 'sum', 'batchmean' do what the docstring says. The loss is never negative and is 0 exactly when every student row is the teacher row plus a constant.", "quantifier": "all batches with at least two classes, all labels, logits, temperatures and weights", "why_tests_cant": "The masking constant 1000 only fails for extreme logits, the reductions are not compared with each other by tests, and the minimum is a statement over all reals.", "anchors": ["mmrazor/models/losses/decoupled_kd.py:52-157"]}
{"id": "C88", "title": "WSLD weights soft-label cross entropy by how much worse the student is on the label", "statement": "WSLD returns loss_weight * tau^2 times the batch mean of weight * cross entropy at temperature tau, with weight = 1 - exp(-nll_s / (nll_t + 1e-7)) at temperature 1; the weight is in [0, 1), positive with two classes or more, and passes 1 - 1/e exactly when the student's log-likelihood of the label is below the teacher's by more than 1e-7; hence the loss is between 0 and the unweighted loss.", "quantifier": "all batches, labels in range, real logits, temperatures, non-negative weights", "why_tests_cant": "Bounds over all real logits.", "anchors": ["mmrazor/models/losses/weighted_soft_label_distillation.py:30-59"]}
{"id": "C89", "title": "Data-free losses have the documented extremes", "statement": "OnehotLikeLoss is the batch mean of -ln(largest probability), lies in [0, ln C] and reaches ln C exactly when all logits of each row agree. InformationEntropyLoss is the sum of avg_j * log10 avg_j over the batch-averaged class probabilities, lies in [-log10 C, 0] and reaches the lower end exactly when every class has average probability 1 / C.", "quantifier": "all non-empty batches, class counts, real logits", "why_tests_cant": "Extremal statements over all real logits.", "anchors": ["mmrazor/models/losses/dafl_loss.py:49-56", "mmrazor/models/losses/dafl_loss.py:73-84"]}
{"id": "C90", "title": "Activation-boundary losses vanish exactly on the documented set", "statement": "ABLoss is loss_weight * 3/1000 times the batch mean of the squared shortfall of each student entry from the margin on the teacher's side of zero, and is 0 exactly when every student entry is on the teacher's side by at least the margin. OFDLoss counts a squared difference only where the student is above the teacher or the teacher is positive, is never negative, and is 0 exactly when the student equals all positive teacher entries and stays at or below the others.", "quantifier": "all batches of one shape, real entries, margins, positive weights", "why_tests_cant": "Zero sets over all reals; tests only check that a loss tensor comes back.", "anchors": ["mmrazor/models/losses/ab_loss.py:30-64", "mmrazor/models/losses/ofd_loss.py:27-55"]}
{"id": "C91", "title": "L1Loss, L2Loss and MGDLoss compute the documented distances", "statement": "L1Loss returns the weighted absolute differences under every accepted reduction / size_average / reduce setting; every reduction the constructor accepts can be used. L2Loss is the weighted squared distance (its root with dist, per entry with div_element, per sample otherwise); with normalisation it is mult^2 * (2 - 2 cos) per sample, is 0 exactly when every student row is a positive multiple of the teacher's, and is a number for all features. MGDLoss is alpha times the squared distance over the batch size, 0 exactly at equality, and rejects different shapes.", "quantifier": "all shapes, real entries, weights and options", "why_tests_cant": "Zero rows and unusual option combinations are rare in test tensors; zero sets quantify over all reals.", "anchors": ["mmrazor/models/losses/l1_loss.py:31-68", "mmrazor/models/losses/l2_loss.py:36-74", "mmrazor/models/losses/mgd_loss.py:24-55"]}
{"id": "C92", "title": "Attention and factor transfer compare directions only", "statement": "ATLoss is the mean over samples and positions of 2 - 2 cos between the attention vectors, lies between 0 and 2 * loss_weight / (H * W) for all features, is 0 exactly when each student attention is a positive multiple of the teacher's, and does not change when a sample is scaled. FTLoss is the mean absolute difference of the unit vectors, 0 exactly for positive multiples.", "quantifier": "all batch, channel and spatial sizes, real features (norm at least 1e-12 where the direction is used)", "why_tests_cant": "Bounds and zero sets over all reals.", "anchors": ["mmrazor/models/losses/at_loss.py:26-40", "mmrazor/models/losses/factor_transfer_loss.py:25-39"]}
{"id": "C93", "title": "PKDLoss compares standardised channels", "statement": "For feature maps of one size PKDLoss is the weighted sum over levels of the mean over channels of half the squared difference of standardised channels, lies between 0 and 2 per level, is 0 exactly when each student channel is the teacher's plus a constant, equals 1 minus the correlation of the channels, is a number, and levels of different sizes are brought to one size.", "quantifier": "all numbers of levels, batch, channel and spatial sizes, real features, any interpolation keeping batch and channels", "why_tests_cant": "The eps, the n-1 in the standard deviation, one-entry channels and equal heights with different widths are not met by test tensors.", "anchors": ["mmrazor/models/losses/pkd_loss.py:22-75"]}
{"id": "C94", "title": "DISTLoss compares class and sample relations", "statement": "DISTLoss is loss_weight * tau^2 * (inter_loss_weight * inter + intra_loss_weight * intra) with inter and intra the averages of 1 - correlation over samples and over classes (1e-8 in the denominator); it is strictly between 0 and 2 * tau^2 * the weights, unchanged by adding a constant to a sample's logits, and 0 for a student equal to the teacher.", "quantifier": "all batches, class counts, real logits, non-zero temperatures, positive weights", "why_tests_cant": "Inequalities over all reals; degenerate batches of one sample.", "anchors": ["mmrazor/models/losses/dist_loss.py:8-51"]}
{"id": "C95", "title": "Relational losses compare scaled distances and angles", "statement": "DistanceWiseRKD is the mean over pairs of the smooth difference of pairwise distances in units of their mean, 0 exactly when the student's distances are the teacher's times one factor, and a number for every batch. AngleWiseRKD is the mean over triples of the smooth difference of the cosines, between 0 and 3/2 of the weight for all batches, and unchanged when all examples are moved and enlarged together.", "quantifier": "all batch sizes, dimensions, real features, weights", "why_tests_cant": "All-pairs and all-triples statements over all reals; batches of one sample.", "anchors": ["mmrazor/models/losses/relational_kd.py:9-153"]}
{"id": "C96", "title": "Teacher-as-target losses", "statement": "CrossEntropyLoss is the weighted mean cross entropy of the student at the teacher's first most likely class; KDSoftCELoss with reduction mean is the weighted cross entropy of the softened distributions, times tau^2 when asked; ActivationLoss is never positive for a non-negative weight and 0 only at zero features; FBKDLoss is never negative and is 0 exactly when all four compared parts agree (where the mask is positive).", "quantifier": "all batches, class counts, real entries, weights, temperatures", "why_tests_cant": "Zero sets and ties over all reals.", "anchors": ["mmrazor/models/losses/cross_entropy_loss.py:20-23", "mmrazor/models/losses/kd_soft_ce_loss.py:57-94", "mmrazor/models/losses/dafl_loss.py:87-124", "mmrazor/models/losses/fbkd_loss.py:10-124"]}
{"id": "C97", "title": "CRDLoss contrasts each sample with noise and keeps unit memory rows", "statement": "ContrastLoss is the batch mean of minus the log-likelihood of telling the true pair from the m others, is strictly positive, and falls when the true score rises and the others fall. ContrastMemory scores the student against the teacher memory and vice versa with the memory as it was before the batch, the sample itself first; its two constants are set by the first batch (whose scores then average 1/n_sample) and never change again; rows of samples outside the batch stay, rows of samples in it become the unit vector along the running average. The loss is scaled by loss_weight.", "quantifier": "all memory sizes, batches, sequences of batches, real features", "why_tests_cant": "State over sequences of batches and inequalities over all reals.", "anchors": ["mmrazor/models/losses/crd_loss.py:43-67", "mmrazor/models/losses/crd_loss.py:83-204"]}
{"id": "C98", "title": "Channel groups found by the channel graph are exactly the forced ones", "statement": "After ChannelGraph.forward() succeeds, two channels (of the input tensor, output tensor or returned tensor of any two nodes) belong to the same element set exactly when they are connected by the documented dependencies: what a node receives is tied to its input channel by channel, concatenation shifts by the widths before it, element-wise nodes tie all their inputs, depthwise convolutions and norms keep channels, expand ties channel k to k*r+j, grouped convolutions and group norms tie channels with the same position in their group, the end node ties everything it receives, and nodes sharing a module are tied channel by channel. Nothing else is tied.", "quantifier": "for all channel graphs (any nodes, any edges) whose single-input nodes have at most one input, all channel numbers, all runs that do not raise", "why_tests_cant": "Two channels wrongly tied or left untied only show up as a different pruning result on some architecture; the graphs are unbounded in size and shape, and the union-find structure depends on the order of all unions.", "anchors": ["mmrazor/structures/graph/channel_graph.py:108-177", "mmrazor/structures/graph/channel_nodes.py:69-527", "mmrazor/structures/graph/channel_flow.py:139-165"]}
{"id": "C99", "title": "What check_channel accepts can be run, with those channel numbers", "statement": "For a topologically ordered graph with the right number of inputs per node, positive channel numbers divisible by the group numbers, and equal modules for shared nodes: check_channel accepts every node exactly when there is an assignment of input and output channel numbers that agrees with every module and every edge; then forward() does not raise, whatever num_input_channel is, and every node's tensors have exactly the assigned numbers of channels (1 for the recorded tensors of pass and end nodes).", "quantifier": "for all well-formed channel graphs and all num_input_channel", "why_tests_cant": "The assertions that can fail are spread over the node classes, the union of tensors and the merging of shared modules; tests run a handful of models.", "anchors": ["mmrazor/structures/graph/channel_nodes.py:93-140", "mmrazor/structures/graph/channel_nodes.py:112-115", "mmrazor/structures/graph/channel_graph.py:108-120", "mmrazor/structures/graph/channel_graph.py:156-177"]}
{"id": "C100", "title": "Units list every channel, and a unit's mask treats channels alike exactly when they are tied", "statement": "For every graph accepted by check_channel, generate_units_config succeeds after forward(). The input and the output tensor of every node are cut into consecutive ranges covering them; the units are the hashes of these ranges, one unit per hash; a unit lists exactly its ranges, without duplicates, and num_channels is the length of the shortest range. When a mask of num_channels entries is stretched over each listed range by repetition, two channels listed by a unit get the same mask entry exactly when forward() tied them (given distinct hashes for distinct owner sets).", "quantifier": "for all well-formed channel graphs with at most 2^32 channels, all injective hash functions, all node names shared only by calls of one module", "why_tests_cant": "The hash, the minimal index and the caches are computed per channel group over the whole network; a wrong range or a wrong length only shows when a particular architecture is pruned to particular widths.", "anchors": ["mmrazor/structures/graph/channel_graph.py:33-110", "mmrazor/structures/graph/channel_flow.py:49-90", "mmrazor/structures/graph/channel_flow.py:168-192", "mmrazor/structures/graph/channel_nodes.py:351-383"]}
{"id": "C101", "title": "generate_units_config can be called again", "statement": "After a successful generate_units_config, a second call on the same graph gives the same units.", "quantifier": "for all accepted channel graphs, all hash functions, all node names", "why_tests_cant": "Tests generate the units of a graph once; whether a second call works depends on which of all tensors created during forward() are still recorded by a node.", "anchors": ["mmrazor/structures/graph/channel_graph.py:238-245", "mmrazor/structures/graph/channel_flow.py:54-90", "mmrazor/structures/graph/channel_nodes.py:296-313"]}
{"id": "C102", "title": "Every input that divides a node's channels gets an expand node", "statement": "After _insert_expand_node, every input whose channel number is a proper divisor of the node's input channels goes through an expand node that brings it to exactly these channels; every other input is connected as before, and no input is lost.", "quantifier": "for all numbers of input channels, all lists of inputs with any positive channel numbers", "why_tests_cant": "The loop removes and appends to the list it iterates over; only particular neighbouring inputs are affected.", "anchors": ["mmrazor/structures/graph/channel_graph.py:178-205"]}
{"id": "C103", "title": "A node's inputs are the nodes it was connected to", "statement": "Connecting a node to its arguments one after the other gives it exactly these inputs, in order and with repetitions, so that channel positions in a concatenation are those of the traced program.", "quantifier": "for all lists of arguments", "why_tests_cant": "Models that use one tensor twice in a concatenation are rare, and nothing raises: an expand node hides the difference.", "anchors": ["mmrazor/structures/graph/base_graph.py:28-40", "mmrazor/structures/graph/base_graph.py:92-95", "mmrazor/structures/graph/channel_graph.py:178-205"]}
{"id": "C104", "title": "find_mutable keeps exactly the units that can be shrunk", "statement": "find_mutable returns the units that can be shrunk: shrinking all returned units together, the model still runs, and no unit that could be shrunk is dropped.", "quantifier": "for all lists of units and all behaviours of the model under shrinking", "why_tests_cant": "Tests run the analyzer on a few models where every combination of good units passes.", "anchors": ["mmrazor/models/mutables/mutable_channel/units/utils.py:47-80"]}
{"id": "C105", "title": "Units made from the analyzer's result start at full width", "statement": "Units initialised from the configs that ChannelAnalyzer returns have all their channels active.", "quantifier": "for all numbers of channels, all outcomes of the trial runs", "why_tests_cant": "The width left by the last trial run depends on which units were tried last; tests compare names and numbers of channels only.", "anchors": ["mmrazor/models/task_modules/tracer/channel_analyzer.py:140-178", "mmrazor/models/mutables/mutable_channel/units/channel_unit.py:177-185", "mmrazor/models/mutables/mutable_channel/units/utils.py:47-60"]}
{"id": "C106", "title": "When a unit is mutable", "statement": "A channel unit is mutable if and only if it has input and output related channels, at least one dynamic module on each side, and no channel whose module has parameters without being dynamic or that is a placeholder.", "quantifier": "for all units and modules", "why_tests_cant": "The two traversals stop early; tests look at a few units.", "anchors": ["mmrazor/models/mutables/mutable_channel/units/mutable_channel_unit.py:128-156", "mmrazor/models/mutables/mutable_channel/units/channel_unit.py:78-88"]}
{"id": "C107", "title": "Choices sampled, set and read back agree", "statement": "set_choices sets exactly the named units and leaves the others alone; the choices read after setting a sample are the sample; setting the current choices changes nothing.", "quantifier": "for all mutators, all histories of set_choices, all random draws", "why_tests_cant": "Whether a sampled value survives setting depends on divisor, minimum and width; tests use widths that are multiples of the divisor.", "anchors": ["mmrazor/models/mutators/channel_mutator/channel_mutator.py:199-247", "mmrazor/models/mutables/mutable_channel/units/sequential_mutable_channel_unit.py:105-145", "mmrazor/models/mutables/mutable_channel/units/one_shot_mutable_channel_unit.py:88-139"]}
{"id": "C108", "title": "A unit is rebuilt from its config template", "statement": "init_from_cfg of a unit's config_template (with init_args and channels) gives a unit with the same arguments, candidates, related channels and active channels.", "quantifier": "for all units of all prepared mutators after any set_choices", "why_tests_cant": "Tests compare the templates of freshly made units; the choice is rounded again when it is set.", "anchors": ["mmrazor/models/mutables/mutable_channel/units/channel_unit.py:131-164", "mmrazor/models/mutables/mutable_channel/units/mutable_channel_unit.py:45-53", "mmrazor/models/mutables/mutable_channel/units/mutable_channel_unit.py:158-172"]}
{"id": "C109", "title": "A mutator is rebuilt from its config template", "statement": "A mutator built from config_template (with init_args and channels) and prepared on the same model has the same units with the same names and choices.", "quantifier": "for all prepared mutators after any set_choices", "why_tests_cant": "Tests check that the template can be used; they do not compare choices after a change.", "anchors": ["mmrazor/models/mutators/channel_mutator/channel_mutator.py:97-192", "mmrazor/models/mutators/channel_mutator/channel_mutator.py:299-344", "mmrazor/models/mutables/mutable_channel/units/one_shot_mutable_channel_unit.py:62-66"]}
{"id": "C110", "title": "Units config as dictionary or as file", "statement": "Giving channel_unit_cfg['units'] as a dictionary or as the name of a file with that dictionary gives the same units.", "quantifier": "for all unit classes, default arguments, unit configs and traced models", "why_tests_cant": "Tests use one form per test; the forms differ only when default_args and a unit's init_args are both given.", "anchors": ["mmrazor/models/mutators/channel_mutator/channel_mutator.py:242-277", "mmrazor/models/mutators/channel_mutator/channel_mutator.py:299-344"]}
{"id": "C111", "title": "Preparing a mutator twice gives the same units", "statement": "prepare_from_supernet called again on the same model gives the same units with the same choices.", "quantifier": "for all mutators and traced models", "why_tests_cant": "The configuration dictionaries are changed by the first call; tests prepare once.", "anchors": ["mmrazor/models/mutators/channel_mutator/channel_mutator.py:97-127", "mmrazor/models/mutators/channel_mutator/channel_mutator.py:299-344"]}
{"id": "C112", "title": "Every subnet of a slimmable mutator can be set", "statement": "Subnet i of a SlimmableChannelMutator takes the i-th candidate of every unit, and set_choices accepts every subnet.", "quantifier": "for all unit configs, traced models and earlier choices", "why_tests_cant": "Tests use candidates that need no rounding; the subnets hold the numbers of the config, the units hold rounded ones.", "anchors": ["mmrazor/models/mutators/channel_mutator/slimmable_channel_mutator.py:29-79", "mmrazor/models/mutables/mutable_channel/units/one_shot_mutable_channel_unit.py:62-113"]}
{"id": "C113", "title": "Registered units decide the masks of dynamic modules", "statement": "After prepare_for_pruning every unit's mask is found at the ranges the unit lists, channel by channel, and channels that the network ties together are kept or removed together.", "quantifier": "for all lists of units with disjoint ranges, for the units of all channel graphs, and all masks", "why_tests_cant": "Which ranges a unit lists depends on the whole graph; tests prune a few networks and compare output shapes.", "anchors": ["mmrazor/models/mutables/mutable_channel/units/mutable_channel_unit.py:192-306", "mmrazor/models/mutables/mutable_channel/simple_mutable_channel.py:47-57", "mmrazor/models/mutables/mutable_channel/mutable_channel_container.py:27-135"]}
{"id": "C114", "title": "Units of a model with predefined dynamic ops", "statement": "init_from_predefined_model gives one unit per channel mutable used in the containers, listing exactly the ranges where it is used; unit_predefined reaches every unit; and preparing such a model changes none of its containers.", "quantifier": "for all models with containers holding channel mutables and derived mutables, all unit classes", "why_tests_cant": "Whether the second and later units are prepared shows only with ranges narrower than their mutable; tests use one model.", "anchors": ["mmrazor/models/mutables/mutable_channel/units/mutable_channel_unit.py:55-120", "mmrazor/models/mutators/channel_mutator/channel_mutator.py:365-374", "mmrazor/models/mutables/mutable_channel/units/one_shot_mutable_channel_unit.py:56-69"]}
{"id": "C115", "title": "Registered units can be read back from the model", "statement": "init_from_predefined_model on a model prepared with a list of units gives back one unit for every unit with channels on dynamic modules, with the same number of channels and exactly those channels.", "quantifier": "for all lists of units with disjoint ranges, and for the units of all channel graphs", "why_tests_cant": "The two functions are tested apart; the round trip is never made.", "anchors": ["mmrazor/models/mutables/mutable_channel/units/mutable_channel_unit.py:55-120", "mmrazor/models/mutables/mutable_channel/units/mutable_channel_unit.py:237-306"]}
{"id": "C116", "title": "A training step of several subnets is one averaged optimizer step", "statement": "In every training iteration of AutoSlim, BigNAS and slimmable networks all subnets are evaluated with the same parameters and the optimizer makes exactly one step with the average of their gradients, whatever accumulative_counts is set to; the losses of each subnet are reported under its own name; every own loss and every distillation loss of a smaller AutoSlim subnet is trained.", "quantifier": "for all models, losses, optimizers, numbers of random samples, iterations (also resumed) and accumulative_counts", "why_tests_cant": "Tests run one step with the matching accumulative_counts and only check that losses are returned; the counters over a run and after resuming are not looked at.", "anchors": ["mmrazor/models/algorithms/nas/autoslim.py:100-160", "mmrazor/models/algorithms/nas/bignas.py:107-179", "mmrazor/models/algorithms/pruning/slimmable_network.py:88-113", "mmrazor/models/utils/optim_wrapper.py:7-29"]}
{"id": "C117", "title": "Arguments of a channel unit", "statement": "A unit listed in channel_unit_cfg has its own init_args, where not given the default_args of the mutator, and else the defaults of its class, whatever way the units are made; min_choice and max_choice are the least and the greatest candidate.", "quantifier": "for all mutators, unit classes, configurations and traced units", "why_tests_cant": "Tests configure either default_args or init_args, not both with different keys.", "anchors": ["mmrazor/models/mutators/channel_mutator/channel_mutator.py:262-363", "mmrazor/models/mutables/mutable_channel/units/one_shot_mutable_channel_unit.py:33-54", "mmrazor/models/mutables/mutable_channel/units/one_shot_mutable_channel_unit.py:108-116"]}
{"id": "C118", "title": "Topological sorting of an exported ONNX graph", "statement": "For a graph in which node names are unique and every tensor has one producer, topo_sort returns the same nodes reordered so that every input of a node is an initializer, a graph input or an output of an earlier node; initializers, inputs and outputs are unchanged. It succeeds if and only if such an order exists and raises RuntimeError otherwise, also for graphs with omitted optional inputs or unnamed nodes.", "quantifier": "for all ONNX graphs with any number of nodes, inputs, initializers and repeated inputs", "why_tests_cant": "Tests sort one exported graph with named nodes and no optional inputs.", "anchors": ["mmrazor/models/quantizers/exporters/optim_utils.py:156-239"]}
{"id": "C119", "title": "Cleaning up an exported ONNX graph", "statement": "optimize succeeds on every executable graph and the cleaned graph computes the same outputs for all inputs; exactly the nodes connected to no other node and the initializers used by no node are removed, and every initializer that stays is used by a node that stays.", "quantifier": "for all graphs, operator semantics and input values", "why_tests_cant": "Tests check the number of nodes of one graph and never execute the result.", "anchors": ["mmrazor/models/quantizers/exporters/optim_utils.py:36-80", "mmrazor/models/quantizers/exporters/optim_utils.py:107-154", "mmrazor/models/quantizers/exporters/optim_utils.py:241-265"]}
{"id": "C120", "title": "Removing paddings that do nothing from an ONNX graph", "statement": "remove_fake_pad_op succeeds on every executable graph and the graph computes the same outputs for all inputs afterwards; exactly the Pad nodes whose amounts are all zero are removed and all other nodes stay, reading the unpadded tensor instead.", "quantifier": "for all graphs, operator semantics, padding amounts and input values", "why_tests_cant": "Tests convert one model in which every padding is followed by a convolution, and do not execute the result.", "anchors": ["mmrazor/models/quantizers/exporters/optim_utils.py:18-34", "mmrazor/models/quantizers/exporters/optim_utils.py:59-69", "mmrazor/models/quantizers/exporters/optim_utils.py:83-97"]}
{"id": "C121", "title": "TensorRT export computes what the fake-quantized graph computes", "statement": "Every fake-quantize node accepted by the TensorRT exporter is replaced by a QuantizeLinear and a DequantizeLinear node that compute the same tensor, so the exported graph has the same outputs for all inputs and contains no fake-quantize nodes.", "quantifier": "for all graphs, numbers of quantized tensors, scales, per-tensor and per-channel quantization and input values", "why_tests_cant": "Tests check that the file is written; comparing the outputs needs an ONNX runtime.", "anchors": ["mmrazor/models/quantizers/exporters/tensorrt_quantize_exporter.py:18-50", "mmrazor/models/quantizers/exporters/base_quantize_exporter.py:91-114"]}
{"id": "C122", "title": "Removing fake-quantize nodes and their constants from an ONNX graph", "statement": "Removing the symbolic nodes from any graph succeeds; afterwards no fake-quantize node and no constant that was used by fake-quantize nodes only is left, and all other nodes stay in their order.", "quantifier": "for all graphs with any number of fake-quantize nodes and constants, shared or not", "why_tests_cant": "The tests use graphs in which all quantizers share their constants; the list of constants is extended while it is iterated over.", "anchors": ["mmrazor/models/quantizers/exporters/base_quantize_exporter.py:108-162"]}
{"id": "C123", "title": "OpenVINO export computes what the fake-quantized graph computes", "statement": "The exported graph has one FakeQuantize node for each fake-quantize node, whose range is that of the node, so it computes the same outputs for all inputs; no fake-quantize node and no unused constant is left.", "quantifier": "for all graphs, numbers of quantized tensors, per-tensor and per-channel quantization and input values", "why_tests_cant": "Tests check that the file is written; names and shapes of the ranges matter only for particular graphs.", "anchors": ["mmrazor/models/quantizers/exporters/openvino_quantize_exporter.py:25-159", "mmrazor/models/quantizers/exporters/base_quantize_exporter.py:91-162"]}
{"id": "C124", "title": "Ranges computed for OpenVINO stand for the scale and the zero point", "statement": "For every positive scale, zero point and range of integers, FakeQuantize with the exported low and high ends maps every number to the value that fake quantization with the (rounded, clamped) zero point gives; each channel has its own range.", "quantifier": "for all real numbers, scales and zero points, integer ranges and numbers of channels", "why_tests_cant": "There are infinitely many numbers; differences appear only halfway between two steps.", "anchors": ["mmrazor/models/quantizers/exporters/openvino_quantize_exporter.py:54-78"]}
{"id": "C125", "title": "Deleting fake quantizers after given nodes", "statement": "For every prepared graph, deleting the fake quantizers after nodes of given ops, methods, functions or module types succeeds; exactly the quantizers whose input is such a node go, with their modules, everything else keeps its place, and the new graph computes what the old one computes with those quantizers switched off. Every module the new graph calls is left.", "quantifier": "for all graphs in topological order whose quantizers have one unquantized input, all patterns, all meanings of the modules and all inputs", "why_tests_cant": "Each graph has its own wiring; the tests use one small network and compare it with a fixed listing.", "anchors": ["mmrazor/models/task_modules/tracer/fx/graph_utils.py:114-152", "mmrazor/models/task_modules/tracer/fx/graph_utils.py:192-231", "mmrazor/models/task_modules/tracer/fx/graph_utils.py:271-310", "mmrazor/models/task_modules/tracer/fx/graph_utils.py:349-387"]}
{"id": "C126", "title": "Deleting fake quantizers before given nodes", "statement": "Deleting the fake quantizers before nodes of given ops, methods or functions deletes exactly the quantizers met first when walking back from such nodes, and nothing else, for every prepared graph.", "quantifier": "for all graphs, patterns and walks through any number of nodes", "why_tests_cant": "The recursion goes through arbitrary graphs; the tests have one target and one quantizer before it.", "anchors": ["mmrazor/models/task_modules/tracer/fx/graph_utils.py:34-111", "mmrazor/models/task_modules/tracer/fx/graph_utils.py:155-189", "mmrazor/models/task_modules/tracer/fx/graph_utils.py:234-268"]}
{"id": "C127", "title": "Deleting fake quantizers before modules of given types", "statement": "Deleting the fake quantizers before modules of given types deletes exactly the quantizers that are the first argument of such a module; what other nodes use stays quantized.", "quantifier": "for all graphs and module types", "why_tests_cant": "A quantizer may be shared by any number of nodes; the tests use chains.", "anchors": ["mmrazor/models/task_modules/tracer/fx/graph_utils.py:313-346"]}
{"id": "C128", "title": "The passes that delete redundant fake quantizers together", "statement": "Running all eight passes deletes only fake quantizers and leaves a graph that computes what the old one computes with them switched off; with the patterns of the OpenVINO and TensorRT quantizers, exactly the quantizers before ReLU6 and Identity, after MaxPool2d and flatten, and before the output go.", "quantifier": "for all graphs and patterns", "why_tests_cant": "Passes see the graph the previous ones leave; an interaction needs a graph in which two patterns meet.", "anchors": ["mmrazor/models/quantizers/native_quantizer.py:330-398", "mmrazor/models/quantizers/openvino_quantizer.py:64-86", "mmrazor/models/quantizers/tensorrt_quantizer.py:62-84"]}
{"id": "C129", "title": "sync_qparams makes the quantizers of all modes agree", "statement": "After sync_qparams(src_mode) every tensor below a fake quantizer of every other forward mode equals the one of the same name in the source mode, everything outside the quantizers and the source mode is unchanged; the call succeeds exactly when all these names are in the source's state dict and no module outside the quantizers has a None child. The models of the modes are built exactly if 'tensor' is one of the modes.", "quantifier": "for all module trees, names and tensors, all numbers of modes", "why_tests_cant": "Module trees of any depth; the tests only build one classifier and call the method.", "anchors": ["mmrazor/models/algorithms/quantization/mm_architecture.py:107-157", "mmrazor/models/algorithms/quantization/mm_architecture.py:255-327"]}
{"id": "C130", "title": "Replacing batch norms and float functionals before tracing", "statement": "convert_batchnorm2d replaces every SyncBatchNorm and _BatchNormXd below the root by a new BatchNorm2d with the same arguments and nothing else; swap_ff_with_fxff does so for FloatFunctional; both keep the tensors and the order of the modules.", "quantifier": "for all module trees", "why_tests_cant": "The tests check one or two modules of a fixed network; sharing and nesting vary without bound.", "anchors": ["mmrazor/models/quantizers/base.py:38-59", "mmrazor/models/quantizers/base.py:76-88"]}
{"id": "C131", "title": "Resetting observers and fake quantizers after the dummy forward pass", "statement": "After reset_observer_and_fakequant_statistics all quantizers have scale one and zero point zero, all observers the bounds of a new observer, whatever the dummy input was, and nothing else has changed.", "quantifier": "for all module trees and tensors", "why_tests_cant": "Depends on the kinds of observers in the tree; the tests use one kind.", "anchors": ["mmrazor/models/algorithms/quantization/mm_architecture.py:94-105"]}
{"id": "C132", "title": "The modes of LearnableFakeQuantize do what their documentation says", "statement": "After enable_val no sequence of forward passes and optimizer steps changes the parameters or the observer and all outputs use the same parameters; after enable_param_learning the observer sees nothing and no forward pass uses a scale below eps; after enable_static_observation the outputs are the inputs and the parameters do not change; gradients are required exactly when learning is on.", "quantifier": "for all histories of method calls, forward passes and optimizer steps", "why_tests_cant": "A property of all call sequences; the tests try single calls.", "anchors": ["mmrazor/models/fake_quants/lsq.py:83-130", "mmrazor/models/fake_quants/lsq.py:132-201", "mmrazor/models/fake_quants/lsq.py:219-259"]}
{"id": "C133", "title": "Statistics of the LSQ observers", "statement": "After static estimates over any sequence of batches the bounds of each channel are the least and greatest value seen, the scale is 2 mean|x| / sqrt(quant_max) of the first batch and at least eps, and the outputs use these parameters.", "quantifier": "for all sequences of batches, numbers of channels and values", "why_tests_cant": "Invariant over all sequences of batches; the tests feed one tensor.", "anchors": ["mmrazor/models/observers/lsq.py:30-44", "mmrazor/models/observers/lsq.py:58-77", "mmrazor/models/observers/lsq.py:91-129", "mmrazor/models/fake_quants/lsq.py:219-240"]}
{"id": "C134", "title": "First-order DARTS steps use the gradient of their own batch", "statement": "In every iteration without unrolling, the architecture parameters step along the gradient of the validation loss of this iteration's second batch alone, and the weights then along the gradient of the training loss of the first batch alone at the new architecture parameters.", "quantifier": "for all sequences of batches, losses, optimizers and starting parameters", "why_tests_cant": "A property of whole training runs; the test calls train_step once and only checks that it returns.", "anchors": ["mmrazor/models/algorithms/nas/darts.py:80-134"]}
{"id": "C135", "title": "Second-order DARTS steps use the unrolled gradient", "statement": "With unrolling, the architecture parameters step along the gradient of the validation loss at the weights after one virtual training step minus lr times the finite-difference approximation of the mixed second derivative, and the weights along the gradient of the training loss.", "quantifier": "for all sequences of batches, losses, optimizers and starting parameters", "why_tests_cant": "Depends on which tensors alias each other over a run; the test only checks that the call returns.", "anchors": ["mmrazor/models/algorithms/nas/darts.py:136-268"]}
{"id": "C136", "title": "The unrolled backward pass restores the weights; accepted batches and logs", "statement": "After _unrolled_backward the weights, architecture parameters and both optimizers are as before; train_step accepts exactly two batches with two optimizers; the logs hold the mutator's losses before the step and the supernet's after the step of the architecture parameters under their prefixes.", "quantifier": "for all states, batches, losses and logs", "why_tests_cant": "Holds for all gradients that may be stored before; the test looks at no weights.", "anchors": ["mmrazor/models/algorithms/nas/darts.py:80-134", "mmrazor/models/algorithms/nas/darts.py:136-268"]}
{"id": "C137", "title": "DSNAS trains in three stages", "statement": "The architecture parameters are updated exactly in the epochs from pretrain_epochs on and before finetune_epochs; from epoch finetune_epochs on every step trains the one subnet with the highest architecture parameters.", "quantifier": "for all sequences of steps, epochs, samples, groups and optimizers", "why_tests_cant": "A property of whole runs including resumed ones; the tests call single steps.", "anchors": ["mmrazor/models/algorithms/nas/dsnas.py:118-175", "mmrazor/models/algorithms/nas/dsnas.py:177-204"]}
{"id": "C138", "title": "The DSNAS loss of a mutable is computed with its own architecture parameters", "statement": "compute_mutator_loss and handle_grads read, for every mutable, the architecture parameters of the search group that has the mutable.", "quantifier": "for all supernets, aliases and custom groups", "why_tests_cant": "Groupings vary without bound; the tests have no shared alias.", "anchors": ["mmrazor/models/algorithms/nas/dsnas.py:208-229", "mmrazor/models/algorithms/nas/dsnas.py:247-255", "mmrazor/models/mutators/nas_mutator.py:138-149"]}
{"id": "C139", "title": "DSNAS architecture parameters step along the gradient scaled by the reward", "statement": "In every update of the mutator the gradient of the loss for a mutable's architecture parameters is multiplied by the sum of the gradient of its arch_weights before the optimizer's step; the loss has a flops term exactly if the best subnet's flops are not below flops_constraints.", "quantifier": "for all states, batches, rewards, samples and optimizers", "why_tests_cant": "The tests do not look at gradients.", "anchors": ["mmrazor/models/algorithms/nas/dsnas.py:118-175", "mmrazor/models/algorithms/nas/dsnas.py:208-255"]}
{"id": "C140", "title": "DSNAS steps do not fail when a mutable reaches its threshold", "statement": "A step in any epoch succeeds for all samples of a supernet with at least two candidates per mutable and groups of equal candidates, also if a mutable is fixed because its two largest probabilities are far apart.", "quantifier": "for all supernets, epochs, samples and architecture parameters", "why_tests_cant": "Thresholds are reached only late in a search; the tests run one step.", "anchors": ["mmrazor/models/algorithms/nas/dsnas.py:118-175", "mmrazor/models/mutables/mutable_module/diff_mutable_module.py:292-332"]}
{"id": "C141", "title": "Accepted distillers compute their losses", "statement": "ConfigurableDistiller accepts a configuration exactly if every mapped loss exists, every mapped argument is a parameter of the loss's forward, and the mappings of parameters without a default name existing recorders and connectors. An accepted distiller whose connectors and losses work and whose recorders hold the records computes its losses without an error.", "quantifier": "for all recorders, connectors, losses and mappings", "why_tests_cant": "Configurations vary without bound; the tests try a handful of wrong ones.", "anchors": ["mmrazor/models/distillers/configurable_distiller.py:97-126", "mmrazor/models/distillers/configurable_distiller.py:183-294"]}
{"id": "C142", "title": "Distillation losses are computed from the records that the mappings name", "statement": "compute_distill_losses returns exactly the mapped losses in the order of the mappings, each of them the loss's value of the records that its mapping names (record, element, connector, element of its output; detached for the teacher of a BYOTDistiller); other recorders, connectors and losses have no influence.", "quantifier": "for all recorders, connectors, losses and mappings", "why_tests_cant": "A statement on all mappings; the tests check one loss.", "anchors": ["mmrazor/models/distillers/configurable_distiller.py:183-226", "mmrazor/models/distillers/byot_distiller.py:19-44"]}
{"id": "C143", "title": "Data-free distillation trains student and generator with their own losses", "statement": "In every iteration the generator steps along the gradient of its losses and the student, in each of its student_iter rounds, along the gradient of the distillation losses of images of the current generator.", "quantifier": "for all sequences of iterations, numbers of rounds, noises, losses and optimizers", "why_tests_cant": "A property of whole training runs; the tests only check that a step returns.", "anchors": ["mmrazor/models/algorithms/distill/configurable/datafree_distillation.py:78-173", "mmrazor/models/algorithms/distill/configurable/datafree_distillation.py:179-229"]}
{"id": "C144", "title": "Logs of data-free distillation", "statement": "A training step succeeds exactly if student_iter is not zero, and logs the distillation losses of the last round and the generator's losses under the prefixes distill and generator.", "quantifier": "for all states, noises, losses and optimizers", "why_tests_cant": "The tests look at no logged value.", "anchors": ["mmrazor/models/algorithms/distill/configurable/datafree_distillation.py:78-173"]}
{"id": "C145", "title": "Dynamic multi-head attention computes relative-position attention with the selected widths", "statement": "When the mutables are registered and num_heads divides the selected query width, the forward of DynamicMultiheadAttention returns for every image and token the projection of the attention-weighted values and value embeddings, with logits scaled content plus scaled key embedding, computed with the leading rows and columns of the weights; the result for an image does not depend on the other images of the batch; a number of heads that does not divide the query width raises RuntimeError.", "quantifier": "for all batch sizes, token counts, head counts and widths, weights, inputs and softmax functions", "why_tests_cant": "The reshapes and permutations mix image, head and token axes; tests only check output shapes.", "anchors": ["mmrazor/models/architectures/dynamic_ops/bricks/dynamic_multi_head_attention.py:160-185", "mmrazor/models/architectures/dynamic_ops/bricks/dynamic_multi_head_attention.py:238-279", "mmrazor/models/architectures/ops/transformer_series.py:160-193"]}
{"id": "C146", "title": "Relative positions index the tables by clipped row and column distance", "statement": "The embedding of a pair of tokens is the sum of the vertical and horizontal table entries of their clipped row and column distance, entry 0 for the class token; no index is outside tables of 2*max_relative_position+2 rows, distances up to the maximum have different entries, and the dynamic version gives the leading columns.", "quantifier": "for all numbers of tokens, ranges, table contents and selected widths", "why_tests_cant": "Index arithmetic over all grids and ranges; the tests do not look at values.", "anchors": ["mmrazor/models/architectures/ops/transformer_series.py:21-74", "mmrazor/models/architectures/dynamic_ops/bricks/dynamic_relative_position.py:108-154"]}
{"id": "C147", "title": "Exported multi-head attention computes what the dynamic one computes", "statement": "to_static_op of a DynamicMultiheadAttention whose mutables are fixed succeeds and the static module returns the same result for every input; convert_from keeps the function of the converted module.", "quantifier": "for all modules, selected widths, heads, scales, ranges and inputs", "why_tests_cant": "Depends on constructor arguments that the tests leave at their defaults.", "anchors": ["mmrazor/models/architectures/dynamic_ops/bricks/dynamic_multi_head_attention.py:187-232", "mmrazor/models/architectures/dynamic_ops/bricks/dynamic_relative_position.py:78-106", "mmrazor/models/architectures/ops/transformer_series.py:111-193"]}
{"id": "C148", "title": "The last direct registration, or else the first registration under a channel name, is the mutable of a dynamic layer", "statement": "After any sequence of register_mutable_attr calls, of which refused ones change nothing, get_mutable_attr of a name returns the last mutable registered under the attribute itself that passed the checks of the class, or if there is none the first one registered under a name mapped to it; names mapped to the same attribute always give the same mutable; a name that is neither mapped nor accepted raises AssertionError.", "quantifier": "for all classes (mappings, accepted names, checks) and all sequences of registrations", "why_tests_cant": "Needs arbitrary sequences of registrations under aliases; tests register one or two.", "anchors": ["mmrazor/models/architectures/dynamic_ops/mixins/dynamic_mixins.py:39-47", "mmrazor/models/architectures/dynamic_ops/mixins/dynamic_mixins.py:152-173"]}
{"id": "C149", "title": "DynamicLayerNorm normalises with the selected weights, can be registered again and exports the same function", "statement": "With a mutable registered, forward of a 3-dimensional input of the activated width normalises it with the selected weights and biases, to_static_op succeeds when the mutable is fixed and computes the same; any sequence of registrations, choices and forwards leaves a mask of the layer's size; a layer with nothing registered, or converted from a LayerNorm, computes what the LayerNorm computes.", "quantifier": "for all widths, masks, weights, inputs, normalisation functions and sequences of registrations, choices and forwards", "why_tests_cant": "forward changes normalized_shape, which later registrations check; tests do not interleave them.", "anchors": ["mmrazor/models/architectures/dynamic_ops/mixins/dynamic_layernorm_mixins.py:34-147", "mmrazor/models/architectures/dynamic_ops/bricks/dynamic_norm.py:230-260"]}
{"id": "C150", "title": "DynamicSequential runs and exports the first depth children", "statement": "forward runs exactly the first depth children that are not mutables, one after the other; to_static_op succeeds exactly with a fixed depth whose choice is set and returns these children, which compute the same; a depth is accepted if and only if there are that many children; without a depth the container computes what Sequential computes.", "quantifier": "for all children (including failing ones), depths and inputs", "why_tests_cant": "Unbounded depth and arbitrary children; tests use one container.", "anchors": ["mmrazor/models/architectures/dynamic_ops/bricks/dynamic_container.py:26-109"]}
{"id": "C151", "title": "DynamicPatchEmbed gives the selected entries of every token and exports the same function", "statement": "With a mutable registered every token has the selected entries of the token that the whole embedding gives, then normalised; to_static_op of an embedding with a fixed mutable succeeds and computes the same; convert_from keeps the function.", "quantifier": "for all images, filters, biases, masks, paddings, dilations and normalisations", "why_tests_cant": "All masks and geometries; tests only use the default geometry without normalisation.", "anchors": ["mmrazor/models/architectures/dynamic_ops/bricks/dynamic_embed.py:77-154"]}
{"id": "C152", "title": "All candidate operations of a choice return the same shape", "statement": "A searchable operation that is built for its arguments and fits them returns the requested number of channels at the input resolution divided by the stride and rounded up, so that any two fitting candidates of a choice can be exchanged or summed. For the ShuffleNet and DARTS operations and Identity the conditions are exact: an operation that could be built returns this shape if and only if it fits. The stronger claim that every operation that can be built returns this shape fails for seven operations.", "quantifier": "for all operations, channels, strides, kernel sizes, expansion ratios and input sizes", "why_tests_cant": "Tests use square power-of-two inputs with equal channels, where the failing cases do not show.", "anchors": ["mmrazor/models/architectures/ops/darts_series.py", "mmrazor/models/architectures/ops/mobilenet_series.py", "mmrazor/models/architectures/ops/shufflenet_series.py", "mmrazor/models/architectures/ops/efficientnet_series.py", "mmrazor/models/architectures/ops/common.py"]}
{"id": "C153", "title": "Every subnet of the searchable ShuffleNet and MobileNet runs and returns the selected stage maps", "statement": "With fitting candidates and a consistent arch_setting the backbone can be built, and for every choice of a candidate per block its forward succeeds and returns the maps behind the layers in out_indices in the order of the layers; the map behind a stage has the channels of the stage and the input resolution divided by twice the product of the strides so far, rounded up. Increasing out_indices below the number of layers give exactly the maps they name; an index outside of the checked range raises ValueError. The claim that every out_indices gives the maps it names fails.", "quantifier": "for all candidates, arch settings, choices, out_indices and image sizes", "why_tests_cant": "The number of subnets is exponential in the number of blocks; tests run one.", "anchors": ["mmrazor/models/architectures/backbones/searchable_shufflenet_v2.py", "mmrazor/models/architectures/backbones/searchable_mobilenet_v2.py"]}
{"id": "C154", "title": "Frozen stages stay frozen under any sequence of train() calls", "statement": "After any non-empty sequence of train(mode) calls the first frozen_stages layers are in evaluation mode and without gradients, the first convolution is without gradients if frozen_stages is not negative, and all other submodules are in the last mode, batch norms in evaluation mode under norm_eval; with more frozen stages than layers train raises IndexError (ShuffleNet) or AttributeError (MobileNet). The claim that the first convolution is also in evaluation mode fails.", "quantifier": "for all backbones, frozen_stages, norm_eval and sequences of modes", "why_tests_cant": "Unbounded sequences of mode changes; tests call train once.", "anchors": ["mmrazor/models/architectures/backbones/searchable_shufflenet_v2.py", "mmrazor/models/architectures/backbones/searchable_mobilenet_v2.py"]}
{"id": "C155", "title": "Every DARTS architecture runs and returns the selected cell maps", "statement": "For images with sides divisible by 4, every selection of at least one input per node and at least one DARTS operation per selected edge runs; the map behind a cell has num_nodes times base_channels channels, doubled by every reduction so far, and a resolution halved by every reduction so far; the maps of the cells in out_indices are returned in order, in training with the auxiliary map in front. The last map is at a quarter of the resolution (half with one cell). out_indices must end with the last cell. The claim that images of all sizes pass fails, and small images fail in training with the auxiliary module.", "quantifier": "for all numbers of layers and nodes, channels, candidates, selections of edges and operations, and image sizes", "why_tests_cant": "The number of architectures is exponential in the number of edges; tests run one supernet.", "anchors": ["mmrazor/models/architectures/backbones/darts_backbone.py", "mmrazor/models/architectures/ops/darts_series.py"]}
{"id": "C156", "title": "Copying and converting a graph keeps nodes, names and edges", "statement": "copy_from with any node converter yields a consistent graph that has exactly the images of the nodes and, between them, exactly the images of the edges, provided images of equal name are equal; two different images of one name raise. A torch.fx graph parsed and converted to a module graph has one node per fx node, in order, under the same name, whose content is the module, function, method or placeholder of the node, and an edge exactly where a node is an input of another.", "quantifier": "for all graphs built by any sequence of graph operations, all converters and all torch.fx graphs", "why_tests_cant": "A test converts a few models; that no converter or graph loses an edge or merges nodes is a statement over all graphs.", "anchors": ["mmrazor/structures/graph/base_graph.py:74-117", "mmrazor/structures/graph/module_graph.py:468-507", "mmrazor/structures/graph/pseudo_fx_graph.py:86-104"]}
{"id": "C157", "title": "ModuleGraph.check accepts exactly the well-formed graphs and repairs only what is missing", "statement": "check without fix leaves the graph unchanged and succeeds exactly if the graph has no cycle and precisely the input nodes have no previous node and precisely the output nodes no next node. check with fix, if it succeeds, leaves such a graph, keeps all nodes and edges and adds only auto_input_placeholder and auto_output_placeholder and edges from and to them; on an acyclic graph without misplaced placeholders it succeeds and connects exactly the nodes that lacked a previous or next node; misplaced placeholders are never accepted.", "quantifier": "for all graphs built by any sequence of graph operations and any recursion depth", "why_tests_cant": "The repair mutates the graph during its own traversal; tests see only the graphs of the tested models.", "anchors": ["mmrazor/structures/graph/module_graph.py:154-254"]}
{"id": "C158", "title": "Bind nodes give every narrow layer a single input and renaming keeps the graph", "statement": "_insert_bind_nodes puts one bind node in front of exactly the convolution, linear and norm nodes with more than one previous node, moves their incoming edges to it and changes nothing else, so afterwards each has at most one previous node. _topo_rename keeps all nodes and edges up to the new names, lists nodes behind their previous nodes and numbers the placeholders of a kind from 0 in that order; other contents raise NotImplementedError. The claim that no node is lost for any module names fails.", "quantifier": "for all graphs built by any sequence of graph operations and all classifications of contents", "why_tests_cant": "The order in which nodes are rewired and renamed depends on the whole graph; tests fix a few models.", "anchors": ["mmrazor/structures/graph/module_graph.py:291-361"]}
{"id": "C159", "title": "The graph of traced paths has the layers and concatenations of the paths as nodes and their adjacency as edges", "statement": "If all layer names in the path list are modules of the model and none is called like a concatenation node, PathToGraphConverter parses the paths into a consistent graph whose nodes are exactly the layers and concatenations occurring anywhere in the (nested) paths and whose edges are exactly the pairs of which one directly follows the other in a path or starts a branch of a concatenation. Two concatenations become one node exactly if the multisets of their input ids agree.", "quantifier": "for all nested path lists and models", "why_tests_cant": "The paths nest without bound and nodes recur in many of them; tests parse the paths of a few networks.", "anchors": ["mmrazor/structures/graph/module_graph.py:370-465"]}
{"id": "C160", "title": "OFD margins are the means of the negative responses and negative themselves", "statement": "For a batch norm channel with weight w and bias m the margin of overhaul feature distillation is, if more than a thousandth of N(m, |w|) is negative, the mean of the negative part: margin times the share of negative responses is the integral of x times the density up to 0; otherwise it is -3|w|. For non-zero weights it is always negative, so OFDLoss on the transformed teacher feature is zero exactly where the student matches a positive teacher response or stays below max(teacher, margin) at a non-positive one. A zero weight raises ZeroDivisionError.", "quantifier": "for all weights, biases and responses and the distribution function of the normal distribution", "why_tests_cant": "The formula is an integral over all responses of a distribution; tests compare a few numbers.", "anchors": ["mmrazor/models/distillers/ofd_distiller.py:56-80", "mmrazor/models/losses/ofd_loss.py:27-55"]}
{"id": "C161", "title": "init_ofd_connectors sets exactly the margins of the connectors of teacher inputs", "statement": "On checked mappings init_ofd_connectors succeeds exactly if every teacher input of an OFD loss that passes a connector records an affine batch norm of the teacher without zero weights and names an OFDTeacherConnector; then each named connector holds the margins of the batch norm of the last input naming it, all others are unchanged, and no named connector fails for want of a margin: it bounds every channel of a feature from below by the margin of that channel.", "quantifier": "for all mappings, recorders, teachers and connectors", "why_tests_cant": "Which connector gets which margin depends on the order of all mappings; tests use one loss with one connector.", "anchors": ["mmrazor/models/distillers/ofd_distiller.py:24-54", "mmrazor/models/architectures/connectors/ofd_connector.py:20-37"]}
{"id": "C162", "title": "L1 units keep the filters with the largest mean absolute weights", "statement": "Setting the choice of an L1MutableChannelUnit rounds it to k channels. If k is between 0 and the number of channels and every convolution and linear layer producing the channels has one filter per channel, exactly k channels are kept and no dropped channel has a larger sum of mean absolute filter weights than a kept one; reading the choice gives k (or its ratio), and with pairwise different importances a smaller choice keeps a subset of what a larger one keeps. Any other k raises. Every choice between 1 and the number of channels can be set.", "quantifier": "for all weights, layers per unit, divisors, minima, choices and any way topk resolves ties", "why_tests_cant": "Ranking depends on all weights of all layers in the unit and on ties; tests set one choice on one model.", "anchors": ["mmrazor/models/mutables/mutable_channel/units/l1_mutable_channel_unit.py:33-82", "mmrazor/models/mutables/mutable_channel/units/sequential_mutable_channel_unit.py:126-138"]}
{"id": "C163", "title": "DCFF mixes every kept filter with its neighbours, itself first", "statement": "get_pooled_channel at temperature tau returns one row per kept channel: for each of the best scored filters i the shares exp(-d(i,j)/tau) divided by their sum over all filters j. Shares are positive, add up to 1, are largest for the filter itself and larger for nearer filters, so a mixture lies between the smallest and largest of the values mixed and differs from the filter's own value by at most spread times the number of filters times exp(-delta/tau) if all different filters are at least delta away.", "quantifier": "for all convolution weights, masks, temperatures above 0 and any way topk resolves ties", "why_tests_cant": "The shares are real-valued functions of all pairs of filters; tests check tensor shapes only.", "anchors": ["mmrazor/models/architectures/dynamic_ops/mixins/dynamic_conv_mixins.py:534-572"]}
{"id": "C164", "title": "A pruned DCFF convolution computes with mixtures of its filters and exports what it computes", "statement": "With any channel out of use, a FuseConv2d of one group or depthwise runs with as many filters as its choice has rows, of the same kernel size, cut to the inputs in use, each weight and bias the sum of the filters' values times the shares of the row; with all channels in use it runs with its own weights; other groups raise NotImplementedError. After calc_information the rows belong to the best scored filters. Exporting a fixed layer gives a Conv2d computing the same, and is refused exactly for unfixed layers and for depthwise layers whose kept inputs do not divide the filters.", "quantifier": "for all layers, masks, choices and inputs", "why_tests_cant": "Tests build 3x3 kernels only and compare shapes; non-square kernels are never tried.", "anchors": ["mmrazor/models/architectures/dynamic_ops/mixins/dynamic_conv_mixins.py:417-532", "mmrazor/models/mutators/channel_mutator/dcff_channel_mutator.py:34-47"]}
{"id": "C165", "title": "DCFF's temperature falls from 1 to 1/10000", "statement": "For max iterations above 0 the temperature is 1 at iteration 0, 1/10000 at the last one and strictly falls while staying positive; for 0 iterations it raises ZeroDivisionError.", "quantifier": "for all iteration numbers", "why_tests_cant": "Monotonicity over all iterations is a statement about a real function; no test calls it with more than a few values.", "anchors": ["mmrazor/models/algorithms/pruning/dcff.py:66-75"]}
{"id": "C166", "title": "Search spaces given by ranges", "statement": "parse_values turns every (min, max, step) into the values min, min + step, ... that do not pass max, in that order, and accepts exactly triples with a non-zero step. The documented maximum is a value if and only if the step divides the distance; otherwise, and for every descending range, it is missing.", "quantifier": "all lists of ranges of integers, with any length, order and sign of step", "why_tests_cant": "Tests use the shipped ranges, whose step divides the distance.", "anchors": ["mmrazor/models/utils/parse_values.py"]}
{"id": "C167", "title": "Building the searchable MobileNetV3 consumes the caller's activations", "statement": "AttentiveMobileNetV3 gives the first activation of act_cfg_list to the stem, the last to the last layers and the following ones to the layers. It pops them from the caller's list, so that every construction (even one that fails later) takes both ends off: building again from the same configuration gives other activations or an IndexError, and a list of exactly the needed length serves once. Without a list it can be repeated.", "quantifier": "all configurations, activation lists and numbers of constructions", "why_tests_cant": "A test builds a network once from a fresh configuration.", "anchors": ["mmrazor/models/architectures/backbones/searchable_mobilenet_v3.py"]}
{"id": "C168", "title": "Every subnet of the searchable MobileNetV3 runs", "statement": "Every choice of depths (at least 1), widths, odd kernel sizes and expand ratios from the search space runs and returns, for the layers asked for, the chosen channels at the input resolution divided by the strides, rounded up. With attentive shortcuts the sides must agree in parity where they are halved (square inputs always do); without them a layer of stride 1 whose largest width equals that of the layer before must choose the same width. Otherwise the subnet raises; so does depth 0 behind another width and every even kernel.", "quantifier": "all search spaces, choices and image sizes", "why_tests_cant": "A search space has billions of subnets; tests run the largest, the smallest and a few random ones.", "anchors": ["mmrazor/models/architectures/backbones/searchable_mobilenet_v3.py", "mmrazor/models/architectures/utils/mutable_register.py", "mmrazor/models/architectures/ops/mobilenet_series.py", "mmrazor/models/architectures/dynamic_ops/bricks/dynamic_container.py"]}
{"id": "C169", "title": "Outputs and frozen stages of the searchable MobileNetV3 exist", "statement": "The constructor accepts output indices 0 to 7 and frozen stages -1 to 7, whatever the number of layers. The number of maps returned is the number of existing layers asked for: on the shipped search space of six layers the default index 7 returns none, and freezing 7 stages raises as soon as a mode is set.", "quantifier": "all search spaces, output indices, frozen stages and modes", "why_tests_cant": "Tests use seven layers, where all accepted values exist.", "anchors": ["mmrazor/models/architectures/backbones/searchable_mobilenet_v3.py"]}
{"id": "C170", "title": "Every subnet of the searchable AutoFormer returns the chosen width", "statement": "When each of the lists mlp_ratios, num_heads, depth and embed_dims ends with its largest entry, AutoformerBackbone is built with as many layers as the largest depth, and every choice from the lists runs on exactly the images with the configured channels, sides of at least 16 and as many patches of 16 as positions are embedded (or a position embedding of the class token alone, which broadcasts). It returns as many features as the chosen width. All others raise RuntimeError.", "quantifier": "all architecture settings ending with their largest entries, all choices per layer, all image sizes", "why_tests_cant": "The search space has billions of subnets; tests run one choice of one setting.", "anchors": ["mmrazor/models/architectures/backbones/searchable_autoformer.py", "mmrazor/models/architectures/dynamic_ops/bricks/dynamic_multi_head_attention.py", "mmrazor/models/mutables/mutable_channel/mutable_channel_container.py", "mmrazor/models/mutables/mutable_channel/sequential_mutable_channel.py"]}
{"id": "C171", "title": "patch_size of the searchable AutoFormer is respected", "statement": "A network built for an image size and a patch size takes square images of that size. The patch size only reaches the position embedding, never the patch embedding, which cuts patches of 16: images are taken if and only if img_size // patch_size equals img_size // 16 or is 0.", "quantifier": "all image sizes of at least 16 and all patch sizes", "why_tests_cant": "Tests use the default patch size 16.", "anchors": ["mmrazor/models/architectures/backbones/searchable_autoformer.py", "mmrazor/models/architectures/dynamic_ops/bricks/dynamic_embed.py"]}
{"id": "C172", "title": "The order of the choices of the searchable AutoFormer does not matter", "statement": "Settings whose lists are permuted describe the same networks. Refuted for each of the four lists: a depth above the last makes the constructor raise, a number of heads above the last (up to 64) or a ratio above the last makes every subnet with a layer raise, and a width above the last is silently cut to the last. The constructor also leaves the caller's embed_dims sorted, so building again from the same settings can give another network, which then stays the same.", "quantifier": "all settings, choices and images", "why_tests_cant": "Tests and configurations list choices in ascending order.", "anchors": ["mmrazor/models/architectures/backbones/searchable_autoformer.py", "mmrazor/models/mutables/mutable_channel/oneshot_mutable_channel.py", "mmrazor/models/mutables/mutable_value/mutable_value.py", "mmrazor/models/mutables/mutable_channel/mutable_channel_container.py"]}
{"id": "C173", "title": "Encoding candidates for metric predictors is invertible", "statement": "model2vector gives every candidate of the search space one index per search group and a onehot block with a single 1 per group; candidates with the same vector of either kind are equal, choices outside a group or a wrong number of keys raise. vector2model gives the candidate back, except for vectors of a single entry, which np.squeeze turns into a number.", "quantifier": "all search groups, choices and candidates", "why_tests_cant": "Tests use one group and never decode; the search space is exponential in the groups.", "anchors": ["mmrazor/models/task_modules/predictor/metric_predictor.py"]}
{"id": "C174", "title": "Predictors are asked with the vectors they were trained with", "statement": "After a candidate is set, predict encodes the exported subnet of the model to the vector that fit was given for this candidate. Refuted: with aliases the exported entries come in another order than the search groups, so that the score of another network is predicted; with groups of several mutables or with channel mutables predict raises. Proved for mutables without aliases and custom groups.", "quantifier": "all models with any mutables, aliases and groups, and all candidates", "why_tests_cant": "The tests' model has a single mutable, for which all orders agree.", "anchors": ["mmrazor/models/task_modules/predictor/metric_predictor.py", "mmrazor/structures/subnet/fix_subnet.py", "mmrazor/models/mutators/group_mixin.py", "mmrazor/models/mutators/nas_mutator.py", "mmrazor/models/mutables/mutable_channel/base_mutable_channel.py"]}
{"id": "C175", "title": "A configured predictor scores the candidates of the search", "statement": "After _init_predictor the evolutionary search scores all candidates with the predictor. Refuted for a predictor loaded from handler_ckpt, which is never asked: every candidate of every epoch is evaluated. Otherwise all are predicted, and the candidates sampled for training neither stay in the pool nor change its size. Training an RBF handler succeeds if and only if there are more samples than search groups.", "quantifier": "all numbers of epochs, candidates and samples, all handlers and sources of samples", "why_tests_cant": "Tests mock the predictor and never load a handler checkpoint.", "anchors": ["mmrazor/engine/runner/evolution_search_loop.py", "mmrazor/models/task_modules/predictor/metric_predictor.py", "mmrazor/models/task_modules/predictor/handler/rbf_handler.py"]}
{"id": "C176", "title": "A BYOT connector accepts exactly the features whose sides survive its attention, halvings and pooling", "statement": "BYOTConnector can be constructed exactly if one of in_channel and out_channel is the other times a power of two. With out_channel = in_channel * 2^n it accepts exactly feature maps with in_channel * expansion channels whose sides are even (stride 2) or 1, and of which the n separable convolutions leave at least pool_size and less than twice pool_size; it then returns out_channel * expansion features and num_classes logits. The claim that every constructible connector accepts some feature map is refuted: with the default stride 1 the doubled attention never has the size of the feature. The exact condition for being usable is proved.", "quantifier": "all channel counts, expansions, pool sizes, kernels and strides of DartsSepConv and all feature maps", "why_tests_cant": "The repository tests one stride-2 connector on one 8x8 map; the defaults are never run and sizes are unbounded.", "anchors": ["mmrazor/models/architectures/connectors/byot_connector.py:31-82", "mmrazor/models/architectures/ops/darts_series.py:81-126"]}
{"id": "C177", "title": "Non-local blocks of FBKD pool by twice their stride and cannot subsample in gaussian mode", "statement": "With sub_sample, NonLocal2dMaxpoolNstride compares each position with those that max pooling by 2 * maxpool_stride leaves, because the pooling is put behind the pooling of its parent, and refuses smaller maps; the claim that it pools by maxpool_stride is refuted. In mode gaussian with sub_sample every feature map is refused. Without sub_sample every position is compared with every position in every mode.", "quantifier": "all channels, reductions, modes, strides and feature maps", "why_tests_cant": "Tests only check output shapes, which do not reveal the number of positions compared, and never use gaussian mode.", "anchors": ["mmrazor/models/architectures/connectors/fbkd_connector.py:39-70"]}
{"id": "C178", "title": "The attention masks of FBKD have mean one and follow the magnitude of the features", "statement": "The spatial mask of a feature map has one positive weight per position, the weights add up to the number of positions, and two weights are in the ratio of the exponentials of the mean magnitudes divided by the temperature; likewise the channel mask, whose weights add up to the configured number of channels. With a positive temperature a place has the larger weight exactly if it is louder.", "quantifier": "all feature maps, sizes and temperatures, over the reals", "why_tests_cant": "Real-valued inputs; tests only check shapes.", "anchors": ["mmrazor/models/architectures/connectors/fbkd_connector.py:160-178", "mmrazor/models/architectures/connectors/fbkd_connector.py:271-289"]}
{"id": "C179", "title": "CRD embeddings are unit vectors", "statement": "The result of CRDConnector is a positive multiple of the image of the flattened feature under the linear layer with Euclidean norm one, and division by zero happens exactly if that image is zero. Without bias, features that differ by a positive factor have the same embedding. The inner product of any two embeddings of equal length lies between -1 and 1.", "quantifier": "all weights, biases and features, over the reals", "why_tests_cant": "Real-valued inputs; tests only check shapes.", "anchors": ["mmrazor/models/architectures/connectors/crd_connector.py:18-47"]}
{"id": "C180", "title": "The MGD connector hides whole positions or whole channels and passes the rest unchanged", "statement": "With the draws r of torch.rand, MGDConnector sets a value to zero exactly if the draw for its position (or for its channel, with mask_on_channel) exceeds 1 - lambda_mgd, in all channels (or positions) alike, and leaves every other value as it is. A ratio of zero or less hides nothing, so that the result is that of the generation block on the aligned feature; above one it hides everything; a larger ratio hides whatever a smaller one hides.", "quantifier": "all features, draws in [0, 1), ratios, align and generation functions", "why_tests_cant": "Depends on random draws and real-valued features; tests only check shapes.", "anchors": ["mmrazor/models/architectures/connectors/mgd_connector.py:25-71"]}
{"id": "C181", "title": "Factor-transfer connectors return comparable factors only in phase train", "statement": "In phase train the teacher's Paraphraser returns, without gradients, a factor with out_channel channels and the sides of its input; the student's Translator returns one with gradients; the two have the same shape exactly if both connectors have the same out_channel and the features the same sides. In phase pretrain, the default, the Paraphraser accepts exactly features with in_channel channels and returns a reconstruction of the shape of its input.", "quantifier": "all channel counts and feature maps", "why_tests_cant": "Shapes over unbounded sizes.", "anchors": ["mmrazor/models/architectures/connectors/factor_transfer_connectors.py:12-133"]}
{"id": "C182", "title": "MLPHandler keeps the network of its best epoch", "statement": "train_mlp returns the network after the first epoch whose loss on the validation samples is smallest, counting only losses below 1e33; training and validation samples are disjoint and together all samples, split at int(n * data_split_ratio); it raises exactly if no epoch has such a loss, so with zero epochs or a NaN loss in every epoch. A fitted handler predicts for rows of the width it was fitted on and refuses others. The claim that it succeeds for every split of the samples is refuted: with no validation sample the loss is NaN and best_net is never bound.", "quantifier": "all networks, optimizers, losses, numbers of epochs, permutations, splits and samples", "why_tests_cant": "Training is random and tests fit a few samples; ties, NaN and empty splits are never tried.", "anchors": ["mmrazor/models/task_modules/predictor/handler/mlp_handler.py:98-197"]}
{"id": "C183", "title": "CartsHandler fits every tree on all samples with their labels and averages what the trees say", "statement": "Whatever is shuffled, every tree is fitted on all samples, each with its own label, restricted to a nonempty set of distinct features; if the order of samples does not matter to a tree, it is the tree of the samples as given. The prediction for a row is the mean over the trees of their predictions for the features each was fitted on.", "quantifier": "all samples, labels, shuffles, numbers of features and trees, all ways of fitting a tree", "why_tests_cant": "Shuffles accumulate over 1000 random trees; tests only check that something is returned.", "anchors": ["mmrazor/models/task_modules/predictor/handler/carts_handler.py:17-99"]}
{"id": "C184", "title": "EstimateResourcesHook estimates after the epochs that are multiples of its interval", "statement": "Refuted: because mmengine has already counted the epoch when it validates, the resources are estimated after exactly the validated epochs e with (e + 1) divisible by the interval, once, and never for a non-positive interval. With by_epoch=False a validation estimates after each of its batches if (training iterations + 1) is divisible by the interval and else after none.", "quantifier": "all intervals, validation intervals, epoch lengths, numbers of batches and epochs", "why_tests_cant": "Tests run single hook calls with interval 1.", "anchors": ["mmrazor/engine/hooks/estimate_resources_hook.py:41-82"]}
{"id": "C185", "title": "EstimateResourcesHook reports the resources of the current subnet", "statement": "Refuted for supernets: what is reported are the resources of newly sampled choices, whatever the current ones, and the mutables of the model lose their architecture weights while all choices stay. A model that is no supernet is estimated as it is and unchanged.", "quantifier": "all models, choices, samples and resource functions", "why_tests_cant": "Sampling is random and tests do not compare with the current subnet.", "anchors": ["mmrazor/engine/hooks/estimate_resources_hook.py:84-122"]}
{"id": "C186", "title": "Networks are freed of in-place modules", "statement": "A network passed to an algorithm with module_inplace=False (or a teacher with teacher_module_inplace=False) has no module with inplace=True afterwards, at any depth.", "quantifier": "for every tree of modules with any attributes", "why_tests_cant": "The recursion depends on the whole tree; tests use networks whose in-place modules have no children.", "anchors": ["mmrazor/models/algorithms/base.py:BaseAlgorithm.set_module_inplace_false", "mmrazor/models/algorithms/distill/configurable/single_teacher_distill.py:SingleTeacherDistill.__init__"]}
{"id": "C187", "title": "A fixed teacher gets no gradients and its norms are not updated", "statement": "A teacher with teacher_trainable=False has requires_grad=False for every parameter, otherwise they keep their flags; after train() with teacher_norm_eval every _BatchNorm of the teacher and everything inside one is in evaluation mode and every other module is in the mode asked for.", "quantifier": "for every tree of modules, every flag and mode", "why_tests_cant": "Quantifies over module trees.", "anchors": ["mmrazor/models/algorithms/distill/configurable/single_teacher_distill.py:SingleTeacherDistill.__init__", "mmrazor/models/algorithms/distill/configurable/single_teacher_distill.py:SingleTeacherDistill.train"]}
{"id": "C188", "title": "A distillation step reports the losses its switches ask for", "statement": "loss of SingleTeacherDistill, SelfDistill and FpnTeacherDistill reports teacher losses iff the teacher is trainable, student losses iff calculate_student_loss, and distillation losses until distillation is stopped, each under its prefix with unchanged values, and nothing else.", "quantifier": "for every algorithm, setting of the switches and loss dictionaries", "why_tests_cant": "All combinations of switches and arbitrary dictionaries.", "anchors": ["mmrazor/models/algorithms/distill/configurable/self_distill.py:SelfDistill.loss", "mmrazor/models/algorithms/distill/configurable/fpn_teacher_distill.py:FpnTeacherDistill.loss", "mmrazor/models/algorithms/distill/configurable/single_teacher_distill.py:SingleTeacherDistill.loss"]}
{"id": "C189", "title": "Only trainable networks keep gradients in a distillation step", "statement": "A pass over the student or the teacher keeps gradients only if that network is trainable; the student runs exactly once and after the teacher, and the recorders of a network are entered exactly while it runs.", "quantifier": "for every algorithm and setting of the switches", "why_tests_cant": "All combinations of switches; gradients are not observed by the tests.", "anchors": ["mmrazor/models/algorithms/distill/configurable/self_distill.py:SelfDistill.loss", "mmrazor/models/algorithms/distill/configurable/fpn_teacher_distill.py:FpnTeacherDistill.loss", "mmrazor/models/algorithms/distill/configurable/single_teacher_distill.py:SingleTeacherDistill.loss"]}
{"id": "C190", "title": "Deliveries work in every configurable distillation algorithm", "statement": "With a delivery that is called equally often by both networks, every step succeeds and each student call is given, without being executed, what the corresponding teacher call of the same step returned.", "quantifier": "for every algorithm, number of steps, number of calls and values", "why_tests_cant": "Induction over steps and calls.", "anchors": ["mmrazor/models/algorithms/distill/configurable/self_distill.py:SelfDistill.loss", "mmrazor/models/algorithms/distill/configurable/fpn_teacher_distill.py:FpnTeacherDistill.loss", "mmrazor/models/task_modules/delivery/function_outputs_delivery.py:FunctionOutputsDelivery.deliver_wrapper"]}
{"id": "C191", "title": "Student and teacher recorders of self-distillation agree", "statement": "In SelfDistill, a student recorder and a teacher recorder of the same function, method or module both hold exactly what it returned during the pass, in order, and every patched attribute is restored afterwards.", "quantifier": "for every sequence of calls in the pass and every source", "why_tests_cant": "Arbitrary call sequences; depends on the nesting of the two context managers.", "anchors": ["mmrazor/models/algorithms/distill/configurable/self_distill.py:SelfDistill.loss", "mmrazor/models/task_modules/recorder/method_outputs_recorder.py:MethodOutputsRecorder.__enter__", "mmrazor/models/task_modules/recorder/function_outputs_recorder.py:FunctionOutputsRecorder.__enter__"]}
{"id": "C192", "title": "A tracer skips its own methods", "statement": "While a CustomTracer traces, exactly the methods in its skipped_methods are replaced by recorders, and the calls go into the graph of that tracer, whatever tracers were constructed before or after.", "quantifier": "for every sequence of constructed tracers and lists of method names", "why_tests_cant": "The registry is a global; tests construct one tracer at a time.", "anchors": ["mmrazor/models/task_modules/tracer/fx/custom_tracer.py:CustomTracer.register_skipped_methods", "mmrazor/models/task_modules/tracer/fx/custom_tracer.py:UntracedMethodRegistry", "mmrazor/models/task_modules/tracer/fx/custom_tracer.py:CustomTracer.trace"]}
{"id": "C193", "title": "Classes and methods are named by strings", "statement": "str2class gives exactly the classes at the dotted paths, in order, or raises; skipping a method of a class named by path registers the method with that class.", "quantifier": "for every list of strings and every set of importable modules", "why_tests_cant": "Quantifies over all strings and import results.", "anchors": ["mmrazor/models/utils/quantization_util.py:str2class", "mmrazor/models/task_modules/tracer/fx/custom_tracer.py:CustomTracer.register_skipped_methods"]}
{"id": "C194", "title": "Modules with skipped methods get stand-ins", "statement": "For a graph traced from a model, _prepare_module_dict succeeds and gives every module fetched by the graph a stand-in that has every method the graph calls on it.", "quantifier": "for every graph and model", "why_tests_cant": "Quantifies over arbitrary graphs; the tests have one head with one skipped method.", "anchors": ["mmrazor/models/task_modules/tracer/fx/custom_tracer.py:_prepare_module_dict"]}
{"id": "C195", "title": "Reused modules are separated", "statement": "After build_graphmodule no two nodes of the graph call the same module; the first call of a module keeps it and every other one calls a copy of the module it called before; other nodes are unchanged.", "quantifier": "for every graph and set of modules", "why_tests_cant": "Quantifies over module names, which may look like names of copies.", "anchors": ["mmrazor/models/task_modules/tracer/fx/custom_tracer.py:duplicate_reused_nodes", "mmrazor/models/task_modules/tracer/fx/custom_tracer.py:build_graphmodule"]}
{"id": "C196", "title": "Observers only where configured", "statement": "Modules of the classes listed in no_observer_modules are not observed; all others get the global qconfig; the constructor accepts exactly the supported modes.", "quantifier": "for every list of classes, every set of importable modules and every set of classes with fixed parameters", "why_tests_cant": "Quantifies over arbitrary configurations.", "anchors": ["mmrazor/models/quantizers/native_quantizer.py:TorchNativeQuantizer.gen_qconfig_mapping", "mmrazor/models/quantizers/native_quantizer.py:TorchNativeQuantizer.__init__"]}
{"id": "C197", "title": "Qconfigs by name, class and default", "statement": "A module gets the qconfig configured for its name, otherwise that for its class, otherwise the global one; a configuration is accepted exactly when all its qconfigs are well-formed and its classes importable.", "quantifier": "for every configuration, module name and class", "why_tests_cant": "Quantifies over arbitrary mappings.", "anchors": ["mmrazor/models/quantizers/academic_quantizer.py:AcademicQuantizer.gen_qconfig_mapping"]}
{"id": "C198", "title": "Rewriting is suspended while graphs are built", "statement": "While the graphs are built the listed functions and skipped methods are not rewritten; afterwards the rewriter has its records again and the deployment configuration is unchanged, whether or not building succeeded.", "quantifier": "for every set of records, configuration and outcome of building each graph", "why_tests_cant": "Quantifies over failing builds, which the tests do not have.", "anchors": ["mmrazor/models/algorithms/quantization/mm_architecture.py:MMArchitectureQuant._build_qmodels", "mmrazor/models/algorithms/quantization/mm_architecture.py:MMArchitectureQuant._pop_function_record_in_rewriter_context", "mmrazor/models/utils/quantization_util.py:pop_rewriter_function_record"]}
{"id": "C199", "title": "Deployment replaces every QAT module in place", "statement": "post_process_for_deploy replaces every QAT module inside the model, at its path, with the float module or the merged QAT module, and leaves everything else; without keep_w_fake_quant no QAT module is left.", "quantifier": "for every module tree", "why_tests_cant": "Quantifies over arbitrarily nested models.", "anchors": ["mmrazor/models/quantizers/native_quantizer.py:TorchNativeQuantizer.post_process_for_deploy"]}
{"id": "C200", "title": "Deployment keeps the weights of the quantized model", "statement": "A module deployed with update_weight_with_fakequant and keep_w_fake_quant computes with exactly the weights that the quantized model computes with.", "quantifier": "for every scheme, every weights and every scales and zero points", "why_tests_cant": "Equality over all rational weights and parameters; the tests do not compare outputs.", "anchors": ["mmrazor/models/quantizers/native_quantizer.py:TorchNativeQuantizer.post_process_for_deploy", "mmrazor/models/algorithms/quantization/mm_architecture.py:MMArchitectureQuant.get_deploy_model"]}
{"id": "C201", "title": "The intermediate export does not overwrite the result", "statement": "torch exports to a file beside the requested one with a different name.", "quantifier": "for every path", "why_tests_cant": "Quantifies over all strings.", "anchors": ["mmrazor/models/quantizers/openvino_quantizer.py:OpenVINOQuantizer.export_onnx", "mmrazor/models/quantizers/tensorrt_quantizer.py:TensorRTQuantizer.export_onnx"]}
{"id": "C202", "title": "Augmentation parameters stay in their documented ranges", "statement": "Whatever magnitude is configured and drawn, the parameter of each augmentation is in the range documented for it, every value of the range can occur, and what PIL is asked to do makes sense (1 to 7 bits kept, tables of bytes for each channel).", "quantifier": "for every augmentation of both versions, magnitude and random draw", "why_tests_cant": "Quantifies over all draws; there are no tests of these transforms.", "anchors": ["mmrazor/datasets/transforms/auto_augment.py:AutoAugmentOp", "mmrazor/datasets/transforms/auto_augmentv2.py:AutoAugmentOp"]}
{"id": "C203", "title": "Extra parameters of augmentations take effect", "statement": "Geometric augmentations fill with the configured img_mean and resample in one of the configured ways; translations are at most the configured translate_const.", "quantifier": "for every extra_params, augmentation and draw", "why_tests_cant": "Quantifies over configurations that no test uses.", "anchors": ["mmrazor/datasets/transforms/auto_augment.py:AutoAugmentOp.__init__", "mmrazor/datasets/transforms/auto_augmentv2.py:AutoAugmentOp._check_args_tf"]}
{"id": "C204", "title": "Augmentations change exactly the image fields", "statement": "An augmentation that is drawn changes each image listed in img_fields once and leaves everything else, one that is not drawn changes nothing; it fails only for missing images; exactly the named policies can be built.", "quantifier": "for every results, fields and draws", "why_tests_cant": "Quantifies over arbitrary results and image libraries.", "anchors": ["mmrazor/datasets/transforms/auto_augment.py:AutoAugmentOp.transform", "mmrazor/datasets/transforms/auto_augment.py:AutoAugment"]}
{"id": "C205", "title": "Packed samples carry their meta information", "statement": "Every sample packed by PackCRDClsInputs has the meta information of its own results under the configured keys (except sample_idx), its label and indices, and its image with the channels first.", "quantifier": "for every sequence of samples packed by one transform", "why_tests_cant": "Quantifies over sequences of samples; the test packs one.", "anchors": ["mmrazor/datasets/transforms/formatting.py:PackCRDClsInputs.transform"]}
{"id": "C206", "title": "The measured latency is the mean time of the passes after warming up", "statement": "The returned latency is, up to rounding to one decimal, the mean over the repetitions of the mean time in milliseconds of the passes made after num_warmup; a unit given is the unit of the number.", "quantifier": "for every number of passes, warm-up, log interval, repetitions and times", "why_tests_cant": "Times are not reproducible in tests; the tests only check the type.", "anchors": ["mmrazor/models/task_modules/estimators/counters/latency_counter.py:get_model_latency", "mmrazor/models/task_modules/estimators/counters/latency_counter.py:_get_model_latency"]}
{"id": "C207", "title": "Runtime information gives the position in the epoch", "statement": "In a run of epochs of equal length, iter_by_epoch is the number of iterations made in the current epoch and iter_pre_epoch is the length of an epoch; a missing counter is reported with KeyError.", "quantifier": "for every length, number of epochs and position", "why_tests_cant": "Quantifies over all positions in all runs.", "anchors": ["mmrazor/utils/runtime_info.py:RuntimeInfo"]}
{"id": "C208", "title": "Visualized images go to one directory under names that are never repeated", "statement": "All images drawn in a run are written to the configured directory under the run's working directory, in files whose names differ, with consecutive steps, and only in the epochs of the interval.", "quantifier": "for every directory, stages, samples, recorders and numbers of maps", "why_tests_cant": "Quantifies over all runs; names are made by concatenation, which could collide.", "anchors": ["mmrazor/engine/hooks/visualization_hook.py:RazorVisualizationHook._visualize"]}
{"id": "C209", "title": "Setting up makes mmrazor the default scope and respects the environment", "statement": "After register_all_modules the current default scope is mmrazor and earlier scopes are kept; without init_default_scope nothing changes. Thread variables the user has set are never changed, others become 1 exactly when there is more than one worker.", "quantifier": "for every scopes created before, environment and number of workers", "why_tests_cant": "Quantifies over global state left behind by other libraries.", "anchors": ["mmrazor/utils/setup_env.py:register_all_modules", "mmrazor/utils/setup_env.py:setup_multi_processes"]}
{"id": "C210", "title": "Each configured submodule gets its own optimizer", "statement": "SeparateOptimWrapperConstructor builds, for each configured name, an optimizer from that configuration for the submodule of that name of the (unwrapped) model, and fails exactly when one is missing or cannot be built.", "quantifier": "for every model, configuration and optimizer constructor", "why_tests_cant": "Quantifies over all module trees, including names that look like wrappers.", "anchors": ["mmrazor/engine/optimizers/optimizer_constructor.py:SeparateOptimWrapperConstructor"]}
{"id": "C211", "title": "Gathering tensors is differentiated correctly", "statement": "Gathering gives every rank the tensors of all ranks in order, and the gradients propagated back are those of the sum of the losses of all ranks (backward is the adjoint of forward).", "quantifier": "for every number of ranks, shapes, tensors and gradients", "why_tests_cant": "Needs several processes; tests run one.", "anchors": ["mmrazor/models/architectures/ops/gather_tensors.py:GatherTensors"]}
{"id": "C212", "title": "A WideResNet produces features of the promised shape", "statement": "Every WideResNet that can be built maps images of every size to feat_dim channels, which is base_channels times the expansion doubled with each further stage, at the size divided (rounding up) by the strides; its depth is its number of convolutions.", "quantifier": "for every norm layer, depth, width, channels, stages, strides, dilations and image size", "why_tests_cant": "Quantifies over all options and sizes; the tests try a few with batch norm.", "anchors": ["mmrazor/models/architectures/backbones/wideresnet.py:WideResNet", "mmrazor/models/architectures/backbones/wideresnet.py:BasicBlock.forward"]}
{"id": "C213", "title": "The options of a WideResNet take effect", "statement": "Stages can be frozen, layers drop with their rate, every block has the dilation of its stage and only the first the stride, and zero_init_residual makes residual blocks start as the identity.", "quantifier": "for every option and input", "why_tests_cant": "Needs the blocks as functions on all inputs; no test freezes stages.", "anchors": ["mmrazor/models/architectures/backbones/wideresnet.py:WideResNet._freeze_stages", "mmrazor/models/architectures/backbones/wideresnet.py:ResLayer", "mmrazor/models/architectures/backbones/wideresnet.py:WideResNet.init_weights"]}
{"id": "C214", "title": "Demo inputs are as asked for", "statement": "The demo input made for a model has the shape that was asked for, one sample per image, and the preprocessor is told whether it is training; the generator is that of the scope, else the first that fits the model.", "quantifier": "for every model, generator, shape and mode", "why_tests_cant": "Quantifies over shapes and batch sizes; tests use one image.", "anchors": ["mmrazor/models/task_modules/demo_inputs/demo_inputs.py:BaseDemoInput.get_data", "mmrazor/models/task_modules/demo_inputs/default_demo_inputs.py:get_default_demo_input_class", "mmrazor/models/task_modules/demo_inputs/mmpose_demo_input.py:demo_mmpose_inputs"]}
{"id": "C215", "title": "Demo input generators use their own shape", "statement": "A generator that is given no shape uses the default shape of its class, and its own shape is used when none is asked for.", "quantifier": "for every generator and shape", "why_tests_cant": "Quantifies over generators and shapes.", "anchors": ["mmrazor/models/task_modules/demo_inputs/demo_inputs.py:BaseDemoInput.__init__", "mmrazor/models/task_modules/demo_inputs/demo_inputs.py:BaseDemoInput.__call__"]}
{"id": "C216", "title": "Versions are parsed without loss", "statement": "A version of numbers separated by dots, with or without a release candidate, is parsed to those numbers (and the candidate); no number is lost for other versions.", "quantifier": "for every list of numbers and suffix", "why_tests_cant": "Quantifies over all versions.", "anchors": ["mmrazor/version.py:parse_version_info"]}
{"id": "C217", "title": "The autotuner runs the fastest configuration and remembers it", "statement": "The first call of a key measures all configurations left after pruning and runs the first of the fastest; later calls of the key run the same one without measuring, whatever else was called in between.", "quantifier": "for every configurations, times, keys and calls", "why_tests_cant": "Times vary between runs; quantifies over all of them.", "anchors": ["mmrazor/implementations/quantization/gptq/custom_autotune.py:Autotuner.run"]}
{"id": "C218", "title": "Autotuning does not change results", "statement": "With reset_to_zero the kernel starts from zero tensors; a kernel that overwrites its output gives the same result whether it was tuned or not; measuring fails exactly if a meta-parameter is given twice.", "quantifier": "for every kernel, number of measurements and tensors", "why_tests_cant": "Needs a GPU; quantifies over kernels.", "anchors": ["mmrazor/implementations/quantization/gptq/custom_autotune.py:Autotuner.run", "mmrazor/implementations/quantization/gptq/custom_autotune.py:Autotuner._bench"]}
{"id": "C219", "title": "Pruning keeps the configurations that can be best", "statement": "Block sizes are shrunk to the power of two that covers the dimension (at least 16) and each configuration is tried once; with a model the asked number of configurations with the best estimates is kept; leaving out the optional pruner works and at least one configuration is left; rounded keys are nearest powers of two.", "quantifier": "for every configurations, sizes, models and numbers", "why_tests_cant": "Quantifies over sizes and configurations.", "anchors": ["mmrazor/implementations/quantization/gptq/custom_autotune.py:matmul248_kernel_config_pruner", "mmrazor/implementations/quantization/gptq/custom_autotune.py:Autotuner.prune_configs"]}
{"id": "C220", "title": "The channel tracer wraps each function at most once, in the first place it is found", "statement": "Starting from a namespace, AutoWrapper patches no function object twice; every function the namespace names, and every method (without two leading underscores) of a module class it names or holds an instance of, ends up patched under some name; classes are patched only if they are nn.Module subclasses. One would expect that every name bound to the function is patched: in fact only the first is, so a call through another name is not intercepted.", "quantifier": "for every namespace, class table and torch namespace, and any nesting of them", "why_tests_cant": "A test traces models whose namespaces import each function once; aliases and re-exports are what reach the visit-once bookkeeping.", "anchors": ["mmrazor/models/task_modules/tracer/fx_tracer.py:44-138", "mmrazor/models/task_modules/tracer/fx_tracer.py:200-206"]}
{"id": "C221", "title": "A call of a wrapped function with a traced argument never raises, and adds one node when the function failed", "statement": "A wrapped function that succeeds behaves as unwrapped. With a proxy among the arguments it never raises: on failure one call_function or call_method node is appended and its proxy returned. One would expect the function to run once and a failed call to leave exactly that node: in fact a function that rejects concrete arguments is run a second time with its effects, and nodes recorded before the failure stay in the graph.", "quantifier": "for every function, argument list, graph and call history", "why_tests_cant": "A test exercises functions that either trace or fail at once; it is partial effects before the failure that accumulate.", "anchors": ["mmrazor/models/task_modules/tracer/fx_tracer.py:141-198"]}
{"id": "C222", "title": "Tracing fails exactly when the root's own forward fails; children that fail become one node", "statement": "FxTracer.trace raises if and only if the body of the root's forward itself raises or calls a module outside the root's tree; whatever a child below the root does is caught. The graph starts with the input, ends with the output, and every node reads earlier nodes only. A leaf is one call_module node, a module that traces leaves no node of its own. One would expect a module that cannot be traced to be one call_module node with its path: in fact, when its forward has been wrapped it is a call_method node named forward, and the nodes recorded before the failure stay.", "quantifier": "for every tree of modules and forward bodies, by induction on the tree", "why_tests_cant": "A test traces a few models; which level catches a failure depends on the nesting of modules.", "anchors": ["mmrazor/models/task_modules/tracer/fx_tracer.py:211-332"]}
{"id": "C223", "title": "Input resizers give the size asked for, and the searchable resizer acts as its static one", "statement": "InputResizer with type linear, bilinear, bicubic or trilinear returns images of the size given. One would expect every type the constructor accepts to work: nearest, area and nearest-exact raise ValueError on every image, since align_corners is always passed. With a size chosen by its mutable, DynamicInputResizer ignores a size argument and does what its static resizer does; with a scale factor that always raises. Called without a mutable and without a size it always raises, where the static resizer with a scale factor works: the default of the argument is a type object.", "quantifier": "for every interpolation type, scale factor, image size, chosen size and size argument", "why_tests_cant": "A test resizes with bicubic and a size; the types and defaults that fail are accepted when building the model.", "anchors": ["mmrazor/models/architectures/ops/function.py:11-42", "mmrazor/models/architectures/dynamic_ops/bricks/dynamic_function.py:12-42", "mmrazor/models/architectures/dynamic_ops/mixins/dynamic_mixins.py:402-455"]}
{"id": "C224", "title": "The pooling neck averages every channel of every sample over all other dimensions", "statement": "SqueezeMeanPoolingWithDropout maps an array of shape (B, C, d1, ..., dn) with nonzero sizes, for any n, to the (B, C) array of means of d1*...*dn elements, one array at a time for a tuple; dropout applies in training with a ratio above zero only. One would expect a tensor to give what it gives in a tuple of one: in evaluation, or without dropout, a tensor raises, since what is returned is only set in the dropout branch.", "quantifier": "for every number of dimensions, sizes and contents, by induction on the dimensions", "why_tests_cant": "A test uses 4-dimensional tuples; evaluation of a single tensor is another path.", "anchors": ["mmrazor/models/architectures/necks/squeezemean_with_dropout.py:10-57"]}
{"id": "C225", "title": "Generators produce square RGB images of a multiple of the squared scale factor", "statement": "DAFLGenerator and ZSKTGenerator return (batch, 3, s, s) where s is the largest multiple of scale_factor squared not above img_size, and the batch is that of the latent tensor (of shape (n, latent_dim)) or batch_size without one. One would expect s = img_size: that holds exactly for multiples, and img_size 30 gives 28. Sizes below the squared scale factor give no image.", "quantifier": "for every image size, scale factor, latent dimension and batch", "why_tests_cant": "A test uses 32 with scale factor 2.", "anchors": ["mmrazor/models/architectures/generators/base_generator.py:30-58", "mmrazor/models/architectures/generators/dafl_generator.py:39-86", "mmrazor/models/architectures/generators/zskt_generator.py:47-91"]}
{"id": "C226", "title": "The pseudo loss is the sum of all elements of all tensors in the output", "statement": "SumPseudoLoss on any nesting of lists, tuples and dictionaries of tensors returns the sum of all their elements; it raises NotImplementedError exactly when something else is inside. One would expect a tensor to call backward on: an output without tensors gives the integer 0, and the result is a tensor exactly when there is one.", "quantifier": "for every nested output, by induction on the nesting", "why_tests_cant": "A test has one level of nesting and always a tensor.", "anchors": ["mmrazor/models/task_modules/tracer/loss_calculator/sum_loss_calculator.py:10-42"]}
{"id": "C227", "title": "Drop path rates grow with depth and stay below the rate asked for", "statement": "set_dropout changes only blocks of the class in layers listed by number (from 1). If all blocks are of the class, the block with n blocks before it among N gets rate*n/N, at least 0 and below the rate; rates grow strictly within a layer in every case. One would expect them to stay below the rate always: blocks of other classes have a place in their layer but are not counted in N, so the rate may exceed the one asked for.", "quantifier": "for every list of layers, listed numbers and rate", "why_tests_cant": "A test checks one model whose layers hold one class of blocks.", "anchors": ["mmrazor/models/architectures/utils/set_dropout.py:7-35"]}
{"id": "C228", "title": "The last train or eval call decides the mode of every module", "statement": "Whatever calls came before, the flags after train(b) or eval() are those of that call alone, also with algorithms, backbones and distillers nested in each other. In evaluation with norm_training exactly the batch normalization of the architecture trains; in training, frozen stages of a backbone evaluate and with norm_eval no batch normalization trains; with teacher_norm_eval the teacher's does not. One would expect a wholly frozen backbone to keep its statistics: its stem stays in training mode. One would expect norm_eval layers to evaluate in evaluation: norm_training sets them to training. One would expect train to return the module: the classes overriding it return None.", "quantifier": "for every tree of modules, nesting and sequence of calls, by induction on the tree", "why_tests_cant": "A test sets one mode on one algorithm; order of calls and nesting have no bound.", "anchors": ["mmrazor/models/algorithms/nas/spos.py:89-97", "mmrazor/models/algorithms/nas/dsnas.py:108-116", "mmrazor/models/algorithms/nas/darts.py:71-79", "mmrazor/models/algorithms/nas/autoslim.py:162-175", "mmrazor/models/algorithms/distill/configurable/single_teacher_distill.py:150-156", "mmrazor/models/architectures/backbones/searchable_mobilenet_v2.py:210-229", "mmrazor/models/architectures/backbones/searchable_mobilenet_v3.py:335-366", "mmrazor/models/architectures/backbones/searchable_shufflenet_v2.py:168-178"]}
{"id": "C229", "title": "The memory-efficient forward of SparseGPT and GPTQ holds one block on the device at a time", "statement": "For every model whose modules are all different, which holds no parameter itself, and every forward pass in which modules read their own parameters and call their children: inside memory_efficient_forward (enabled, parameters on the cpu before) every parameter is on the device when it is read, nothing is there afterwards, and at every moment the device holds nothing or exactly the parameters of one hooked block. The hooked blocks hold every parameter except the model's own, in order. Leaving removes exactly the hooks entering added. With enabled=False the whole model is moved once and stays. Parameters of the model itself are never moved, a module shared between a block and another place takes tied parameters away too early, and entering one object twice leaves hooks behind.", "quantifier": "all module trees, wrap lists, parameter sharing between modules, forward programs, previously registered hooks", "why_tests_cant": "Memory behaviour needs a GPU and the failing sharing patterns need particular models; tests on the cpu see neither", "anchors": ["mmrazor/implementations/pruning/sparse_gpt/utils.py:60-123"]}
{"id": "C230", "title": "replace_with_dynamic_ops replaces each module of a mapped type exactly once", "statement": "For every model: each module whose type is in the map is replaced exactly once, at a place that held it; no other module is replaced; if no module is used twice, the places replaced are exactly the places that hold such modules, in order. A module used under two names is replaced under the first only, so the static module stays at the other. If the model itself is of a mapped type it is not replaced but gets its replacement as a child with an empty name.", "quantifier": "all module graphs without cycles, all type maps", "why_tests_cant": "Tests convert models without shared modules; the sharing and root cases are silent", "anchors": ["mmrazor/implementations/pruning/sparse_gpt/utils.py:42-57"]}
{"id": "C231", "title": "torch_setting gives the default dtype back", "statement": "For all programs that change the default dtype only inside with torch_setting(...) statements, nested in any way, setting other defaults inside and raising or not: afterwards the default is what it was before; inside it is the dtype asked for, or unchanged for None; exceptions go on. An object built before the default changed and entered later puts back the older default.", "quantifier": "all nested programs, dtypes, places where exceptions are raised", "why_tests_cant": "Nesting, exceptions and late entry combine without bound", "anchors": ["mmrazor/implementations/pruning/sparse_gpt/utils.py:126-140"]}
{"id": "C232", "title": "A backend operator table holds the last config set for each pattern", "statement": "For every list of pattern configs set on a BackendConfig: the table holds for a pattern exactly the last config of the list with that pattern, and nothing for a pattern no config has; groups of configs without a common pattern can be set in any order with the same result. In the academic, native, TensorRT and OpenVINO tables every pattern is set at most once, whatever the fixed-parameter operators of torch are, except the fused convolution + ReLU modules and their QAT modules.", "quantifier": "all lists of configs, all patterns, all sets of fixed-parameter operators that are not configured otherwise", "why_tests_cant": "Tests look a few patterns up; overriding is silent", "anchors": ["mmrazor/structures/quantization/backend_config/common_operator_config_utils.py", "mmrazor/structures/quantization/backend_config/academic.py", "mmrazor/structures/quantization/backend_config/native.py", "mmrazor/structures/quantization/backend_config/openvino.py", "mmrazor/structures/quantization/backend_config/tensorrt.py"]}
{"id": "C233", "title": "The modules named in the backend tables are configured themselves", "statement": "In all four backend tables: the QAT module that a config names has a config of its own that names a root module and a reference module; a module that a fusion pattern produces has a config and is not fused again. A convolution of any dimension, alone or fused with batch norm and ReLU in any way, leads from the floating point pattern over the fused module to the QAT module with the dtypes given.", "quantifier": "all patterns of the tables, all dtype lists, all sets of fixed-parameter operators not configured otherwise", "why_tests_cant": "A missing entry shows only when that operator is met in that phase of quantization", "anchors": ["mmrazor/structures/quantization/backend_config/common_operator_config_utils.py:110-378", "mmrazor/structures/quantization/backend_config/native.py:1-147"]}
{"id": "C234", "title": "What the backend tables declare for a pattern is not lost when the pattern is set again", "statement": "For every config a backend sets, the table holds in the end for its pattern the root, QAT, reference and fused module declared there. (Violated by the fused convolution + ReLU modules: their second config has no root and no reference module, and replaces the first.)", "quantifier": "all configs of the four tables", "why_tests_cant": "The first config is silently replaced", "anchors": ["mmrazor/structures/quantization/backend_config/common_operator_config_utils.py:110-378"]}
{"id": "C235", "title": "Which operators share the observer of their input in the backend tables", "statement": "In the OpenVINO and native tables exactly torch.cat and the listed shape operators use the observer of their input for their output, all of them with default quint8 dtypes; in the academic and TensorRT tables none does. Additions and multiplications, alone or followed by a ReLU in any of its three forms, use different observers with no or two tensor arguments and share with one.", "quantifier": "all patterns of the tables, all sets of fixed-parameter operators not configured otherwise", "why_tests_cant": "Wrong sharing changes scales silently", "anchors": ["mmrazor/structures/quantization/backend_config/common_operator_config_utils.py:77-552", "mmrazor/structures/quantization/backend_config/openvino.py:1-89", "mmrazor/structures/quantization/backend_config/native.py:1-147"]}
{"id": "C236", "title": "Backend tables exist exactly for torch 1.13.0 to 1.13.1", "statement": "For every torch release a.b.c the mapping has the four backend names; they have tables if the release is 1.13.0 or 1.13.1 and None otherwise, all four together. Pre-releases of 1.13.0 and all later 1.13 releases have none.", "quantifier": "all versions", "why_tests_cant": "Tests run with one torch version", "anchors": ["mmrazor/structures/quantization/backend_config/mapping.py:1-25"]}
{"id": "C237", "title": "The signal-to-noise error of two tensors", "statement": "For all tensors of equal shape, torch_snr_error flattens everything behind the first dimension and returns for each sample the sum of squared differences divided by the sum of squares of the reference plus 1e-7, as a mean, a sum or a list; it is 0 exactly if the two tensors are equal entry by entry; different shapes and reductions other than 'mean', 'sum' and 'none' in any case are refused.", "quantifier": "all shapes, all rational entries, all reduction strings", "why_tests_cant": "A test compares a few tensors; the claim is about all shapes and about when the error vanishes", "anchors": ["mmrazor/implementations/quantization/gptq/utils.py:6-56"]}
{"id": "C238", "title": "The widest and the narrowest choices of a one-shot channel mutator", "statement": "For every prepared one-shot channel mutator whose units are plain, whatever was set before: max_choices, and sample_choices('max'), have one entry for each mutable unit in order, the largest candidate of the unit; after set_max_choices every mutable unit has its largest candidate and every other unit is unchanged; likewise for the smallest. sample_choices('random') is what every channel mutator samples. Any other kind raises NotImplementedError if there is a mutable unit and returns an empty dictionary if not. Sequential units have no such choices: AttributeError, nothing is changed.", "quantifier": "all prepared mutators, all sequences of set_choices before, all kinds", "why_tests_cant": "A test uses one small model and two candidates", "anchors": ["mmrazor/models/mutators/channel_mutator/one_shot_channel_mutator.py:30-70", "mmrazor/models/mutables/mutable_channel/units/one_shot_mutable_channel_unit.py:86-116"]}
{"id": "C239", "title": "How a feature map is fitted to an image, reduced and laid out", "statement": "modify(): what is drawn has the asked shape, else the shape of the image, else its own, and an image under it has the same size. The part of the map that is stretched over the image keeps one side, the other side is a nearest integer to the one with the image's proportions, and no side is enlarged. pixel_wise_max, squeeze_mean and select_max show the largest value over the channels at each pixel, the mean, and a channel with the largest sum. Without a reduction min(channels, topk) panels are drawn, which fit the arrangement, each is the channel it is labelled with, and no channel left out has a larger sum. Bad dimensions, modes, channel counts and arrangements raise AssertionError, nothing else does. Any nonempty map can be drawn over any nonempty image.", "quantifier": "all maps, images, modes, topk and arrangements", "why_tests_cant": "Rounding to an empty map happens only for extreme proportions, and tests check that a picture comes out", "anchors": ["mmrazor/visualization/local_visualizer.py:15-115"]}
{"id": "C240", "title": "The head of a distilled vision transformer scores the class token", "statement": "DeiTClsHead.forward: whatever the stages before and the patch tokens are, the score is the head's value for the class token of the last stage, after the hidden layer if there is one, and does not depend on the distillation token; the head and the distillation head are called exactly once, on the class and on the distillation token, so a recorder on the distillation head has its output. It is refused exactly if there is no stage (IndexError) or the last stage does not have three tokens (ValueError).", "quantifier": "all stages, tokens, layers and hidden sizes", "why_tests_cant": "Tests check the shape of the score", "anchors": ["mmrazor/models/architectures/heads/deit_head.py:44-69"]}
{"id": "C241", "title": "The auxiliary losses of the head of a searched network", "statement": "DartsSubnetClsHead.loss: every loss and accuracy of the base class is reported unchanged; the auxiliary loss is that of the first feature and of the labels, or the scores if the first sample has one; each asked accuracy is reported if accuracies are on and none otherwise; it succeeds exactly if there is a feature and the first sample has labels, or accuracies are off and all samples have scores. Auxiliary losses are reported as 'aux_head.' and their name.", "quantifier": "all base losses, features, samples, topk", "why_tests_cant": "The name of a log entry is not checked by tests, and collisions depend on the base losses", "anchors": ["mmrazor/models/architectures/heads/darts_subnet_head.py:29-83", "mmrazor/models/utils/misc.py:5-20"]}
{"id": "C242", "title": "How the searchable classifier connects its head and resizes inputs", "statement": "For every connect_head: the head methods are called in order with the named values, exactly if every value names a component and an attribute, both without a dot, that exist; otherwise everything before the failing entry has been called and nothing after it, and a name without exactly two parts raises ValueError; without a head nothing is looked at. The searched input sizes are the given ones and refused exactly if missing, empty or the first is not a list. extract_feat resizes unless told not to; simple_test never does.", "quantifier": "all connect_head dictionaries, all configurations, all resizers", "why_tests_cant": "Tests connect one attribute", "anchors": ["mmrazor/models/architectures/classifiers/image.py:55-104"]}
{"id": "C243", "title": "Log levels and who prints", "statement": "A level name is accepted exactly if it is one of the standard library's names in any mix of case, and gives that name's number; other names fail an assertion, integers pass, other types are not implemented. With the default a message of a distributed run is printed by process 0 only and without distribution always. Setting the level changes the first handler and the logger together or nothing. Every process should agree on whether a call with a wrong level fails.", "quantifier": "every level argument, string, rank and number of processes, list of handlers", "why_tests_cant": "the strings are unbounded, and what differs between ranks is not seen by single-process tests", "anchors": ["mmrazor/utils/log_tools.py:9-37"]}
{"id": "C244", "title": "The fast-stop hook ends training where it says", "statement": "A training of E epochs of n batches ends after the requested number of epochs (at least one) or, unless checkpoints are wanted in a training by epoch, one iteration after the requested number of iterations, whichever is first; it ends by an exception exactly if one of the limits is within the training. With checkpoints wanted only whole epochs are trained. A hook told to stop at iteration k should train at most k iterations.", "quantifier": "every hook configuration, number of epochs and batches", "why_tests_cant": "the bound is over all lengths of training", "anchors": ["mmrazor/testing/_fast_stop_training_hook.py:11-27"]}
{"id": "C245", "title": "Registering torch's observers and fake quantizers", "statement": "Exactly the public classes derived from the base class that are not registered yet are registered, each once, and their names returned; registering again changes nothing and returns nothing; what was registered stays. Registering should not fail whatever names the classes are bound to.", "quantifier": "every list of attributes of the torch module and every registry", "why_tests_cant": "the torch modules installed decide which attributes exist; tests see one version", "anchors": ["mmrazor/models/observers/torch_observers.py:48-66", "mmrazor/models/fake_quants/torch_fake_quants.py:20-38"]}
{"id": "C246", "title": "Setting gradients and asking for the device", "statement": "Setting requires_grad changes exactly the parameters of the networks given, one or a list, missing ones skipped and shared parameters included. Asking a module for its device fails with ValueError exactly if it has no parameter and reports the common device if there is one. Every parameter should be on the device reported.", "quantifier": "every network or list of networks, with any sharing, and every placement", "why_tests_cant": "sharing patterns and placements are unbounded", "anchors": ["mmrazor/models/utils/utils.py:8-39"]}
{"id": "C247", "title": "The Gaussian process predictor normalises its data reversibly", "statement": "Every feature and label column is centred, the order of its values is kept, putting the mean and scale back gives the data, and a constant column becomes zeros rather than dividing by zero. The fit fails exactly if features and labels differ in the number of rows; fewer than two rows give nan. Exactly the documented kernels are accepted. Normalised data that is not constant should have variance 1.", "quantifier": "every column of real numbers and every number of rows and columns", "why_tests_cant": "statements about all real data", "anchors": ["mmrazor/models/task_modules/predictor/handler/gp_handler.py:16-129"]}
{"id": "C248", "title": "GPTQ's blocks compute the column-by-column algorithm", "statement": "The weight after quantization is that of the published algorithm, which rounds one column at a time and corrects all later columns at once by the column's error, applied to the columns in the order chosen with dead columns zero; the block size changes nothing. This should hold with groups too.", "quantifier": "every weight, inverse Hessian factor, block size, order and quantizer", "why_tests_cant": "the equality of the lazily batched and the direct algorithm is over all sizes and values", "anchors": ["mmrazor/implementations/quantization/gptq/gptq.py:213-313"]}
{"id": "C249", "title": "SparseGPT's blocks compute the column-by-column algorithm", "statement": "Whenever pruning succeeds, every row of the weight is what the published algorithm gives for some choice of masks: going through the columns one at a time, a masked weight becomes zero and all later weights are corrected at once by its error, starting from the row with dead columns zero. This holds for unstructured and n:m pruning and every block size.", "quantifier": "every weight, inverse Hessian factor, sparsity, pattern and block size", "why_tests_cant": "the equality of the lazily batched and the direct algorithm is over all sizes and values", "anchors": ["mmrazor/implementations/pruning/sparse_gpt/ops.py:137-227"]}
{"id": "C250", "title": "The adaptive padding layer gives an output of ceil(size / stride)", "statement": "For every kernel, stride and dilation and every picture, DynamicConv2dAdaptivePadding with no padding of its own returns an output with ceil(height / stride) rows and ceil(width / stride) columns; the float division in math.ceil(img / stride) rounds to the right number; the padding is the least that does so, is all zeros, surrounds the unchanged picture and puts at most one zero more at the right and the bottom. The exported static layer does the same. With a padding argument of its own neither holds.", "quantifier": "All kernels, strides (up to 2^53), dilations, picture sizes (below 2^53) and pixel values.", "why_tests_cant": "The tests run one or two sizes; the rounding of a float quotient and the combination of kernel, stride and dilation cannot be covered by examples, and the tests never give a padding.", "anchors": ["mmrazor/models/architectures/dynamic_ops/bricks/dynamic_conv.py:226-286", "DynamicConv2dAdaptivePadding.forward", "DynamicConv2dAdaptivePadding.to_static_op"]}
{"id": "C251", "title": "Connectors run the layers they were built with, in the order given", "statement": "ConvModuleConnector accepts exactly the six orders of conv, norm and act, and its forward pass runs each layer that is there once in that order, the explicit padding right before the convolution. TorchFunctionalConnector and TorchNNConnector accept exactly the documented names, raise ValueError for other names and AssertionError without one, and call the function with the given arguments, or the module that was built once.", "quantifier": "All orders, layers, inputs, names and arguments.", "why_tests_cant": "The tests use the default order and a few names; no test tries the other orders with layers missing.", "anchors": ["mmrazor/models/architectures/connectors/convmodule_connector.py:71-92", "mmrazor/models/architectures/connectors/torch_connector.py:11-135"]}
{"id": "C252", "title": "A parameter recorder always shows the current value of the named parameter", "statement": "After initialize, a ParameterRecorder returns the value its parameter has at the moment it is asked, however often the parameter changed and the recorder was entered; it keeps one record per model it was initialised with; it raises AssertionError for a name that the model lacks, without a model, and when entered before initialize. A parameter that modules share can only be recorded under its first name.", "quantifier": "All models, parameter names, values and numbers of entries.", "why_tests_cant": "A test reads a parameter once; that later updates are seen and that entering never clears the buffer holds over whole training runs, and no test shares a parameter.", "anchors": ["mmrazor/models/task_modules/recorder/param_recorder.py:36-57", "mmrazor/models/task_modules/recorder/base_recorder.py:25-118"]}
{"id": "C253", "title": "The programs of a triton matmul cover the output exactly once", "statement": "For positive block and group sizes, the swizzled schedule of matmul248 and transpose_matmul248 gives each program of the grid a tile inside the output, and each tile exactly one program, also when the rows of tiles are no multiple of the group size. So each entry of the output is stored, and nothing outside of it is.", "quantifier": "All sizes of the output, block sizes, group sizes and strides.", "why_tests_cant": "A GPU test sees some sizes; an entry that no program stores keeps whatever torch.empty held, which may be the right value by chance.", "anchors": ["mmrazor/implementations/quantization/gptq/ops.py"]}
{"id": "C254", "title": "The triton kernels multiply with the unpacked weights and their transpose", "statement": "matmul248 stores in entry (m, n) the sum over all k of the input times (value of the packed weight - (packed zero + 1)) times the scale of k's group, and transpose_matmul248 stores in (m, k) the sum over n of the gradient times the same weight, for 2, 4 and 8 bits.", "quantifier": "All tensors, strides, group indices, sizes and block sizes of a launch.", "why_tests_cant": "Tests use contiguous inputs with a power of two of features; the loads along the summed dimension are not masked, which only shows when the block size does not divide it.", "anchors": ["mmrazor/implementations/quantization/gptq/ops.py", "mmrazor/implementations/quantization/gptq/custom_autotune.py"]}
{"id": "C255", "title": "The state of a learnable fake quantizer can be loaded whatever its shape", "statement": "Loading a state into a LearnableFakeQuantize takes scale and zero_point from it even if they have another shape (per channel instead of per tensor), and the other buffers if their shape agrees; otherwise they stay as they are and exactly those are noted as errors. Loading the state of one quantizer into another makes them equal, with nothing missing, unexpected or wrong. A strict load lists exactly the keys that the state lacks, once each.", "quantifier": "All states, prefixes, shapes and values of the tensors.", "why_tests_cant": "A test loads one checkpoint; it does not see keys that are reported twice, or a buffer that is resized to memory of unknown content without being overwritten.", "anchors": ["mmrazor/models/fake_quants/lsq.py"]}

# Formal model of mmrazor: design

The subject is the Python package `/repo/mmrazor` (pinned commit, read as text only, never run).
The model is written in Coq 8.16.1 (`rocq/theories`, logical name `Verif`).

## Layout

Each topic `X` has up to three kinds of files:

* `X_Model.v`  – the executable model, one Gallina definition per Python function, each with a comment
  citing file and lines; no proofs.
* `X_Lemmas.v` – auxiliary proofs (where they are long).
* `X_Props.v`, `X2_Props.v`, ... – a small specification written without the model's helpers, the property
  theorems, a concrete `Example` next to each theorem showing its hypotheses are met, and
  `Print Assumptions`.

`Prelude.v` (exceptions as values, slicing), `PyNum.v` (Python numbers: exact integers and binary64 via
`Coq.Floats.SpecFloat`) and `Float_Lemmas.v` (facts about binary64, through Flocq) are shared.

Python exceptions are values (`outcome`: `Ok` / `Raise`); mutation is state passing, with an explicit heap
where aliasing matters (default lists, candidates, recorders); loops are structural recursion or folds;
random numbers, evaluators, estimators, candidate operations and library routines are explicit function or
list parameters, universally quantified in every theorem.

Where the unchanged code violates the English property, the full property is stated as
`Cxx_..._claim : Prop` and refuted by a theorem `Cxx_..._refuted` with a concrete witness, and the part that
does hold is proved as `Cxx_..._partial`.

`seeded/LOG.jsonl` records the mutation tests: each line is one wrong program (an edit of a model
definition), the claim it breaks, and the theorems that failed or had to be tightened.

## Results per property

`proved`: the full statement holds of the model. `partial`: either the code violates the full statement
(then a `_refuted` theorem gives a witness) or only the named part is proved; the note says which. The full
statement stays visible as a `Cxx_..._claim` definition in the same file.

| id | property | status | file | note |
|----|----------|--------|------|------|
| C01 | Registered channel ranges never overlap | partial | `IndexDict_Props` | The code violates the claim: an insertion whose range strictly encloses stored ranges is accepted (witness in C01_ranges_disjoint_refuted). C01_ranges_disjoint_partial proves disjointness for histories without enclosing insertions; ordering and contents are proved for every history. |
| C02 | A channel container's mask lays out its registered mutables | partial | `Container_Props` | The code raises when a gap precedes or separates registered ranges (C02_mask_layout_refuted). Proved for every history: a mask that is returned is right (sound); reading succeeds for prefix-tiling registrations (partial). |
| C03 | A sequential channel choice keeps exactly the leading channels | proved | `ChannelFloat_Props`, `Channel_Props` | Masks are lists of booleans; indexing and slicing as in Python. |
| C04 | Re-applying a reported ratio choice keeps the sub-network | partial | `ChannelFloat_Props`, `Channel_Props` | Refuted in IEEE binary64 (e.g. 49 channels): int(n * (k / n)) can be k - 1. Proved for number mode; the ratio-mode claim is false. |
| C05 | make_divisible returns an admissible channel number | proved | `Divisible_Props` | min_ratio is an exact rational; rounding of min_ratio * value in binary64 is not modelled. |
| C06 | Candidate lists of different channel mutables are independent | partial | `ChannelFloat_Props`, `Channel_Props` | The default candidate list is a shared mutable default: a second construction changes the first (refuted). Proved: instances with explicit candidates are independent of all others, and after accepted in-range assignments the choice is a candidate. |
| C07 | Fixing a mutable is final and a rejected second fix changes nothing | partial | `ChannelFloat_Props`, `Channel_Props`, `Module_Props` | Proved for sequential channels, value mutables, one-shot and differentiable operations. Refuted for SimpleMutableChannel (fixed mask can still be assigned / re-fixed) and DiffChoiceRoute (a rejected second fix overwrites the edge names used for pairing). |
| C08 | A derived channel mutable's mask agrees with its choice | partial | `Derived_Props` | Agreement proved for expansion and integer division of prefix masks and for concatenation; refuted for division by a non-integer. |
| C09 | Fixing a one-shot operation preserves its forward result | partial | `Module_Props` | Proved for known names; refuted for unknown names, which are accepted and drop all candidates. |
| C10 | A fixed differentiable route routes each input to its own edge | partial | `Module_Props` | Proved for one fix_chosen call; refuted for histories with a later rejected call. |
| C11 | fix_threshold fixes the operation with the highest probability | partial | `Module_Props` | Refuted: the boolean tensor is used as index, so position 1 is always fixed. Proved: nothing is fixed below the threshold, and the claim holds when position 1 is the most probable. |
| C12 | Graph edits keep the edge relation symmetric and bypass deleted nodes | proved | `Graph_Props` | For histories that keep the graph acyclic. Self loops break delete_node (C12_self_loop_refuted). |
| C13 | Topological traversal visits every node once, predecessors first | proved | `Graph_Props` | Kahn traversal on the modelled base graph; nodes are compared by name. |
| C14 | Channel dependency groups are exactly the generated equivalence | proved | `UnionFind_Props` | Hash caches of channel_flow.py are not modelled. |
| C15 | Candidate collections keep subnets, scores and resources aligned | partial | `Candidates2_Props`, `Candidates_Props` | Refuted: a candidate in the value_subnet/channel_subnet format contributes two scores and two resources but one subnet, and an entry appended twice is aliased. Proved: completeness of indicators, ordering, stable sorting; alignment for one-key candidates; isolation of writes when no dictionary is entered twice. |
| C16 | Resource constraints are checked inclusively and completely | proved | `Candidates2_Props`, `Candidates_Props` | Constrained metrics must be reported by the estimator (otherwise the code raises KeyError). |
| C17 | Evolution search never loses its best subnets and honours its constraints | proved | `Evolution2_Props`, `Evolution_Props` | The estimator is a function of the subnet; the evaluator, the sampler and the coin flips are arbitrary. Initial candidates are not checked by the code, so they are assumed to satisfy the constraints. |
| C18 | Resuming an evolution search runs the epochs that were left | partial | `Evolution_Props` | Refuted: _resume restores _epoch and also subtracts it from _max_epochs, so a search resumed after e epochs stops at max(e, max - e). The exact number of epochs is proved. |
| C19 | Searcher checkpoints: exactly the newest max_keep_ckpts survive | proved | `Evolution_Props` | Checkpoint names only; file contents are not modelled. |
| C20 | Crossover takes every gene from one of its parents | proved | `Evolution2_Props`, `Evolution_Props` | The coin flips are an arbitrary sequence. |
| C21 | Greedy slimming search finds one subnet per target within budget | proved | `Greedy_Props` | The estimator and the evaluator are deterministic functions of the subnet. FLOPs never increase is proved for estimators that charge no more for a smaller subnet. |
| C22 | Greedy slimming search survives a crash | partial | `Greedy_Props` | Refuted: the checkpoint that reaches a target is written before the subnet is recorded and a resumed search skips targets that are already met. Proved for checkpoints that do not meet the next target. |
| C23 | Greedy subnet sampler: probability schedule and pool consumption | partial | `Sampler_Props` | Refuted: the linear schedule ignores init_prob, the cosine schedule runs from 1 to init_prob, a zero-length schedule divides by zero and the pool is never consumed (the same best subnet is returned again and again). The behaviour inside these limits is proved. |
| C24 | Search groups partition the mutables | partial | `Groups2_Props`, `Groups_Props` | Refuted: a mutable that is registered itself and is also the source of a derived mutable gets two groups; mutables of one alias are separated if one of them is named in a custom group. The exact grouping is proved for models in which every mutable is registered once. |
| C25 | Exported subnets can be loaded back | partial | `FixSubnet_Props` | Refuted: several sources of one derived mutable share one key, and prefix stripping uses str.lstrip, which removes characters and not the prefix. Round trip proved when mutables under one key agree and stripping stops at the name; the missing-entry part is proved in full. |
| C26 | Recording does not permanently alter the recorded functions | partial | `Recorder_Props` | Refuted: managers leave recorders in entering order, so two function recorders on one function leave a wrapper behind, one more per block. Proved for at most one function recorder per function, any number of method and module recorders and any number of blocks. |
| C27 | Recorders return the data of the requested call | partial | `Recorder2_Props`, `Recorder_Props` | Refuted: of two method recorders on one method only the last records. Proved for any number of function and module recorders, one recorder per method and any history of blocks; indexing proved in full (negative indices are not stated). |
| C28 | Deliveries hand the teacher's i-th output to the student's i-th call | partial | `Distill_Props` | Refuted: the queue is never cleared, so outputs that the student does not consume are handed out in the next iteration. Proved for iterations that consume everything; the error cases are proved. |
| C29 | Distillation stops permanently at the configured epoch | proved | `Distill_Props` | For epoch-based runs, including runs resumed at any epoch. Loss dictionaries are assumed to have distinct keys (they are python dicts). |
| C30 | Model FLOPs and parameters are the sum over its layers | partial | `Estimator_Props` | FLOPs part proved in full (any nesting and sharing). Refuted: parameters are added at every call, and per-module results are wrong for a layer shared by two branches. Proved: parameters for layers called exactly once; per-module sums for trees without sharing. |
| C31 | Layer counters implement the textbook cost | partial | `Estimator2_Props`, `Estimator_Props` | Convolutions proved. Refuted: bias FLOPs of a transposed convolution use the output height twice; a pruned depthwise dynamic convolution is charged with the unpruned group number (exact factor proved). |
| C32 | A resource estimator applies its own configuration and has no memory | partial | `Estimator2_Props`, `Estimator_Props` | Refuted: input_shape/units/as_strings of the constructor are ignored when no per-call configuration is given, and estimate_separation_modules without a configuration switches seperate_return on for ever. Proved for per-call configurations and histories without such calls. |
| C33 | Iterative pruning moves monotonically and ends at the target | partial | `ItePrune_Props` | Prune times proved; for integer channel numbers the full statement is proved in binary64 arithmetic. For ratios the endpoint is refuted (target 0.1 from 1.0 ends at 0.09999999999999998); proved: monotone, and exact when the target is at least half of the supernet ratio. |
| C34 | DCFF accepts every legal prune frequency | partial | `ItePrune_Props` | Refuted: a value equal to max_iters is documented as legal but rejected (strict comparison). Proved for all other values, and that the derived schedule fits into the training run. |
| C35 | Pruned dynamic layers compute the masked dense layer | partial | `Dynamic_Props` | Linear layers proved in full. Convolutions: refuted for depthwise layers whose input and output masks differ; proved for dense convolutions, depthwise ones with equal masks, and group convolutions with the same number of active channels in every group. Also proved: other group masks raise AssertionError, and a group convolution with only an output mutable always raises. Exact arithmetic. |
| C36 | Kernel-size choices crop the centre of the kernel | partial | `Dynamic_Props` | Centre crop (any stride, dilation 1), rejection of even sizes and OFA with identity matrices proved. Refuted: padding ignores the dilation, so the size is kept only for dilation 1 (exact size proved). |
| C37 | Static export of a dynamic layer equals the dynamic layer | partial | `Dynamic_Props` | Equality of static and dynamic forward proved for convolutions and linear layers. Refuted: unfixed channel containers and derived mutables do not prevent the export; proved: any other unfixed mutable does. |
| C38 | BN calibration averages statistics over the requested samples | partial | `Calibrate_Props` | Refuted: dict batches raise TypeError or overshoot; averages go to the first channels even if the mask is not a prefix; workers with different batch sizes disagree and several workers overshoot the sample number. Proved for tensor batches in one process, prefix masks, and equal batch sizes on all workers. |
| C39 | Iteration-based DARTS training can draw batches for any number of iterations | partial | `Engine_Props` | Refuted: the restarted iterators are stored in the misspelt attribute iter_loader, so the iteration after the shortest loader is exhausted raises StopIteration. Proved: exactly one pass is delivered; the epoch-based loop delivers exactly one pass per epoch. |
| C40 | CRD negatives come from other classes, in the configured proportion | partial | `Crd_Props` | Refuted: with 0<percent<1 every class is cut to the percentage of the first class, so unbalanced classes are not treated as configured (and ragged lists are refused by newer numpy). Proved: negatives are of other classes and all of them are eligible; the percentage for balanced classes. |
| C41 | DMCP channel samples stay in the search space | proved | `Dmcp_Props` | With binary64 rounding of the pruning rates; signs of max_sample_rate and sample_offset assumed non-negative. |
| C42 | DMCP's FLOPs loss vanishes on the target band | partial | `Dmcp_Props` | Refuted: the band is computed from target_flops as plain FLOPs and compared with MFLOPs scaled values, so the loss is nowhere zero on the documented band; inverted_log_l1 is NaN below the target. Proved: the exact zero set; l1 and l2 vanish exactly on the target and grow with the distance. |
| C43 | Group Fisher prunes the globally least important channel and never empties a layer | partial | `GroupFisher_Props` | Refuted when every prunable importance is at least 1e5: the first unit is pruned instead of the minimum, or nothing at all. Proved when one prunable channel is below 1e5 (C43_step_partial); never emptying a unit is proved for all values and histories. Rounded x+1 and argmin are parameters with stated laws. |
| C44 | Expanding a model widens it to the requested width and preserves its function | partial | `Expand_Props` | Refuted: expand_to is relative to the original width, so a second call over-widens; a batch norm without affine parameters cannot be expanded. Proved: the width after any sequence of calls, least multiple, placement of old weights, function preservation for convolution/linear/depthwise/batch-norm layers and for whole chains with any activation. |
| C45 | SparseGPT prunes the requested fraction / pattern | partial | `SparseGpt2_Props`, `SparseGpt_Props` | Refuted: sparsity 0 masks an entry, sparsity 1 raises IndexError, 2:4 raises for a width (or block size) that is no multiple of four. Proved: exact mask count floor+1 below 1 for distinct scores, at least that many zeros in every block, and n:m patterns for multiples of m. |
| C46 | The Hessian accumulator is the mean over all inputs since its initialisation | partial | `SparseGpt2_Props`, `SparseGpt_Props` | Refuted: the batch counter survives init_hessian, and workers with different batch sizes are weighted by the size of rank 0. Proved: the exact value in general, and the claim for the first initialisation with equal sizes. |
| C47 | A failed SparseGPT prune leaves the layer unchanged | partial | `SparseGpt2_Props`, `SparseGpt_Props` | Refuted: a failed layer keeps zeroed or half-pruned columns and a damped Hessian because the computation works in place. Proved if it works on copies. |
| C48 | The GPTQ quantizer represents the observed range | partial | `Gptq_Props` | Refuted: in symmetric mode with no negative value the upper half of the range saturates. Proved: half a step of error in asymmetric mode and in symmetric mode with a negative value; positive scale, number of levels, idempotence in every mode (also with the mse search, which never increases the error); ternary mode. |
| C49 | Quantization ranges match the configured bit width | proved | `Gptq2_Props`, `Gptq_Props` | All bit widths and keyword arguments. |
| C50 | Building from a config does not consume the config | partial | `Engine_Props` | Refuted: _return_architecture_ is popped from the configuration of the caller. Proved for configurations without the flag; from the second build on the whole algorithm is returned. |
| C51 | Dumped subnets are limited to max_keep_subnets | partial | `Engine_Props` | Refuted: max_keep_subnets is never used. Proved: exact set of files written, which is what -1 promises. |
| C52 | Resuming LSQ training keeps the learned scales | partial | `Engine_Props` | Refuted: is_first_batch is not part of the checkpoint, so a resumed run re-estimates the scale on its first batch whatever was learned. Proved for uninterrupted runs. |
| C53 | Backward tracing reports each branch with its own layers only | partial | `Tracer2_Props`, `Tracer_Props` | Refuted: parse_linear does not remove its node, so layers behind a linear layer on a later branch are reported with it; a one-channel convolution is reported as depthwise. Proved when linear layers occur on last branches only: the paths are the routes if no unshared layer is met twice, and in general the neighbouring layers found are exactly those of the graph. |
| C54 | The latest checkpoint is found by its number | partial | `Engine_Props` | Refuted: a file such as best_acc.pth next to the numbered ones raises ValueError. Proved if all checkpoint files are numbered. |
| C55 | Reading a container's mask has no side effects | partial | `Container_Props` | Reading fills the trailing range, so a registration that was possible before the read raises after it (refuted). Proved: reads do not change what later reads return nor the stored mutables. |
| C56 | Out-of-range channel choices are rejected | partial | `Channel_Props` | Refuted for sequential channels (negative and oversized counts are silently accepted). The exact behaviour is characterised; one-shot channels do reject. |
| C57 | Every advertised candidate of a one-shot channel unit can be selected | partial | `ChannelFloat_Props`, `Divisible_Props` | Refuted in both modes; proved for number mode with min_value a multiple of the divisor (see theorem hypotheses). |
| C58 | A sampled unit choice never exceeds the unit's channel number | partial | `Divisible_Props` | Refuted for n=12, divisor 8 (draw rounds up to 16); proved when the divisor divides the channel number. |
| C59 | A derived mutable follows later changes of its source mutables | partial | `Derived_Props` | Refuted for channel // value (value captured at derivation); proved for the other derivations. |
| C60 | Candidate probabilities of a OneShotProbMutableOP sum to one | partial | `Module_Props` | Refuted: sums far below one are accepted. Proved: exactly the sums exceeding one are rejected. |
| C61 | The channel ranges a tensor is split into tile it | proved | `UnionFind_Props` | Any sequence of unions. |
| C62 | Aliases can be used in custom groups | partial | `Groups2_Props`, `Groups_Props` | Refuted: line 163 looks up the last item of a custom group as a module name, so the documented example [[a1],[a2]] raises KeyError. Proved when the last item of each group is a module name. |
| C63 | Setting and reading the choices of a search space | partial | `FixSubnet_Props`, `Groups2_Props` | Proved for groups that do not share mutables; refuted for a mutable in two groups (which C24 shows to be possible). |
| C64 | Recorded inputs appear in parameter order | proved | `Recorder_Props` | Also shown (C64_default_refuted): if a defaulted parameter is omitted, later values move to earlier positions. |
| C65 | Per-image FLOPs do not depend on the batch size | partial | `Estimator_Props` | Refuted for UpsampleCounter, which counts one image of the batch; proved for the convolution, linear, normalization and pooling counters. |
| C66 | Interrupting iterative pruning does not change the structures it sets | partial | `ItePrune_Props` | Refuted for linear scheduling: after a resume the pruned structure is taken as the supernet. Proved: unchanged without linear scheduling; with integer numbers the last pruning still sets the target. |
| C67 | The subnets sampled by DMCP meet the FLOPs target | partial | `Engine_Props` | Refuted: the subnet of the expected mode is saved without a check and is logged with the FLOPs of another subnet. Proved for the directly sampled subnets. |
| C68 | Switches of quantization-aware training follow the epoch number | proved | `Engine_Props` | The loop is modelled as the sequence of switch settings; observers and batch norm are flags. |
| C69 | Post-training calibration uses exactly the requested batches | proved | `Engine_Props` | Batches are abstract; what observers compute from them is not part of this claim. |
| C70 | Quantized validation returns the metrics of the quantized model | partial | `Engine_Props` | Refuted: the dictionary is emptied before the original metrics are added, so run() returns only original.*. Proved: the hooks get both. |
| C71 | Metrics of several subnets do not overwrite each other | proved | `Engine_Props` | Metric names are arbitrary strings; prefixing is modelled with string append. |
| C72 | Packed GPTQ weights decode to the quantized weights | partial | `Gptq_Props` | Refuted: a zero point of 0 is stored as -1, sizes that are no multiple of 32 lose values, and all-zero words make forward raise AttributeError. Proved for multiples of 32 and zero points of at least 1. |
| C73 | Deployed fake quantizers keep the scheme and drop the rest | proved | `Gptq_Props` | Observers are described by their constructor arguments. |
| C74 | GPTQ leaves every weight on the grid of its group | proved | `Gptq_Props` | Exact rational arithmetic; the Hessian inverse is arbitrary. |
| C75 | A layer that cannot be quantized is left unchanged | partial | `Gptq_Props` | Refuted: the computation works in place, and without CUDA it always fails at torch.cuda.synchronize after changing the weight. Proved if it works on a copy. |
| C76 | DMCP's expected channel number is the mean of its samples | proved | `Dmcp_Props` | Exact rationals; exp is a parameter with values in (0,1] for non-positive arguments. |
| C77 | DMCP weights channels by their survival probability | proved | `Dmcp_Props` | One value per channel; exact rationals. |
| C78 | A DMCP step trains the configured subnets and can be resumed | partial | `Dmcp_Props` | Refuted: entries are matched as substrings (so "ma" trains the max subnet), and the probability of scheduled_random starts again at 1 after resuming. Proved: strategies of the four names, different prefixes for any strategy, resuming without scheduled_random. |
| C79 | The forward passes of searchable operations are weighted sums of their candidates | proved | `ModuleForward_Props` | Tensor addition is a commutative monoid and scaling by 0 and 1 behaves exactly (exact arithmetic). |
| C80 | Group Fisher measures each active channel by the squared gradient of its multiplier | partial | `GroupFisher2_Props` | The importance formula is proved (exact rationals). The pairing of inputs and gradients is proved for one forward phase followed by one backward phase and refuted for several rounds in one step. |
| C81 | Group Fisher normalises by the FLOPs that pruning one channel saves | partial | `GroupFisher2_Props` | Refuted: a depthwise convolution is counted twice. Proved per layer, and for units without layers on both sides; the doubling is proved for every depthwise layer. |
| C82 | A checkpoint is written for every resource threshold that was passed | partial | `GroupFisher2_Props` | Order, uniqueness, strictness and early stop proved. Refuted: one check writes at most one checkpoint; thresholds that agree to two digits share a file. Proved with as many low checks as thresholds and for thresholds in whole hundredths. |
| C83 | find_nodes_parents lists exactly the nearest stopping nodes | proved | `Tracer3_Props` | Nodes identified by kind and name; the order of a Python set is unspecified. |
| C84 | Alias sampling draws every outcome with its own probability | partial | `Alias_Props` | Refuted for weights with sum below 1, which the constructor does not scale (witness [1/2, 1/4]); proved for every vector of non-negative weights with sum at least 1, with the usable table and exact probabilities. The in-place scaling of the caller tensor is a theorem of its own. Exact rationals stand for floats. |
| C85 | KLDivergence is a scaled teacher-to-student divergence with minimum at equal distributions | proved | `Loss_Props` | Over exact reals; torch softmax, log_softmax and kl_div are written out from their documentation. Rounding, overflow and gradients are not modelled. |
| C86 | ChannelWiseDivergence compares channels as spatial distributions | proved | `Loss_Props` | Over exact reals. |
| C87 | DKDLoss decomposes distillation into a target and a non-target part | partial | `Loss2_Props` | Target part, decomposition and minimum proved. The non-target part is refuted as an exact formula (the mask subtracts 1000 instead of removing the target): C87_nckd_partial gives the exact value and C87_leak bounds the difference. The reductions mean and none are refuted: size_average=False makes both return the undivided sum. |
| C88 | WSLD weights soft-label cross entropy by how much worse the student is on the label | proved | `Loss3_Props` | Over exact reals, num_classes equal to the number of logits. |
| C89 | Data-free losses have the documented extremes | proved | `Loss3_Props` | Over exact reals; the loss weight is a plain factor. |
| C90 | Activation-boundary losses vanish exactly on the documented set | proved | `Regress_Props` | Over exact reals. |
| C91 | L1Loss, L2Loss and MGDLoss compute the documented distances | partial | `Regress_Props` | Refuted: reduction batchmean is accepted by the constructor but raises ValueError in forward; with normalisation an all-zero row gives NaN (C91_nan: exactly then). The values and zero sets are proved. |
| C92 | Attention and factor transfer compare directions only | proved | `Regress2_Props` | Over exact reals; F.normalize with eps 1e-12 is written out. |
| C93 | PKDLoss compares standardised channels | partial | `Regress3_Props` | Refuted: the loss is (n-1)/n times 1 minus the correlation up to eps (C93_correlation_partial bounds the difference); equal heights with different widths raise AssertionError; one entry per channel gives NaN. Value, bounds and zero set proved. |
| C94 | DISTLoss compares class and sample relations | partial | `Regress4_Props` | Refuted: equal logits give a strictly positive loss (C94_identical gives the exact value). The rest proved over exact reals. |
| C95 | Relational losses compare scaled distances and angles | partial | `Regress5_Props` | Refuted: a batch of one sample makes DistanceWiseRKD NaN (C95_nan: only then). The rest proved over exact reals; distances below 1e-6 count as 1e-6. |
| C96 | Teacher-as-target losses | proved | `Regress6_Props` | Over exact reals; KDSoftCELoss only with reduction mean, no weight and no avg_factor; mmcls soft_cross_entropy written out. |
| C97 | CRDLoss contrasts each sample with noise and keeps unit memory rows | partial | `Contrast_Props` | Refuted: loss_weight is stored and ignored. The rest proved over exact reals; a running average of 0 (NaN in torch) is excluded. |
| C98 | Channel groups found by the channel graph are exactly the forced ones | proved | `ChannelGraph_Props` | Elements created and dropped at once by cat and slicing are left out of the model; the nodes come in topological order. |
| C99 | What check_channel accepts can be run, with those channel numbers | proved | `ChannelGraph2_Props` | Graphs in topological order; module numbers as read by the node classes. |
| C100 | Units list every channel, and a unit's mask treats channels alike exactly when they are tied | partial | `ChannelGraph3_Props`, `ChannelGraph5_Props` | Refuted for the mask: a grouped convolution whose groups are one channel wide ties all its channels while num_channels stays the full width (C100_mask_refuted). Success, ranges, units and num_channels proved for every accepted graph (C100_units); the mask claim proved for graphs without concatenation, expansion, group norm and grouped (non-depthwise) convolutions (C100_mask_partial). |
| C101 | generate_units_config can be called again | partial | `ChannelGraph6_Props` | Refuted: on every graph with an end node the second call raises AssertionError (C101_second_call_raises), because the tensors made inside EndNode are recorded by no node and keep their hashes. Proved when every channel tied to a recorded one is recorded. |
| C102 | Every input that divides a node's channels gets an expand node | partial | `ChannelGraph7_Props` | Refuted: the input behind an expanded one is skipped (channels 8, 4, 4). The result is given exactly for all inputs (C102_expand_exact); the claim is proved when no two neighbouring inputs can be expanded. |
| C103 | A node's inputs are the nodes it was connected to | partial | `ChannelGraph7_Props` | Refuted: an input used twice is kept once, and the expand node then ties channel 1 of the reader of cat([x, x]) to channel 0 of x. Proved that the inputs are kept once each and unchanged exactly when none is repeated. |
| C104 | find_mutable keeps exactly the units that can be shrunk | partial | `Mutator_Props` | Refuted: units that pass one by one need not pass together, and the bisection never runs the returned units as one set. Proved what is kept and tried; correct when running depends on every unit by itself. |
| C105 | Units made from the analyzer's result start at full width | partial | `Mutator2_Props` | Refuted: the analyzer config keeps the choice of the last trial, so units tried last start at int(0.9 n). Proved the exact starting width and full width when the unit was not in the last trial. |
| C106 | When a unit is mutable | proved | `Mutator_Props` | Modules are described by whether they have parameters and are dynamic. |
| C107 | Choices sampled, set and read back agree | partial | `Mutator3_Props` | Reading back a sample and setting the current choices are refuted (12 channels with divisor 8: 16 is set, 12 is read; 17 channels become 16). Proved in number mode when the divisor divides the width and the minimum fits, after any history; the effect of set_choices and of a failing call is proved in general for distinct names. |
| C108 | A unit is rebuilt from its config template | partial | `Mutator4_Props` | Refuted: 17 channels with divisor 8 become 16. Proved for units whose divisor divides the width, in number mode. |
| C109 | A mutator is rebuilt from its config template | partial | `Mutator4_Props` | Refuted: the template keeps parse_cfg, so the tracer path ignores the choices; with type Config, OneShot units go back to their largest choice. Proved for distinct names and divisors that divide the width, with type Config: same units, same choices for Sequential units, largest choices for the others. |
| C110 | Units config as dictionary or as file | partial | `Mutator5_Props` | Refuted: with a file, default_args are not merged into the init_args of a unit. Proved without from_cfg, when all units list channels, or when they hold only choices. |
| C111 | Preparing a mutator twice gives the same units | partial | `Mutator5_Props` | Refuted: from_cfg is removed by the first call, so the second ignores the choices. Proved for all other parse_cfg. |
| C112 | Every subnet of a slimmable mutator can be set | partial | `Mutator6_Props` | Refuted: subnets hold the candidates as written, units hold them rounded to the divisor, so setting a subnet can raise AssertionError. Proved: subnets are the transposed table, uneven rows are refused, and all subnets can be set when candidates are multiples of the divisor. |
| C113 | Registered units decide the masks of dynamic modules | partial | `Register2_Props`, `Register_Props` | Refuted: a range after a gap cannot be read back (a concatenated network input leaves one). Proved for ranges without a gap, and for all aligned channel graphs: all masks can be read and tied channels agree. |
| C114 | Units of a model with predefined dynamic ops | partial | `Predefined_Props` | Refuted: unit_predefined is popped by the first unit, so only that one gets it, and a later unit with a range narrower than its mutable raises NotImplementedError. Proved: which models give units and which channels they list; containers are unchanged when no range is narrower than its mutable. |
| C115 | Registered units can be read back from the model | proved | `Predefined2_Props` | For tidy lists of units (C113); the corollary is for channel graphs. Before any mask was read. |
| C116 | A training step of several subnets is one averaged optimizer step | partial | `Train_Props` | Refuted: with another accumulative_counts than the number of subnets the steps are taken in between (1: after each subnet, proved as C116_each) and gradients are left over; a distillation loss with the name of an own loss replaces it. Proved: with the matching number, one averaged step per iteration, also over resumed runs; disjoint names train all losses. |
| C117 | Arguments of a channel unit | partial | `Mutator7_Props` | Refuted: for units found by the tracer, own init_args replace default_args altogether. Proved: the order holds for units read from a configuration with channels; what tracer units get; the ends of the candidates. |
| C118 | Topological sorting of an exported ONNX graph | partial | `Onnx_Props` | Refuted: an omitted optional input (an empty name) raises KeyError; nodes without a name are sorted wrongly. Proved: for graphs with unique node names where every input has a producer, the result is a topologically ordered permutation; it fails, with RuntimeError, only if no order exists. |
| C119 | Cleaning up an exported ONNX graph | partial | `Onnx2_Props` | Refuted: a node fed by graph inputs and initializers only whose output is a graph output is removed (single-node network), which loses the output; an initializer used only by removed nodes stays. Proved: if no graph output comes from an isolated node or an unused initializer, the outputs are kept for all operators and inputs; what is removed is characterised. |
| C120 | Removing paddings that do nothing from an ONNX graph | partial | `Onnx3_Props` | Refuted: a Pad whose output is the graph output raises KeyError, as does padding computed at run time; a padded tensor that is used and also a graph output is lost as output. Proved: with constant paddings whose zero-padded outputs are used and are not graph outputs, it succeeds, keeps all outputs for all operators and inputs, and removes exactly the paddings with zero amounts. |
| C121 | TensorRT export computes what the fake-quantized graph computes | partial | `Export4_Props`, `Export_Props` | Refuted: quantize and dequantize lose the axis of per-channel nodes, and the range -127..127 becomes -128..127. Proved: for graphs whose quantizers the pair expresses the outputs are the same for all inputs; a quantizer of another width or with a zero point is never let through (C121_checks). |
| C122 | Removing fake-quantize nodes and their constants from an ONNX graph | partial | `Export2_Props` | Refuted: a constant that only the last fake-quantize node uses is listed twice and removing it again raises ValueError; constants of earlier nodes are left over. Proved: exactly when the step fails (C122_fails) and what it removes otherwise. |
| C123 | OpenVINO export computes what the fake-quantized graph computes | partial | `Export3_Props`, `Export4_Props` | Refuted: the shape of weights that are transposed first is not found, so the ranges of the rows are applied to the columns; a tensor quantized twice with different parameters gets the first range for both. Proved: for graphs whose quantizers FakeQuantize represents and whose constants can be removed (C122), the outputs are the same for all operators and inputs and nothing unused is left; the range of per-tensor nodes represents them (C123_ranges); the shape of the ranges (C123_shape, C123_shape_vector). |
| C124 | Ranges computed for OpenVINO stand for the scale and the zero point | partial | `ExportRange_Props` | Over the reals. Refuted: halfway between two steps when the lowest value and the zero point have different parity (range -127..127). Proved: equal for all numbers that are not halfway for all roundings to nearest, for all numbers with the same parity, and never more than one step apart. |
| C125 | Deleting fake quantizers after given nodes | partial | `FxQuant_Props` | Proved for well-formed graphs (topological order, quantizers with one unquantized input, each quantizer module called by one node, modules that are children of the root). If two nodes call the same quantizer module, deleting one leaves the other without module (C125_shared_refuted). |
| C126 | Deleting fake quantizers before given nodes | partial | `FxQuant2_Props` | Exact if no quantizer is met twice. Otherwise only quantizers go or an assertion fails (C126_safe_partial): for q(x) * q(x) the assertion fails (C126_square_refuted), two targets sharing a quantizer delete quantizers further back (C126_only_refuted), quantizers in an output tuple stay (C126_tuple_refuted). |
| C127 | Deleting fake quantizers before modules of given types | partial | `FxQuant3_Props` | Exact if those modules are called with a positional node. A quantizer shared with other nodes is deleted for them too (C127_residual_refuted); a call by keyword raises IndexError (C127_keyword_refuted). |
| C128 | The passes that delete redundant fake quantizers together | partial | `FxQuant3_Props` | Safe for all patterns (given C127 calls are positional); exact if walking back from the output meets no quantizer that an earlier pass deletes. Otherwise the walk goes on: with a MaxPool2d as last layer the quantizer before the pooling goes too (C128_pool_refuted). |
| C129 | sync_qparams makes the quantizers of all modes agree | partial | `QuantTree_Props` | Proved exactly when and how one mode is synchronized, and that all modes are, given that each other mode needs only what the source has. Refuted in general: a None child outside the quantizers is an AttributeError since the loop tests the parent for None (C129_sync_refuted), a quantizer that only the other mode has is a KeyError (C129_more_refuted). |
| C130 | Replacing batch norms and float functionals before tracing | partial | `QuantTree2_Props` | Proved where things are replaced if no parent registers a module under two names. Refuted: parameters and running statistics of converted norms are not kept (C130_tensors_refuted), a norm under a second name stays (C130_shared_refuted), swapped float functionals move behind their siblings (C130_order_refuted). |
| C131 | Resetting observers and fake quantizers after the dummy forward pass | partial | `QuantTree2_Props` | Exact effect proved. Refuted: observers that are not MinMaxObserver or PerChannelMinMaxObserver, such as HistogramObserver, keep the statistics of the random dummy input. |
| C132 | The modes of LearnableFakeQuantize do what their documentation says | partial | `Lsq_Props` | Proved: enable_val for scales of at least eps, enable_param_learning, outputs under enable_static_observation, gradients after any call about learning. Refuted: enable_static_observation overwrites scale and zero point at every forward pass; enable_val raises a scale below eps; a new module requires a gradient for the scale though learning is off. |
| C133 | Statistics of the LSQ observers | partial | `Lsq_Props` | Over the reals, one process. Proved: bounds over all batches, scale of the last batch, never negative and zero exactly for channels of zeros. Refuted: the scale is not that of the first batch; it can be 0, which is then divided by; an empty first input raises TypeError. |
| C134 | First-order DARTS steps use the gradient of their own batch | partial | `Darts_Props` | Over the reals, one vector of weights and one of architecture parameters, all of them part of the loss. Proved: the exact run and the first step of the architecture parameters. Refuted: the weights step along the sum of the gradients of both losses, and from the second iteration on the architecture parameters along a sum with the left-over gradient of the training loss. |
| C135 | Second-order DARTS steps use the unrolled gradient | partial | `Darts_Props` | Same model. Proved: the exact run. Refuted: there is no virtual step that lasts and the stored gradients are aliases, so the second-order term is zero and gradients of four backward passes are summed. |
| C136 | The unrolled backward pass restores the weights; accepted batches and logs | proved | `Darts_Props` | Same model; the logs have distinct keys. |
| C137 | DSNAS trains in three stages | partial | `Dsnas_Props` | Proved: epochs of the mutator updates, constant parameters in all others, and one best subnet from epoch finetune_epochs on for runs that pass the first step of that epoch and reach no threshold. Refuted: after resuming behind finetune_epochs the supernet goes on sampling. |
| C138 | The DSNAS loss of a mutable is computed with its own architecture parameters | partial | `Dsnas_Props` | Proved without aliases and custom groups. Refuted: with two mutables in one group; as soon as there is such a group, some mutable does not get its own parameters. |
| C139 | DSNAS architecture parameters step along the gradient scaled by the reward | partial | `Dsnas_Props` | Proved: the exact step, the samples and the condition of the flops term. Refuted: the gradients are multiplied after the step and after zero_grad; with PyTorch 2 (gradients set to None) every update raises. |
| C140 | DSNAS steps do not fail when a mutable reaches its threshold | partial | `Dsnas_Props` | Proved if no threshold is reached (gradients set to zero). Refuted: after a threshold the best operation is looked up among the one candidate that is left, which raises IndexError. |
| C141 | Accepted distillers compute their losses | partial | `Distiller_Props` | Proved: which configurations are accepted, and that losses are computed if all required parameters are mapped, there are no unknown options and the mappings of parameters with defaults are valid. Refuted without these: none of them is checked. |
| C142 | Distillation losses are computed from the records that the mappings name | proved | `Distiller_Props` | Connectors, losses, indexing and detach are arbitrary functions. |
| C143 | Data-free distillation trains student and generator with their own losses | partial | `DataFree_Props` | Over the reals, one vector of weights each, without batch statistics. Proved: the exact runs, and the documented one if the generator losses have no gradient for the student. Refuted: the gradient of the generator losses for the student is never cleared and is added to the next step of the student (also in DAFL). |
| C144 | Logs of data-free distillation | proved | `DataFree_Props` | The logged dictionaries have distinct keys. |
| C145 | Dynamic multi-head attention computes relative-position attention with the selected widths | proved | `Attention_Props` | Elements are of any type with any addition and multiplication; dropout is the identity; inputs have three dimensions. |
| C146 | Relative positions index the tables by clipped row and column distance | proved | `Attention_Props` | int(n**0.5) is the integer square root. |
| C147 | Exported multi-head attention computes what the dynamic one computes | partial | `Attention2_Props` | Holds for heads of width 64, the default scale and max_relative_position 14, with a bias in all projections. Refuted without: max_relative_position, qk_scale and the head width are lost, a missing bias is an AttributeError, and convert_from copies no weights. |
| C148 | The last direct registration, or else the first registration under a channel name, is the mutable of a dynamic layer | proved | `TransOps_Props` | Mutables are opaque; the checks of the class are any function. |
| C149 | DynamicLayerNorm normalises with the selected weights, can be registered again and exports the same function | partial | `TransOps_Props` | Proved: forward and export with a mutable registered; registrations under channel names never break the layer. Refuted: forward overwrites normalized_shape, so num_features registered again after a forward is checked against the narrowed width; nothing registered raises KeyError; convert_from drops the weights. |
| C150 | DynamicSequential runs and exports the first depth children | partial | `TransOps2_Props` | Proved: forward, export and the exact acceptance condition. Refuted: a depth of one more than the number of children is accepted (mutable_attrs is counted) and an unregistered depth raises KeyError. |
| C151 | DynamicPatchEmbed gives the selected entries of every token and exports the same function | partial | `TransOps2_Props` | Proved: forward with a mask, when export works, same function without normalisation, padding and dilation and for stride 16. Refuted: export drops normalisation and padding, needs a bias; conversion ignores the stride. |
| C152 | All candidate operations of a choice return the same shape | partial | `OpShapes2_Props`, `OpShapes_Props` | Seven operations that can be built do not return the shape of their choice: refuted with witnesses. |
| C153 | Every subnet of the searchable ShuffleNet and MobileNet runs and returns the selected stage maps | partial | `OpShapes3_Props` | out_indices out of order or beyond a short architecture do not give the maps they name: refuted. |
| C154 | Frozen stages stay frozen under any sequence of train() calls | partial | `OpShapes3_Props` | The first convolution keeps its training mode although it is frozen: refuted. |
| C155 | Every DARTS architecture runs and returns the selected cell maps | partial | `DartsNet_Props` | Sides not divisible by 4 and small images with the auxiliary module: refuted. |
| C156 | Copying and converting a graph keeps nodes, names and edges | proved | `ModuleGraph_Props` | Proved for every converter and every graph reachable by graph operations; two different images of one name raise. |
| C157 | ModuleGraph.check accepts exactly the well-formed graphs and repairs only what is missing | proved | `ModuleGraph2_Props` | Exact acceptance condition of check, and exactly which nodes and edges check(fix=True) adds. |
| C158 | Bind nodes give every narrow layer a single input and renaming keeps the graph | partial | `ModuleGraph3_Props`, `ModuleGraph4_Props` | The full claim that renaming loses no node is refuted (C158_rename_refuted): a module of the model named like a placeholder, e.g. 'bind_0', and the placeholder of that name end under one key, so one node vanishes from the graph. C158_rename_partial proves the claim for models without such names; the part on bind nodes (C158_bind, C158_single) is proved in full. |
| C159 | The graph of traced paths has the layers and concatenations of the paths as nodes and their adjacency as edges | proved | `ModuleGraph5_Props` | Nodes and edges of the parsed graph, and exactly which concatenations are merged. |
| C160 | OFD margins are the means of the negative responses and negative themselves | proved | `Ofd_Props` | Stated with the antiderivative of the density that vanishes at minus infinity (whose existence is proved); zero weights raise. |
| C161 | init_ofd_connectors sets exactly the margins of the connectors of teacher inputs | proved | `Ofd2_Props` | Exact condition for success and the margins of every connector. |
| C162 | L1 units keep the filters with the largest mean absolute weights | partial | `L1Unit_Props` | Ranking, reading and nesting are proved for units of convolutions and linear layers. Refuted: rounding to the divisor can exceed the number of channels, and then setting raises (C162_range_refuted). Refuted: transposed convolutions are ranked by the weights of their inputs (C162_transposed_refuted). A unit without convolutions and linear layers raises ZeroDivisionError for every choice (C162_none). |
| C163 | DCFF mixes every kept filter with its neighbours, itself first | proved | `Fuse_Props` | Over the real numbers. |
| C164 | A pruned DCFF convolution computes with mixtures of its filters and exports what it computes | partial | `Fuse2_Props` | Proved for square kernels (C164_fuse_partial) and the rest in full. Refuted for other kernels: the fused weight is reshaped with the kernel height for both sides, so a 1x3 kernel turns one kept filter into three 1x1 filters (C164_fuse_refuted). |
| C165 | DCFF's temperature falls from 1 to 1/10000 | proved | `Fuse2_Props` | Over the real numbers, so exp(-max) is never rounded. |
| C166 | Search spaces given by ranges | partial | `Attentive_Props` | The second entry of a range is only a value when the step divides the distance, and never for a descending range (C166_bound_refuted); the exact values and what is accepted are proved in general. |
| C167 | Building the searchable MobileNetV3 consumes the caller's activations | partial | `Attentive_Props` | Building twice from the same arguments does not give the same network (C167_rebuild_refuted): the caller's list is popped in place. What each construction uses and leaves is proved for all lists. |
| C168 | Every subnet of the searchable MobileNetV3 runs | partial | `Attentive2_Props` | Refuted in full (C168_forward_refuted) by plain shortcuts between two chosen widths, by sides of different parity at attentive shortcuts and by depth 0; proved for all other choices, in particular for all square inputs with attentive shortcuts and for the widest subnet without them. |
| C169 | Outputs and frozen stages of the searchable MobileNetV3 exist | partial | `Attentive2_Props` | Accepted indices and stages need not exist (C169_exists_refuted); how many maps come out and when freezing raises is proved exactly. |
| C170 | Every subnet of the searchable AutoFormer returns the chosen width | proved | `Autoformer_Props` | int(k * ratio) is any growing function; the condition on images is exact |
| C171 | patch_size of the searchable AutoFormer is respected | partial | `Autoformer_Props` | Refuted for patch sizes other than 16 (C171_patch_refuted); the exact condition is proved. |
| C172 | The order of the choices of the searchable AutoFormer does not matter | partial | `Autoformer_Props` | Refuted (C172_order_refuted, C172_again_refuted): each list must end with its largest entry. What happens otherwise is proved for each list (C172_depth, C172_heads, C172_ratios, C170_width), and that building settles after the first time. |
| C173 | Encoding candidates for metric predictors is invertible | partial | `Predictor_Props` | Decoding fails for vectors of one entry (C173_single_refuted); encoding is total and injective, and decoding inverts it for all longer vectors. |
| C174 | Predictors are asked with the vectors they were trained with | partial | `Predictor_Props` | Refuted with aliases (C174_order_refuted); C174_channel shows that channel mutables always make predict raise; C174_same_partial proves the claim for mutables without aliases, custom groups and derived mutables. |
| C175 | A configured predictor scores the candidates of the search | partial | `Predictor2_Props` | Refuted for predictors loaded from a checkpoint (C175_checkpoint_refuted, C175_checkpoint); proved for trained ones. |
| C176 | A BYOT connector accepts exactly the features whose sides survive its attention, halvings and pooling | partial | `Connector_Props` | the constructor and the accepted features are characterised exactly; that every connector is usable is refuted (default stride 1, or fewer output than input channels), and the exact condition is C176_usable_partial |
| C177 | Non-local blocks of FBKD pool by twice their stride and cannot subsample in gaussian mode | partial | `Connector_Props` | that the block pools by maxpool_stride is refuted: it pools by twice that (C177_stride_partial), and gaussian mode with sub_sample accepts nothing (C177_gaussian) |
| C178 | The attention masks of FBKD have mean one and follow the magnitude of the features | proved | `Connector2_Props` | exact reals |
| C179 | CRD embeddings are unit vectors | proved | `Connector2_Props` | exact reals; a zero image gives a division by zero |
| C180 | The MGD connector hides whole positions or whole channels and passes the rest unchanged | proved | `Connector2_Props` | exact reals; torch.rand is an argument |
| C181 | Factor-transfer connectors return comparable factors only in phase train | proved | `Connector_Props` | shapes only |
| C182 | MLPHandler keeps the network of its best epoch | partial | `Handler_Props` | the kept network, the split and the exact condition for raising are proved; that every split works is refuted (no validation samples) |
| C183 | CartsHandler fits every tree on all samples with their labels and averages what the trees say | proved | `Handler_Props` | exact rationals; how a tree is fitted is a parameter |
| C184 | EstimateResourcesHook estimates after the epochs that are multiples of its interval | partial | `Handler_Props` | the claim is refuted by an offset of one epoch; the exact epochs are proved (mmengine counts the epoch before validating) |
| C185 | EstimateResourcesHook reports the resources of the current subnet | partial | `Handler_Props` | refuted for supernets: random choices are reported; what is reported and changed is proved |
| C186 | Networks are freed of in-place modules | partial | `DistillStep_Props` | Refuted (C186_nested_refuted): the recursion stops at a module with an attribute inplace, so the activation of a ConvModule keeps working in place. What happens to every module is proved exactly; the claim holds when no module with the attribute contains one that works in place. |
| C187 | A fixed teacher gets no gradients and its norms are not updated | proved | `DistillStep_Props` | the loading of a checkpoint is left out |
| C188 | A distillation step reports the losses its switches ask for | partial | `DistillStep_Props` | Refuted (C188_fpn_refuted): FpnTeacherDistill ignores calculate_student_loss (and never reports a trainable teacher). Proved for the other two and for FpnTeacherDistill with the default switches. |
| C189 | Only trainable networks keep gradients in a distillation step | partial | `DistillStep_Props` | Refuted (C189_student_refuted): student_trainable=False has no effect unless calculate_student_loss=False, and none at all in FpnTeacherDistill. The exact condition is proved. |
| C190 | Deliveries work in every configurable distillation algorithm | partial | `DistillStep_Props` | Refuted (C190_self_refuted): SelfDistill overrides from the start, so a delivery that is called always fails. Proved for the two algorithms with a teacher. |
| C191 | Student and teacher recorders of self-distillation agree | partial | `DistillStep_Props` | Refuted (C191_method_refuted): of two method recorders only the teacher one records. Proved for function and module recorders. |
| C192 | A tracer skips its own methods | partial | `CustomTracer_Props` | Refuted: methods are kept by name alone, so two classes with a skipped method of the same name lose one (C192_name_refuted); methods of tracers constructed earlier stay replaced (C192_leak_refuted); a tracer constructed later takes over the calls (C192_other_refuted). The exact contents of the registry after any history are proved, and the property for one tracer with distinct method names. |
| C193 | Classes and methods are named by strings | partial | `CustomTracer_Props` | Refuted (C193_short_refuted): a method of a top-level class given as Class.method raises. Proved for paths with a module. |
| C194 | Modules with skipped methods get stand-ins | partial | `CustomTracer2_Props` | Refuted: a module inside another module raises AttributeError (C194_nested_refuted); a second get_attr node of the same module forgets the methods called before (C194_twice_refuted). Proved, with exactly the called methods, for top-level modules fetched once. |
| C195 | Reused modules are separated | partial | `CustomTracer3_Props` | Refuted (C195_names_refuted): a module already named like a copy is replaced by the copy. Proved for graphs in which no called module has such a name. |
| C196 | Observers only where configured | partial | `Deploy_Props` | Refuted (C196_fixed_refuted): torch operations with fixed parameters (a sigmoid) are observed although listed. Which qconfig every class gets is proved. |
| C197 | Qconfigs by name, class and default | proved | `Deploy_Props` |  |
| C198 | Rewriting is suspended while graphs are built | partial | `Augment_Props`, `Deploy_Props` | Refuted: when building a graph fails the records stay popped (C198_failure_refuted); the function names of the deployment configuration are removed from it (C198_config_refuted). Proved when building succeeds. |
| C199 | Deployment replaces every QAT module in place | partial | `Deploy_Props` |  |
| C200 | Deployment keeps the weights of the quantized model | partial | `Deploy2_Props` | Refuted: the observer recomputes parameters from the fake-quantized weights and gets others in a symmetric scheme with the default range -128..127 (C200_range_refuted), for learned scales that do not use the whole range (C200_learned_refuted), and in affine schemes with the least weight halfway between steps (C200_halfway_refuted). Proved when the range is used to its ends, which observed parameters of symmetric ranges always do. |
| C201 | The intermediate export does not overwrite the result | partial | `Deploy_Props` | Refuted: a path without .onnx is overwritten (C201_same_refuted); .onnx in a directory name changes the directory (C201_directory_refuted). Proved when .onnx occurs only as the extension. |
| C202 | Augmentation parameters stay in their documented ranges | proved | `Augment_Props` |  |
| C203 | Extra parameters of augmentations take effect | partial | `Augment_Props` | Refuted: the augmentations of auto_augmentv2.py never look at their parameters, so they fill with black and always use nearest (C203_ignored_refuted); translate_const is ignored (C203_translate_refuted). Proved for colour and resampling in auto_augment.py. |
| C204 | Augmentations change exactly the image fields | proved | `Augment_Props` |  |
| C205 | Packed samples carry their meta information | partial | `Augment_Props` | Refuted (C205_second_refuted): meta_keys becomes a generator that is used up by the first sample with an index, so all later samples have no meta information. Proved exactly which samples have it; images, labels and indices are proved for all. |
| C206 | The measured latency is the mean time of the passes after warming up | partial | `Tools_Props` | Refuted: with num_warmup 0 one pass more is counted than is made, as the numbers start at 1 (C206_warmup_refuted); a unit other than ms is printed after a number of milliseconds (C206_unit_refuted). Proved from num_warmup 1 on, and when it returns. |
| C207 | Runtime information gives the position in the epoch | proved | `AdaptivePad_Props`, `Tools_Props` |  |
| C208 | Visualized images go to one directory under names that are never repeated | partial | `Tools_Props` | Refuted (C208_nested_refuted): out_dir is joined to the working directory again at each stage, so with a relative work_dir (the default) the directory gets deeper each time. Proved for absolute paths; names, steps and intervals are proved for all. |
| C209 | Setting up makes mmrazor the default scope and respects the environment | proved | `Tools2_Props` |  |
| C210 | Each configured submodule gets its own optimizer | partial | `Tools2_Props` | Refuted (C210_module_refuted): any model with a child called module is taken for a wrapper. Proved for all models without such a child and for wrapped models. |
| C211 | Gathering tensors is differentiated correctly | proved | `Tools2_Props` |  |
| C212 | A WideResNet produces features of the promised shape | partial | `Wide_Props` | Refuted (C212_norm_refuted): forward asks for bn1 and bn2, so a network built with any norm layer but batch norm raises AttributeError. Proved for batch norm, for all options and sizes; depth and stages are proved for all. |
| C213 | The options of a WideResNet take effect | partial | `Wide_Props` | Refuted: _freeze_stages runs before norm1 exists, so no network with frozen_stages >= 0 can be built (C213_frozen_refuted, C213_never_frozen); ResLayer does not pass droprate on (C213_drop_refuted). Strides, dilations and zero_init_residual are proved. |
| C214 | Demo inputs are as asked for | partial | `Wide2_Props` | Refuted: more than four images for classifiers raise IndexError, detectors always get one image, segmentors never train, and for pose estimators the shape is taken for the training flag and width and height are swapped. Proved for the other cases. |
| C215 | Demo input generators use their own shape | partial | `Wide2_Props` | Refuted: the default shape of DefaultMMYoloDemoInput is not used by its constructor (C215_default_refuted) and a generator that is called ignores its own shape (C215_call_refuted). Proved for get_data and the other generators. |
| C216 | Versions are parsed without loss | partial | `Wide2_Props` | Refuted (C216_suffix_refuted): the last number of a version such as 1.0.2b1 is dropped. Proved for releases and release candidates. |
| C217 | The autotuner runs the fastest configuration and remembers it | proved | `Autotune_Props` |  |
| C218 | Autotuning does not change results | partial | `Autotune_Props` | Refuted (C218_cached_refuted): once a key is tuned (or with a single configuration) the tensors are not reset, so an accumulating kernel adds to what was there. Proved for the first call and for kernels that overwrite. |
| C219 | Pruning keeps the configurations that can be best | partial | `Autotune_Props` | Refuted: leaving out early_config_prune raises UnboundLocalError (C219_optional_refuted), a small fraction for top_k leaves nothing to try (C219_fraction_refuted). The pruner, the model and the keys are proved; the pruner is a generator, so it cannot be combined with a model (C219_generator). |
| C220 | The channel tracer wraps each function at most once, in the first place it is found | partial | `FxTrace_Props` | Refuted as a claim about names: a function with two names, or one a module class of an earlier name binds, is patched only there (C220_refuted). Proved: at most once, somewhere for each function named or method of a module class named, and in full for a namespace of distinct functions. |
| C221 | A call of a wrapped function with a traced argument never raises, and adds one node when the function failed | partial | `FxTrace2_Props` | Refuted: a wrapped function that rejects concrete arguments runs twice (C221_once_refuted), and nodes recorded before a failure stay (C221_node_refuted). Proved: transparency on success, no exception with a proxy argument, one node on failure. |
| C222 | Tracing fails exactly when the root's own forward fails; children that fail become one node | partial | `FxTrace2_Props` | Refuted: a module that fails with a wrapped forward is a call_method node (C222_method_refuted), and earlier nodes stay (C222_leftover_refuted). Proved: when trace fails, the shape of the graph, leaves, inlining and the node of a module that stopped. |
| C223 | Input resizers give the size asked for, and the searchable resizer acts as its static one | partial | `Parts_Props` | Refuted: nearest, area and nearest-exact are accepted and always raise (C223_refuted), and the searchable resizer without a mutable and a size always raises (C223_default_refuted). Proved for the other types, and that a chosen size acts as the static resizer. |
| C224 | The pooling neck averages every channel of every sample over all other dimensions | partial | `Parts_Props` | Refuted: a tensor that is not in a tuple raises in evaluation or without dropout (C224_refuted, C224_tensor). The means are proved for every number of dimensions; the tensor case in training with dropout. |
| C225 | Generators produce square RGB images of a multiple of the squared scale factor | partial | `Parts_Props` | Refuted: img_size 30 gives 28 (C225_refuted). Proved: the exact size for all inputs, and img_size when the squared scale factor divides it. |
| C226 | The pseudo loss is the sum of all elements of all tensors in the output | partial | `Parts_Props` | Refuted: an output without tensors gives the integer 0 (C226_refuted). Proved: the sum, when it fails, and when the result is a tensor. |
| C227 | Drop path rates grow with depth and stay below the rate asked for | partial | `Parts2_Props` | Refuted: blocks of other classes push rates above the one asked for (C227_refuted). Proved: the exact rate when all blocks are of the class, growth within a layer and what stays unchanged in general. |
| C228 | The last train or eval call decides the mode of every module | partial | `Parts2_Props` | Refuted: the stem of a frozen backbone trains (C228_frozen_refuted), norm_eval layers train in evaluation with norm_training (C228_norm_eval_refuted), train returns None (C228_return_refuted). Proved: the last call decides, and the modes after it. |
| C229 | The memory-efficient forward of SparseGPT and GPTQ holds one block on the device at a time | partial | `Offload_Props` | Parameters of the model itself are never moved (C229_own_refuted), modules shared between places move tied parameters away (C229_shared_refuted) and re-entering an object leaks hooks (C229_reenter_refuted). Proved for all trees of distinct modules without parameters at the root. |
| C230 | replace_with_dynamic_ops replaces each module of a mapped type exactly once | partial | `Offload2_Props` | A module used under two names stays static under the second (C230_shared_refuted) and a mapped root gets a nameless child (C230_root_refuted). Each module is replaced exactly once; all places are if no module is used twice. |
| C231 | torch_setting gives the default dtype back | partial | `Offload2_Props` | An object built before the default changed and entered later puts back the older default (C231_early_refuted). All programs that build the object in the with statement are covered. |
| C232 | A backend operator table holds the last config set for each pattern | proved | `BackendCfg_Props` |  |
| C233 | The modules named in the backend tables are configured themselves | proved | `BackendCfg2_Props`, `BackendCfg_Props` |  |
| C234 | What the backend tables declare for a pattern is not lost when the pattern is set again | partial | `BackendCfg_Props` | Refuted for the fused convolution + ReLU modules (C234_root_kept_refuted); C234_root_kept_partial proves it for every other pattern of the four tables and says what is left for these. For the native table the fixed-parameter operators are left out. |
| C235 | Which operators share the observer of their input in the backend tables | proved | `BackendCfg2_Props`, `BackendCfg_Props` |  |
| C236 | Backend tables exist exactly for torch 1.13.0 to 1.13.1 | proved | `BackendCfg_Props` |  |
| C237 | The signal-to-noise error of two tensors | partial | `Snr_Props` | The docstring says the error is the mean of the relative squared differences of the elements (refuted: C237_elementwise_refuted). The value the code returns, when it is 0 and what it refuses is proved for all tensors. |
| C238 | The widest and the narrowest choices of a one-shot channel mutator | proved | `Kinds_Props` | Plain units (neat): number mode, widths a multiple of the divisor. Ratio mode loses choices to rounding, see C107. |
| C239 | How a feature map is fitted to an image, reduced and laid out | partial | `Featmap2_Props`, `Featmap_Props` | A map of one column over a wide image is cut to nothing and interpolation fails (C239_draw_refuted); C239_draw_partial says exactly when that happens. All other parts are proved. |
| C240 | The head of a distilled vision transformer scores the class token | proved | `Heads_Props` | Layers are functions; a forward pass is the list of layer calls. |
| C241 | The auxiliary losses of the head of a searched network | partial | `Heads_Props` | The names get two dots, aux_head..loss (C241_name_refuted). Everything else is proved. |
| C242 | How the searchable classifier connects its head and resizes inputs | proved | `Heads_Props` | Attribute lookups and head methods are functions with outcomes; the resizer itself is C223. |
| C243 | Log levels and who prints | partial | `Support_Props` | Everything but the agreement of ranks is proved. Refuted: the level is looked at on rank 0 only, so a wrong level raises there and other ranks go on; partial: they agree with only_rank0=False. |
| C244 | The fast-stop hook ends training where it says | partial | `Support_Props` | The number of iterations is proved exactly. Refuted: the hook compares runner.iter before it is counted up, so stop_iter_or_epoch=5 trains 6 iterations; partial: at most one more than asked. |
| C245 | Registering torch's observers and fake quantizers | partial | `Support_Props` | Proved if every class is bound to its own name. Refuted in general: the registry is asked for the attribute name but registers the class name, so a second alias raises KeyError. |
| C246 | Setting gradients and asking for the device | partial | `Support_Props` | Gradients proved exactly. Refuted: only the first parameter is looked at, so a module spread over devices reports the first one; partial: the first parameter is there. |
| C247 | The Gaussian process predictor normalises its data reversibly | partial | `Kriging_Props` | All but the unit variance is proved, over real numbers. Refuted: 1e-6 is added to the standard deviation, so the variance is (s/(s+1e-6))^2 < 1, as C247_unit_variance_partial states. |
| C248 | GPTQ's blocks compute the column-by-column algorithm | partial | `Gptq2_Props` | Proved without groups for every block size and order. Refuted with groups: a group takes its scale from the weights as they were when its block began, so the block size changes the result. |
| C249 | SparseGPT's blocks compute the column-by-column algorithm | proved | `SparseGpt3_Props` | Exact rationals; the factor of the inverse Hessian is given. |
| C250 | The adaptive padding layer gives an output of ceil(size / stride) | partial | `AdaptivePad_Props` | Holds for layers without a padding of their own, which is all that the conversion from Conv2dAdaptivePadding makes. C250_output_size_refuted and C250_export_refuted: a padding argument is applied on top by the dynamic layer, and ignored by the static layer it exports. |
| C251 | Connectors run the layers they were built with, in the order given | proved | `Connect_Props` |  |
| C252 | A parameter recorder always shows the current value of the named parameter | partial | `Connect_Props` | C252_tied_refuted: a shared parameter is listed once by named_parameters, so its second name is not found. |
| C253 | The programs of a triton matmul cover the output exactly once | proved | `TritonKernel_Props` |  |
| C254 | The triton kernels multiply with the unpacked weights and their transpose | partial | `TritonKernel_Props`, `TritonPacked_Props`, `TritonTune_Props` | Holds if the block size of the summed dimension divides it and the rows of the input are contiguous. C254_blocks_refuted: 96 inputs in blocks of 64 (which the configuration pruner allows) read past the end of the rows. C254_strides_refuted: the input pointer advances by BLOCK_SIZE_K instead of BLOCK_SIZE_K * stride_ak, so a transposed input is misread. C254_tuned_*: every configuration that the autotuner may choose, also one cached for other sizes, is right if the summed dimension is a multiple of 128; C254_packed_* joins this with pack (C72): the packed layer and its gradient use the quantized weights. |
| C255 | The state of a learnable fake quantizer can be loaded whatever its shape | partial | `LsqLoad_Props` | C255_once_refuted: a missing scale or zero_point is reported twice in a strict load, by this class and by torch. The rest is proved. |

## Print Assumptions

Every theorem listed in `MANIFEST.json` is "Closed under the global context" except:

* `C03_ratio` (`ChannelFloat_Props`): `ClassicalDedekindReals.sig_not_dec`, `ClassicalDedekindReals.sig_forall_dec`, `FunctionalExtensionality.functional_extensionality_dep`, `Classical_Prop.classic`
* `C04_reapply_ratio_partial` (`ChannelFloat_Props`): `ClassicalDedekindReals.sig_not_dec`, `ClassicalDedekindReals.sig_forall_dec`, `FunctionalExtensionality.functional_extensionality_dep`, `Classical_Prop.classic`
* `C105_full_width_partial` (`Mutator2_Props`): `ClassicalDedekindReals.sig_not_dec`, `ClassicalDedekindReals.sig_forall_dec`, `FunctionalExtensionality.functional_extensionality_dep`, `Classical_Prop.classic`
* `C105_start_width` (`Mutator2_Props`): `ClassicalDedekindReals.sig_not_dec`, `ClassicalDedekindReals.sig_forall_dec`, `FunctionalExtensionality.functional_extensionality_dep`, `Classical_Prop.classic`
* `C124_channels` (`ExportRange_Props`): `ClassicalDedekindReals.sig_forall_dec`, `FunctionalExtensionality.functional_extensionality_dep`
* `C124_close` (`ExportRange_Props`): `ClassicalDedekindReals.sig_forall_dec`, `FunctionalExtensionality.functional_extensionality_dep`
* `C124_even_partial` (`ExportRange_Props`): `ClassicalDedekindReals.sig_forall_dec`, `FunctionalExtensionality.functional_extensionality_dep`
* `C124_halfway_refuted` (`ExportRange_Props`): `ClassicalDedekindReals.sig_forall_dec`, `FunctionalExtensionality.functional_extensionality_dep`
* `C124_same_partial` (`ExportRange_Props`): `ClassicalDedekindReals.sig_forall_dec`, `FunctionalExtensionality.functional_extensionality_dep`
* `C132_gradients_partial` (`Lsq_Props`): `ClassicalDedekindReals.sig_not_dec`, `ClassicalDedekindReals.sig_forall_dec`, `FunctionalExtensionality.functional_extensionality_dep`
* `C132_gradients_refuted` (`Lsq_Props`): `ClassicalDedekindReals.sig_not_dec`, `ClassicalDedekindReals.sig_forall_dec`, `FunctionalExtensionality.functional_extensionality_dep`
* `C132_learning` (`Lsq_Props`): `ClassicalDedekindReals.sig_not_dec`, `ClassicalDedekindReals.sig_forall_dec`, `FunctionalExtensionality.functional_extensionality_dep`
* `C132_observation_partial` (`Lsq_Props`): `ClassicalDedekindReals.sig_not_dec`, `ClassicalDedekindReals.sig_forall_dec`, `FunctionalExtensionality.functional_extensionality_dep`
* `C132_observation_refuted` (`Lsq_Props`): `ClassicalDedekindReals.sig_not_dec`, `ClassicalDedekindReals.sig_forall_dec`, `FunctionalExtensionality.functional_extensionality_dep`
* `C132_val_partial` (`Lsq_Props`): `ClassicalDedekindReals.sig_not_dec`, `ClassicalDedekindReals.sig_forall_dec`, `FunctionalExtensionality.functional_extensionality_dep`
* `C132_val_refuted` (`Lsq_Props`): `ClassicalDedekindReals.sig_not_dec`, `ClassicalDedekindReals.sig_forall_dec`, `FunctionalExtensionality.functional_extensionality_dep`
* `C133_empty_refuted` (`Lsq_Props`): `ClassicalDedekindReals.sig_not_dec`, `ClassicalDedekindReals.sig_forall_dec`, `FunctionalExtensionality.functional_extensionality_dep`
* `C133_first_refuted` (`Lsq_Props`): `ClassicalDedekindReals.sig_not_dec`, `ClassicalDedekindReals.sig_forall_dec`, `FunctionalExtensionality.functional_extensionality_dep`
* `C133_positive_refuted` (`Lsq_Props`): `ClassicalDedekindReals.sig_not_dec`, `ClassicalDedekindReals.sig_forall_dec`, `FunctionalExtensionality.functional_extensionality_dep`
* `C133_scale_partial` (`Lsq_Props`): `ClassicalDedekindReals.sig_not_dec`, `ClassicalDedekindReals.sig_forall_dec`, `FunctionalExtensionality.functional_extensionality_dep`
* `C133_statistics_partial` (`Lsq_Props`): `ClassicalDedekindReals.sig_not_dec`, `ClassicalDedekindReals.sig_forall_dec`, `FunctionalExtensionality.functional_extensionality_dep`
* `C134_arch_refuted` (`Darts_Props`): `ClassicalDedekindReals.sig_forall_dec`, `FunctionalExtensionality.functional_extensionality_dep`
* `C134_first_partial` (`Darts_Props`): `ClassicalDedekindReals.sig_forall_dec`, `FunctionalExtensionality.functional_extensionality_dep`
* `C134_refuted` (`Darts_Props`): `ClassicalDedekindReals.sig_forall_dec`, `FunctionalExtensionality.functional_extensionality_dep`
* `C134_run_partial` (`Darts_Props`): `ClassicalDedekindReals.sig_forall_dec`, `FunctionalExtensionality.functional_extensionality_dep`
* `C135_refuted` (`Darts_Props`): `ClassicalDedekindReals.sig_forall_dec`, `FunctionalExtensionality.functional_extensionality_dep`
* `C135_run_partial` (`Darts_Props`): `ClassicalDedekindReals.sig_forall_dec`, `FunctionalExtensionality.functional_extensionality_dep`
* `C136_accepts` (`Darts_Props`): `ClassicalDedekindReals.sig_forall_dec`, `FunctionalExtensionality.functional_extensionality_dep`
* `C136_logs` (`Darts_Props`): `ClassicalDedekindReals.sig_forall_dec`, `FunctionalExtensionality.functional_extensionality_dep`
* `C136_restored` (`Darts_Props`): `ClassicalDedekindReals.sig_forall_dec`, `FunctionalExtensionality.functional_extensionality_dep`
* `C137_finetune_partial` (`Dsnas_Props`): `ClassicalDedekindReals.sig_forall_dec`
* `C137_frozen` (`Dsnas_Props`): `ClassicalDedekindReals.sig_forall_dec`
* `C137_mutator` (`Dsnas_Props`): `ClassicalDedekindReals.sig_forall_dec`
* `C137_refuted` (`Dsnas_Props`): `ClassicalDedekindReals.sig_forall_dec`
* `C139_loss_partial` (`Dsnas_Props`): `ClassicalDedekindReals.sig_forall_dec`
* `C139_none` (`Dsnas_Props`): `ClassicalDedekindReals.sig_forall_dec`
* `C139_refuted` (`Dsnas_Props`): `ClassicalDedekindReals.sig_forall_dec`, `FunctionalExtensionality.functional_extensionality_dep`
* `C139_step_partial` (`Dsnas_Props`): `ClassicalDedekindReals.sig_forall_dec`
* `C140_refuted` (`Dsnas_Props`): `ClassicalDedekindReals.sig_forall_dec`
* `C140_runs_partial` (`Dsnas_Props`): `ClassicalDedekindReals.sig_forall_dec`
* `C143_dafl_partial` (`DataFree_Props`): `ClassicalDedekindReals.sig_forall_dec`, `FunctionalExtensionality.functional_extensionality_dep`
* `C143_dafl_refuted` (`DataFree_Props`): `ClassicalDedekindReals.sig_forall_dec`, `FunctionalExtensionality.functional_extensionality_dep`
* `C143_first_refuted` (`DataFree_Props`): `ClassicalDedekindReals.sig_forall_dec`, `FunctionalExtensionality.functional_extensionality_dep`
* `C143_ideal_partial` (`DataFree_Props`): `ClassicalDedekindReals.sig_forall_dec`, `FunctionalExtensionality.functional_extensionality_dep`
* `C143_refuted` (`DataFree_Props`): `ClassicalDedekindReals.sig_forall_dec`, `FunctionalExtensionality.functional_extensionality_dep`
* `C143_run_partial` (`DataFree_Props`): `ClassicalDedekindReals.sig_forall_dec`, `FunctionalExtensionality.functional_extensionality_dep`
* `C144_dafl` (`DataFree_Props`): `ClassicalDedekindReals.sig_forall_dec`
* `C144_logs` (`DataFree_Props`): `ClassicalDedekindReals.sig_forall_dec`, `FunctionalExtensionality.functional_extensionality_dep`
* `C144_rounds` (`DataFree_Props`): `ClassicalDedekindReals.sig_forall_dec`
* `C160_loss` (`Ofd_Props`): `ClassicalDedekindReals.sig_forall_dec`, `FunctionalExtensionality.functional_extensionality_dep`
* `C160_mean` (`Ofd_Props`): `ClassicalDedekindReals.sig_not_dec`, `ClassicalDedekindReals.sig_forall_dec`, `FunctionalExtensionality.functional_extensionality_dep`, `Classical_Prop.classic`
* `C160_negative` (`Ofd_Props`): `ClassicalDedekindReals.sig_not_dec`, `ClassicalDedekindReals.sig_forall_dec`, `FunctionalExtensionality.functional_extensionality_dep`, `Classical_Prop.classic`
* `C161_connect` (`Ofd2_Props`): `ClassicalDedekindReals.sig_not_dec`, `ClassicalDedekindReals.sig_forall_dec`, `FunctionalExtensionality.functional_extensionality_dep`
* `C161_init` (`Ofd2_Props`): `ClassicalDedekindReals.sig_not_dec`, `ClassicalDedekindReals.sig_forall_dec`, `FunctionalExtensionality.functional_extensionality_dep`
* `C161_unknown` (`Ofd2_Props`): `ClassicalDedekindReals.sig_not_dec`, `ClassicalDedekindReals.sig_forall_dec`, `FunctionalExtensionality.functional_extensionality_dep`
* `C163_convex` (`Fuse_Props`): `ClassicalDedekindReals.sig_not_dec`, `ClassicalDedekindReals.sig_forall_dec`, `FunctionalExtensionality.functional_extensionality_dep`, `Classical_Prop.classic`
* `C163_pooled` (`Fuse_Props`): `ClassicalDedekindReals.sig_not_dec`, `ClassicalDedekindReals.sig_forall_dec`, `FunctionalExtensionality.functional_extensionality_dep`, `Classical_Prop.classic`
* `C163_shares` (`Fuse_Props`): `ClassicalDedekindReals.sig_not_dec`, `ClassicalDedekindReals.sig_forall_dec`, `FunctionalExtensionality.functional_extensionality_dep`, `Classical_Prop.classic`
* `C163_sharp` (`Fuse_Props`): `ClassicalDedekindReals.sig_not_dec`, `ClassicalDedekindReals.sig_forall_dec`, `FunctionalExtensionality.functional_extensionality_dep`, `Classical_Prop.classic`
* `C163_unpruned` (`Fuse_Props`): `ClassicalDedekindReals.sig_not_dec`, `ClassicalDedekindReals.sig_forall_dec`, `FunctionalExtensionality.functional_extensionality_dep`, `Classical_Prop.classic`
* `C164_all` (`Fuse2_Props`): `ClassicalDedekindReals.sig_forall_dec`
* `C164_dcff` (`Fuse2_Props`): `ClassicalDedekindReals.sig_not_dec`, `ClassicalDedekindReals.sig_forall_dec`, `FunctionalExtensionality.functional_extensionality_dep`, `Classical_Prop.classic`
* `C164_exports` (`Fuse2_Props`): `ClassicalDedekindReals.sig_forall_dec`
* `C164_fuse_partial` (`Fuse2_Props`): `ClassicalDedekindReals.sig_forall_dec`, `FunctionalExtensionality.functional_extensionality_dep`
* `C164_fuse_refuted` (`Fuse2_Props`): `ClassicalDedekindReals.sig_forall_dec`
* `C164_groups` (`Fuse2_Props`): `ClassicalDedekindReals.sig_forall_dec`
* `C164_square` (`Fuse2_Props`): `ClassicalDedekindReals.sig_forall_dec`
* `C164_static` (`Fuse2_Props`): `ClassicalDedekindReals.sig_forall_dec`
* `C165_temperature` (`Fuse2_Props`): `ClassicalDedekindReals.sig_not_dec`, `ClassicalDedekindReals.sig_forall_dec`, `FunctionalExtensionality.functional_extensionality_dep`, `Classical_Prop.classic`
* `C178_channel` (`Connector2_Props`): `ClassicalDedekindReals.sig_not_dec`, `ClassicalDedekindReals.sig_forall_dec`, `FunctionalExtensionality.functional_extensionality_dep`
* `C178_order` (`Connector2_Props`): `ClassicalDedekindReals.sig_not_dec`, `ClassicalDedekindReals.sig_forall_dec`, `FunctionalExtensionality.functional_extensionality_dep`, `Classical_Prop.classic`
* `C178_spatial` (`Connector2_Props`): `ClassicalDedekindReals.sig_not_dec`, `ClassicalDedekindReals.sig_forall_dec`, `FunctionalExtensionality.functional_extensionality_dep`
* `C179_scale` (`Connector2_Props`): `ClassicalDedekindReals.sig_not_dec`, `ClassicalDedekindReals.sig_forall_dec`, `FunctionalExtensionality.functional_extensionality_dep`
* `C179_similarity` (`Connector2_Props`): `ClassicalDedekindReals.sig_not_dec`, `ClassicalDedekindReals.sig_forall_dec`, `FunctionalExtensionality.functional_extensionality_dep`
* `C179_unit` (`Connector2_Props`): `ClassicalDedekindReals.sig_not_dec`, `ClassicalDedekindReals.sig_forall_dec`, `FunctionalExtensionality.functional_extensionality_dep`
* `C180_forward` (`Connector2_Props`): `ClassicalDedekindReals.sig_forall_dec`, `FunctionalExtensionality.functional_extensionality_dep`
* `C180_masked` (`Connector2_Props`): `ClassicalDedekindReals.sig_forall_dec`, `FunctionalExtensionality.functional_extensionality_dep`
* `C180_ratio` (`Connector2_Props`): `ClassicalDedekindReals.sig_forall_dec`, `FunctionalExtensionality.functional_extensionality_dep`
* `C207_float` (`AdaptivePad_Props`): `ClassicalDedekindReals.sig_not_dec`, `ClassicalDedekindReals.sig_forall_dec`, `FunctionalExtensionality.functional_extensionality_dep`, `Classical_Prop.classic`
* `C247_centred` (`Kriging_Props`): `ClassicalDedekindReals.sig_not_dec`, `ClassicalDedekindReals.sig_forall_dec`, `FunctionalExtensionality.functional_extensionality_dep`
* `C247_constant_column` (`Kriging_Props`): `ClassicalDedekindReals.sig_not_dec`, `ClassicalDedekindReals.sig_forall_dec`, `FunctionalExtensionality.functional_extensionality_dep`
* `C247_order_kept` (`Kriging_Props`): `ClassicalDedekindReals.sig_not_dec`, `ClassicalDedekindReals.sig_forall_dec`, `FunctionalExtensionality.functional_extensionality_dep`
* `C247_prepare` (`Kriging_Props`): `ClassicalDedekindReals.sig_not_dec`, `ClassicalDedekindReals.sig_forall_dec`, `FunctionalExtensionality.functional_extensionality_dep`
* `C247_put_back` (`Kriging_Props`): `ClassicalDedekindReals.sig_not_dec`, `ClassicalDedekindReals.sig_forall_dec`, `FunctionalExtensionality.functional_extensionality_dep`
* `C247_unit_variance_partial` (`Kriging_Props`): `ClassicalDedekindReals.sig_not_dec`, `ClassicalDedekindReals.sig_forall_dec`, `FunctionalExtensionality.functional_extensionality_dep`
* `C247_unit_variance_refuted` (`Kriging_Props`): `ClassicalDedekindReals.sig_not_dec`, `ClassicalDedekindReals.sig_forall_dec`, `FunctionalExtensionality.functional_extensionality_dep`
* `C250_balanced` (`AdaptivePad_Props`): `ClassicalDedekindReals.sig_not_dec`, `ClassicalDedekindReals.sig_forall_dec`, `FunctionalExtensionality.functional_extensionality_dep`, `Classical_Prop.classic`
* `C250_least` (`AdaptivePad_Props`): `ClassicalDedekindReals.sig_not_dec`, `ClassicalDedekindReals.sig_forall_dec`, `FunctionalExtensionality.functional_extensionality_dep`, `Classical_Prop.classic`
* `C250_output_size_partial` (`AdaptivePad_Props`): `ClassicalDedekindReals.sig_not_dec`, `ClassicalDedekindReals.sig_forall_dec`, `FunctionalExtensionality.functional_extensionality_dep`, `Classical_Prop.classic`
* `C250_pixels` (`AdaptivePad_Props`): `ClassicalDedekindReals.sig_not_dec`, `ClassicalDedekindReals.sig_forall_dec`, `FunctionalExtensionality.functional_extensionality_dep`, `Classical_Prop.classic`
* `C33_ints_partial` (`ItePrune_Props`): `ClassicalDedekindReals.sig_not_dec`, `ClassicalDedekindReals.sig_forall_dec`, `FunctionalExtensionality.functional_extensionality_dep`, `Classical_Prop.classic`
* `C33_ratios_partial` (`ItePrune_Props`): `ClassicalDedekindReals.sig_not_dec`, `ClassicalDedekindReals.sig_forall_dec`, `FunctionalExtensionality.functional_extensionality_dep`, `Classical_Prop.classic`
* `C33_ratios_refuted` (`ItePrune_Props`): `ClassicalDedekindReals.sig_not_dec`, `ClassicalDedekindReals.sig_forall_dec`, `FunctionalExtensionality.functional_extensionality_dep`, `Classical_Prop.classic`
* `C66_final_partial` (`ItePrune_Props`): `ClassicalDedekindReals.sig_not_dec`, `ClassicalDedekindReals.sig_forall_dec`, `FunctionalExtensionality.functional_extensionality_dep`, `Classical_Prop.classic`
* `C85_minimum` (`Loss_Props`): `ClassicalDedekindReals.sig_not_dec`, `ClassicalDedekindReals.sig_forall_dec`, `FunctionalExtensionality.functional_extensionality_dep`, `Classical_Prop.classic`
* `C85_temperature` (`Loss_Props`): `ClassicalDedekindReals.sig_not_dec`, `ClassicalDedekindReals.sig_forall_dec`, `FunctionalExtensionality.functional_extensionality_dep`, `Classical_Prop.classic`
* `C85_value` (`Loss_Props`): `ClassicalDedekindReals.sig_not_dec`, `ClassicalDedekindReals.sig_forall_dec`, `FunctionalExtensionality.functional_extensionality_dep`, `Classical_Prop.classic`
* `C86_minimum` (`Loss_Props`): `ClassicalDedekindReals.sig_not_dec`, `ClassicalDedekindReals.sig_forall_dec`, `FunctionalExtensionality.functional_extensionality_dep`, `Classical_Prop.classic`
* `C86_value` (`Loss_Props`): `ClassicalDedekindReals.sig_not_dec`, `ClassicalDedekindReals.sig_forall_dec`, `FunctionalExtensionality.functional_extensionality_dep`, `Classical_Prop.classic`
* `C87_decomposition` (`Loss2_Props`): `ClassicalDedekindReals.sig_not_dec`, `ClassicalDedekindReals.sig_forall_dec`, `FunctionalExtensionality.functional_extensionality_dep`, `Classical_Prop.classic`
* `C87_leak` (`Loss2_Props`): `ClassicalDedekindReals.sig_not_dec`, `ClassicalDedekindReals.sig_forall_dec`, `FunctionalExtensionality.functional_extensionality_dep`
* `C87_mask_refuted` (`Loss2_Props`): `ClassicalDedekindReals.sig_not_dec`, `ClassicalDedekindReals.sig_forall_dec`, `FunctionalExtensionality.functional_extensionality_dep`, `Classical_Prop.classic`
* `C87_minimum` (`Loss2_Props`): `ClassicalDedekindReals.sig_not_dec`, `ClassicalDedekindReals.sig_forall_dec`, `FunctionalExtensionality.functional_extensionality_dep`, `Classical_Prop.classic`
* `C87_nckd_partial` (`Loss2_Props`): `ClassicalDedekindReals.sig_not_dec`, `ClassicalDedekindReals.sig_forall_dec`, `FunctionalExtensionality.functional_extensionality_dep`, `Classical_Prop.classic`
* `C87_reduction_partial` (`Loss2_Props`): `ClassicalDedekindReals.sig_not_dec`, `ClassicalDedekindReals.sig_forall_dec`, `FunctionalExtensionality.functional_extensionality_dep`, `Classical_Prop.classic`
* `C87_reduction_refuted` (`Loss2_Props`): `ClassicalDedekindReals.sig_not_dec`, `ClassicalDedekindReals.sig_forall_dec`, `FunctionalExtensionality.functional_extensionality_dep`, `Classical_Prop.classic`
* `C87_tckd` (`Loss2_Props`): `ClassicalDedekindReals.sig_not_dec`, `ClassicalDedekindReals.sig_forall_dec`, `FunctionalExtensionality.functional_extensionality_dep`, `Classical_Prop.classic`
* `C88_bounds` (`Loss3_Props`): `ClassicalDedekindReals.sig_not_dec`, `ClassicalDedekindReals.sig_forall_dec`, `FunctionalExtensionality.functional_extensionality_dep`, `Classical_Prop.classic`
* `C88_value` (`Loss3_Props`): `ClassicalDedekindReals.sig_not_dec`, `ClassicalDedekindReals.sig_forall_dec`, `FunctionalExtensionality.functional_extensionality_dep`, `Classical_Prop.classic`
* `C88_weight` (`Loss3_Props`): `ClassicalDedekindReals.sig_not_dec`, `ClassicalDedekindReals.sig_forall_dec`, `FunctionalExtensionality.functional_extensionality_dep`, `Classical_Prop.classic`
* `C89_entropy` (`Loss3_Props`): `ClassicalDedekindReals.sig_not_dec`, `ClassicalDedekindReals.sig_forall_dec`, `FunctionalExtensionality.functional_extensionality_dep`, `Classical_Prop.classic`
* `C89_onehot` (`Loss3_Props`): `ClassicalDedekindReals.sig_not_dec`, `ClassicalDedekindReals.sig_forall_dec`, `FunctionalExtensionality.functional_extensionality_dep`, `Classical_Prop.classic`
* `C90_ab_value` (`Regress_Props`): `ClassicalDedekindReals.sig_forall_dec`, `FunctionalExtensionality.functional_extensionality_dep`
* `C90_ab_zero` (`Regress_Props`): `ClassicalDedekindReals.sig_forall_dec`, `FunctionalExtensionality.functional_extensionality_dep`
* `C90_ofd` (`Regress_Props`): `ClassicalDedekindReals.sig_forall_dec`, `FunctionalExtensionality.functional_extensionality_dep`
* `C91_batchmean_refuted` (`Regress_Props`): `ClassicalDedekindReals.sig_forall_dec`, `FunctionalExtensionality.functional_extensionality_dep`
* `C91_l1` (`Regress_Props`): `ClassicalDedekindReals.sig_forall_dec`, `FunctionalExtensionality.functional_extensionality_dep`
* `C91_l2_normalized` (`Regress_Props`): `ClassicalDedekindReals.sig_not_dec`, `ClassicalDedekindReals.sig_forall_dec`, `FunctionalExtensionality.functional_extensionality_dep`
* `C91_l2_plain` (`Regress_Props`): `ClassicalDedekindReals.sig_not_dec`, `ClassicalDedekindReals.sig_forall_dec`, `FunctionalExtensionality.functional_extensionality_dep`
* `C91_l2_zero` (`Regress_Props`): `ClassicalDedekindReals.sig_not_dec`, `ClassicalDedekindReals.sig_forall_dec`, `FunctionalExtensionality.functional_extensionality_dep`
* `C91_mgd` (`Regress_Props`): `ClassicalDedekindReals.sig_forall_dec`, `FunctionalExtensionality.functional_extensionality_dep`
* `C91_nan` (`Regress_Props`): `ClassicalDedekindReals.sig_not_dec`, `ClassicalDedekindReals.sig_forall_dec`, `FunctionalExtensionality.functional_extensionality_dep`
* `C91_nan_refuted` (`Regress_Props`): `ClassicalDedekindReals.sig_not_dec`, `ClassicalDedekindReals.sig_forall_dec`, `FunctionalExtensionality.functional_extensionality_dep`
* `C92_at_bounds` (`Regress2_Props`): `ClassicalDedekindReals.sig_not_dec`, `ClassicalDedekindReals.sig_forall_dec`, `FunctionalExtensionality.functional_extensionality_dep`
* `C92_at_scale` (`Regress2_Props`): `ClassicalDedekindReals.sig_not_dec`, `ClassicalDedekindReals.sig_forall_dec`, `FunctionalExtensionality.functional_extensionality_dep`
* `C92_at_value` (`Regress2_Props`): `ClassicalDedekindReals.sig_not_dec`, `ClassicalDedekindReals.sig_forall_dec`, `FunctionalExtensionality.functional_extensionality_dep`
* `C92_at_zero` (`Regress2_Props`): `ClassicalDedekindReals.sig_not_dec`, `ClassicalDedekindReals.sig_forall_dec`, `FunctionalExtensionality.functional_extensionality_dep`
* `C92_ft_value` (`Regress2_Props`): `ClassicalDedekindReals.sig_not_dec`, `ClassicalDedekindReals.sig_forall_dec`, `FunctionalExtensionality.functional_extensionality_dep`
* `C92_ft_zero` (`Regress2_Props`): `ClassicalDedekindReals.sig_not_dec`, `ClassicalDedekindReals.sig_forall_dec`, `FunctionalExtensionality.functional_extensionality_dep`
* `C93_bounds` (`Regress3_Props`): `ClassicalDedekindReals.sig_not_dec`, `ClassicalDedekindReals.sig_forall_dec`, `FunctionalExtensionality.functional_extensionality_dep`
* `C93_correlation_partial` (`Regress3_Props`): `ClassicalDedekindReals.sig_not_dec`, `ClassicalDedekindReals.sig_forall_dec`, `FunctionalExtensionality.functional_extensionality_dep`
* `C93_correlation_refuted` (`Regress3_Props`): `ClassicalDedekindReals.sig_not_dec`, `ClassicalDedekindReals.sig_forall_dec`, `FunctionalExtensionality.functional_extensionality_dep`
* `C93_nan_refuted` (`Regress3_Props`): `ClassicalDedekindReals.sig_not_dec`, `ClassicalDedekindReals.sig_forall_dec`, `FunctionalExtensionality.functional_extensionality_dep`
* `C93_resize_refuted` (`Regress3_Props`): `ClassicalDedekindReals.sig_not_dec`, `ClassicalDedekindReals.sig_forall_dec`, `FunctionalExtensionality.functional_extensionality_dep`
* `C93_value` (`Regress3_Props`): `ClassicalDedekindReals.sig_not_dec`, `ClassicalDedekindReals.sig_forall_dec`, `FunctionalExtensionality.functional_extensionality_dep`
* `C93_zero` (`Regress3_Props`): `ClassicalDedekindReals.sig_not_dec`, `ClassicalDedekindReals.sig_forall_dec`, `FunctionalExtensionality.functional_extensionality_dep`
* `C94_identical` (`Regress4_Props`): `ClassicalDedekindReals.sig_not_dec`, `ClassicalDedekindReals.sig_forall_dec`, `FunctionalExtensionality.functional_extensionality_dep`
* `C94_identical_refuted` (`Regress4_Props`): `ClassicalDedekindReals.sig_not_dec`, `ClassicalDedekindReals.sig_forall_dec`, `FunctionalExtensionality.functional_extensionality_dep`
* `C94_one_sample` (`Regress4_Props`): `ClassicalDedekindReals.sig_not_dec`, `ClassicalDedekindReals.sig_forall_dec`, `FunctionalExtensionality.functional_extensionality_dep`
* `C94_range` (`Regress4_Props`): `ClassicalDedekindReals.sig_not_dec`, `ClassicalDedekindReals.sig_forall_dec`, `FunctionalExtensionality.functional_extensionality_dep`
* `C94_shift` (`Regress4_Props`): `ClassicalDedekindReals.sig_not_dec`, `ClassicalDedekindReals.sig_forall_dec`, `FunctionalExtensionality.functional_extensionality_dep`, `Classical_Prop.classic`
* `C94_value` (`Regress4_Props`): `ClassicalDedekindReals.sig_not_dec`, `ClassicalDedekindReals.sig_forall_dec`, `FunctionalExtensionality.functional_extensionality_dep`
* `C95_angle_bounds` (`Regress5_Props`): `ClassicalDedekindReals.sig_not_dec`, `ClassicalDedekindReals.sig_forall_dec`, `FunctionalExtensionality.functional_extensionality_dep`
* `C95_angle_moved` (`Regress5_Props`): `ClassicalDedekindReals.sig_not_dec`, `ClassicalDedekindReals.sig_forall_dec`, `FunctionalExtensionality.functional_extensionality_dep`
* `C95_angle_value` (`Regress5_Props`): `ClassicalDedekindReals.sig_not_dec`, `ClassicalDedekindReals.sig_forall_dec`, `FunctionalExtensionality.functional_extensionality_dep`
* `C95_distance` (`Regress5_Props`): `ClassicalDedekindReals.sig_not_dec`, `ClassicalDedekindReals.sig_forall_dec`, `FunctionalExtensionality.functional_extensionality_dep`
* `C95_nan` (`Regress5_Props`): `ClassicalDedekindReals.sig_not_dec`, `ClassicalDedekindReals.sig_forall_dec`, `FunctionalExtensionality.functional_extensionality_dep`
* `C95_nan_refuted` (`Regress5_Props`): `ClassicalDedekindReals.sig_not_dec`, `ClassicalDedekindReals.sig_forall_dec`, `FunctionalExtensionality.functional_extensionality_dep`
* `C95_value` (`Regress5_Props`): `ClassicalDedekindReals.sig_not_dec`, `ClassicalDedekindReals.sig_forall_dec`, `FunctionalExtensionality.functional_extensionality_dep`
* `C95_zero` (`Regress5_Props`): `ClassicalDedekindReals.sig_not_dec`, `ClassicalDedekindReals.sig_forall_dec`, `FunctionalExtensionality.functional_extensionality_dep`
* `C96_activation` (`Regress6_Props`): `ClassicalDedekindReals.sig_not_dec`, `ClassicalDedekindReals.sig_forall_dec`, `FunctionalExtensionality.functional_extensionality_dep`
* `C96_ce` (`Regress6_Props`): `ClassicalDedekindReals.sig_not_dec`, `ClassicalDedekindReals.sig_forall_dec`, `FunctionalExtensionality.functional_extensionality_dep`, `Classical_Prop.classic`
* `C96_fbkd` (`Regress6_Props`): `ClassicalDedekindReals.sig_not_dec`, `ClassicalDedekindReals.sig_forall_dec`, `FunctionalExtensionality.functional_extensionality_dep`
* `C96_soft_ce` (`Regress6_Props`): `ClassicalDedekindReals.sig_not_dec`, `ClassicalDedekindReals.sig_forall_dec`, `FunctionalExtensionality.functional_extensionality_dep`, `Classical_Prop.classic`
* `C97_constants` (`Contrast_Props`): `ClassicalDedekindReals.sig_not_dec`, `ClassicalDedekindReals.sig_forall_dec`, `FunctionalExtensionality.functional_extensionality_dep`
* `C97_first_batch` (`Contrast_Props`): `ClassicalDedekindReals.sig_not_dec`, `ClassicalDedekindReals.sig_forall_dec`, `FunctionalExtensionality.functional_extensionality_dep`
* `C97_memory` (`Contrast_Props`): `ClassicalDedekindReals.sig_not_dec`, `ClassicalDedekindReals.sig_forall_dec`, `FunctionalExtensionality.functional_extensionality_dep`
* `C97_monotone` (`Contrast_Props`): `ClassicalDedekindReals.sig_not_dec`, `ClassicalDedekindReals.sig_forall_dec`, `FunctionalExtensionality.functional_extensionality_dep`, `Classical_Prop.classic`
* `C97_outputs` (`Contrast_Props`): `ClassicalDedekindReals.sig_not_dec`, `ClassicalDedekindReals.sig_forall_dec`, `FunctionalExtensionality.functional_extensionality_dep`
* `C97_positive` (`Contrast_Props`): `ClassicalDedekindReals.sig_not_dec`, `ClassicalDedekindReals.sig_forall_dec`, `FunctionalExtensionality.functional_extensionality_dep`, `Classical_Prop.classic`
* `C97_total` (`Contrast_Props`): `ClassicalDedekindReals.sig_not_dec`, `ClassicalDedekindReals.sig_forall_dec`, `FunctionalExtensionality.functional_extensionality_dep`, `Classical_Prop.classic`
* `C97_value` (`Contrast_Props`): `ClassicalDedekindReals.sig_not_dec`, `ClassicalDedekindReals.sig_forall_dec`, `FunctionalExtensionality.functional_extensionality_dep`, `Classical_Prop.classic`
* `C97_weight_refuted` (`Contrast_Props`): `ClassicalDedekindReals.sig_not_dec`, `ClassicalDedekindReals.sig_forall_dec`, `FunctionalExtensionality.functional_extensionality_dep`, `Classical_Prop.classic`

Those four are axioms of Coq's standard library (real numbers and classical logic); they enter through
Flocq's theory of rounding and, for the losses (C85 onwards where listed), through the real numbers the
statements are about. Loading the libraries also makes `coqchk`-style audits list the axioms of
`Coq.Reals.Rdefinitions` and the sealed constants of `Coq.ssr.ssrunder`; no theorem depends on the latter.
Mathcomp, std++, Iris, Equations and CoqHammer are not used.

## Trusted base

* The Coq 8.16.1 kernel and `coqc`.
* The standard library axioms listed above. No axioms of our own; every `Variable`/`Hypothesis` lives in a
  section and is discharged into the statement of the theorem.
* Faithfulness of the model to the Python text, as cited per definition.
* Where a model takes a function parameter with assumed laws, the theorem is about every function with these
  laws; that the library routine has them is trusted:
  * `Derived`: `int(k * ratio)` is a parameter, monotone where stated.
  * `Module`/`ModuleForward`: outputs form a commutative monoid, scaling by 1 and 0 acts as expected.
  * `Dynamic`, `Expand`: exact ring laws for weights and activations (floating-point rounding of
    convolutions and sums is outside the model).
  * `Sampler`: `math.cos(math.pi * x)` with its range; `Dmcp`: `exp`, `log` as parameters.
  * `Evolution`: the estimator and the evaluator are functions (deterministic per call where stated);
    `round(x, 2)` is a parameter.
  * `SparseGpt`: Cholesky factor and `topk` as parameters; `Gptq`: Hessian factor, permutation, dead columns,
    `pow` as parameters; `GroupFisher`: rounded `x + 1` and `argmin` as parameters with laws.
  * `Crd`: numpy's reaction to ragged arrays and random draws as parameters.

## Simplifications

* Exact rational arithmetic in place of float32/float64 unless the property is about rounding (C03, C04, C33,
  C34, C66 and the DMCP width use binary64): Candidates, Evolution, Greedy, Sampler, Calibrate, Estimator,
  SparseGpt, Gptq, GroupFisher, Crd, Alias, make_divisible.
* Group Fisher importances are rationals plus infinity and NaN; `all_reduce` and the `act` normalisation are
  not modelled; thresholds are printed as exact half-even rounding to two digits.
* GPTQ: no half precision; converting -1 to uint32 gives 2^32-1 (x86); `mse` together with `trits` is not
  modelled. SparseGPT: no NaN; device moves not modelled; the product `cols * sparsity` is exact.
* Choices of mutables are opaque strings in `FixSubnet`, `Evolution`; group-name prefixes in `Groups` are not
  modelled. `ItePrune`: `set_choices` stores exact numbers.
* Calibrate: statistics of one layer have constant length; the momentum update is a parameter.
* Engine: data loaders are fixed lists of batches; observers' accumulated state beyond the estimate and the
  message hub are not modelled; `int(s)` without blanks and underscores.
* DMCP: one value per channel; broadcasting of a one-group probability is not modelled.
* Tracer: the autograd graph is unfolded to a tree with resolved layer names; the order of Python sets is
  unspecified (order of first occurrence in the model, theorems speak about membership only).
* Losses: tensor entries are Coq's real numbers; torch's `softmax`, `log_softmax`, `kl_div`, `cross_entropy`
  are written out from their documentation; rounding, overflow and gradients are not modelled. In `Regress`
  a result torch returns as NaN is `None`; `F.interpolate` is a parameter; `KDSoftCELoss` only with reduction
  'mean', no weight and no `avg_factor`. `Contrast`: a division by a zero norm is excluded by hypothesis.
* Expand: the entries of a weight at one (out, in) position are one value; `masked_scatter_` acts on those.
* ChannelGraph: a graph is the list of its nodes in topological order; shared modules are merged in that order;
  elements created and dropped at once by `cat` and slicing are left out; `frozenset.__hash__` is a parameter.

* Mutator: module names are numbers; a module is described by whether it has parameters and is dynamic; two
  formatted unit names are equal only if their parts are; the tracer's result is a parameter; type 'Predefined'
  is modelled in `Predefined`, without choices. Random numbers are parameters within the range of `randint`.
* Predefined: a mutable in a container is known by the channel mutables it comes from; reading its
  `current_choice` (value unused) is left out; replacing static ops is not modelled.
* Train: mmengine's `OptimWrapper` is written out from its documentation; parameters, gradients, the forward pass and
  the optimizer are parameters; `set_dropout`, automatic mixed precision and gradient clipping are not modelled.
* Register: a container and its slots are those of `Container_Model`; a mutable channel is named by its unit's
  position and its expand ratio; the masks of the units are given. Non-dynamic modules are `None`. Nothing is
  said about `parse_channel_node_configs` turning names back into modules.
* Onnx: protobuf messages are values compared by their fields; attributes of a node are opaque; tensors are opaque
  values, operators an arbitrary function; a node reached by reference is known by its position in the node list.
* Export: the attributes, scales and zero points of a node are opaque values with a range; the meaning of the operators
  is arbitrary in the theorems about outputs, and int8 arithmetic over small integer matrices in the refutations
  (`QuantizeLinear` and `DequantizeLinear` with the default axis 1, as in the ONNX specification). Files are left out.
  `FakeQuantize` is written from the OpenVINO specification; ranges are exact (reals in `ExportRange`, integers in the
  examples), so float32 rounding of the exported ends is not covered.
* FxQuant: nodes are known by numbers, modules by their dotted names and a test for fake quantizers; arguments are nodes,
  constants and flat lists of nodes (no deeper nesting, no slices). Fuel of the recursion is proved to suffice. `lint`
  checks the order of arguments. Iterating while erasing skips erased nodes, as `torch.fx` does.
* QuantTree: modules are trees of children with identities; a tensor is an opaque value, so copying it includes its
  shape and resizing, but not its type. Parameters shared by several modules and modules shared by several parents are
  not modelled (one parent with two names for a module is). Preparing a graph and its forward pass are functions.
* Lsq: numbers are reals, a tensor is the list of its channels (one for `LSQObserver`); the axis is moved first by the
  caller. `quant_max` is positive, one process (no `all_reduce`), equal numbers of channels or an error (no
  broadcasting). The zero points of `MinMaxObserver` and PyTorch's fake-quantize kernels are arbitrary functions.
* Darts: the weights and the architecture parameters are one vector of reals each and all of them take part in every loss;
  `accumulative_counts` is 1; gradients are references into a heap, so that `.grad` tensors kept by the code alias.
* Dsnas: all mutables are OneHotMutableOPs; gradients, samples, `argmax`, rewards, thresholds and flops are arbitrary
  functions; the copy whose flops are counted is fixed like the supernet; one process, `accumulative_counts` is 1.
* Distiller: recorded data are atoms and lists; connectors, losses, indexing of their outputs and `detach` are arbitrary functions.
  Mappings are dictionaries with the six known options; building the parts from configurations is not modelled.
* DataFree: weights of the student and of the generator are one vector each; gradients are arbitrary functions of noise and
  weights, the distillation losses have none for the generator (its images are detached); teachers are fixed.
* Attention: elements of any type with any addition and multiplication (no laws), `softmax` any function of a row, dropout the
  identity, `v_shortcut` False, inputs of three dimensions; no broadcasting; `int(n ** 0.5)` is the integer square root.
* Transformer bricks: `normalized_shape` has one entry, the statistics part of `F.layer_norm` is any function of a row,
  mutables have a `current_mask`; the defaults of mmcls `PatchEmbed` are kernel and stride 16, no padding, dilation 1, no norm.
* Searchable operations and backbones (`OpShapes_*`, `DartsNet_*`): a feature map is its channels and its two sides;
  values, batch size, activations, dropout and checkpointing are left out, layers are the default Conv2d and BN, a
  squeeze-and-excitation layer accepts what a batch norm of its width accepts.  All stages of a backbone share their
  candidates.  A DARTS node without inputs raises at once instead of at the `torch.cat` behind it.  For freezing, a stage
  is the list of its submodules with their mode and gradient flags.
* Module graph (`ModuleGraph_*`): the content of a node (a module, a function, a placeholder string) is a number, equal exactly
  for equal contents; `NoInputError` and `NoOutputError` are `GenericException`; the recursion of `_check` has a depth bound
  that is a parameter (the theorems hold for any); which contents are modules and which take a single input are parameters.
* OFD: `norm.cdf` is any function with the density of the standard normal distribution as derivative and limit 0 at minus infinity
  (one is constructed with Coquelicot); a feature is a list of channels; broadcasting of a single channel is left out.
* L1 units: weights are exact rationals, so there is no rounding and no NaN; which of equal norms `topk` takes is left open.
* DCFF: real numbers for binary floats; `topk` is any function returning the positions of k largest entries; `F.conv2d` is any function.
* Searchable MobileNetV3 (`Attentive_*`): as above; an argument `None` is the empty list (both are falsy); `make_divisible(c * widen_factor, 8)`
  is any function; missing keys of `arch_setting`, weight initialization and the inner width of the squeeze-and-excitation layers are left out.
* Searchable AutoFormer (`Autoformer_*`): numbers of tokens and features only; `int(k * ratio)` is any function that grows with both; the heads of
  the relative position embedding have 64 entries (`base_embed_dims`); at least one image in the batch; entries of one list have one type; missing keys are left out.
* Metric predictors (`Predictor_*`): choices are strings; what a handler learns, `np.int`, saving and the correlations are left out; given training
  samples are a `Candidates`; the search loop keeps only sampling, scoring and the pool; one process.
* Connectors (`Connector_*`): shapes, or exact reals for values; `math.log(out / in, 2)` is the exact logarithm; mmcv's NonLocal2d is written down
  from its documented behaviour (2x2 max pooling with `sub_sample`); `torch.rand` is an argument.
* Predictor handlers (`Handler_*`): an epoch of training, a loss and the fitting of a tree are parameters; numbers are exact rationals and a NaN is None; shuffles
  are arguments. Resource hook: mmengine's train loop increments its epoch and iterations before it validates.
* Distillation steps (`DistillStep_*`): what the networks compute is left out, as are checkpoints; module names contain neither quotes nor
  backslashes and `_modules` is an `OrderedDict`; gradients are kept by a pass exactly outside `no_grad`.

* CustomTracer: an ImportError is the generic exception; deepcopy of a module is a parameter; the recording done by torch.fx, inherited methods and
  attributes of None are left out.
* Deploy: classes are strings; torch's MinMaxObserver, FakeQuantize, lookup in a QConfigMapping, `to_float` and the batch norm folding are written down or
  parameters, as they are torch's; numbers are exact rationals; modules are not shared; a per-tensor scheme has one channel.
* Augment: numbers are exact rationals, so the ranges hold up to the rounding of floats; PIL is known by the calls it gets and is at least 5.2; `results` is
  its images and its fields; unregistered class names raise.
* Tools: numbers are exact rationals, the time of a CUDA pass is given; mmengine's DefaultScope, `DefaultOptimWrapperConstructor` and `os.path.join` are
  written down or parameters; drawing is known by file, name and step; all ranks gather at the same time and `all_reduce` is the sum.
* Wide: tensors are known by their shapes (and abstractly, for zero_init_residual); the demo inputs are known by shape, samples and training flag, and the
  preprocessors and packing functions of the other libraries are left out; versions are ASCII.
* Autotune: logarithms are exact; a kernel is a function on its output tensors, measuring calls it some number of times; pre_hook is None; the positions of
  the key arguments are given.
* FxTrace: namespaces are finite lists, ids of functions, classes, modules and frames are distinct; patching itself succeeds, and a frame dictionary met as a value of another frame is an instance of dict; traversal depth is bounded by fuel and the theorems speak of runs that finish; a module's forward is a list of operations, failures and module calls on one tensor; whether a forward is wrapped by the time it is called is a flag of the module; logging, parameter proxies and concrete_args are left out.
* Parts: interpolation is known by the sizes it gives and the checks it makes (of torch.nn.functional.interpolate); arrays are nested lists of rationals; generators are known by the shapes of their layers; of a model's blocks only class and rate, of its modules only kind, flag and children are kept. torch.nn.Module.train sets the flag and calls train of the children.
- Memory-efficient forward (`Offload_Model.v`): parameters and buffers are numbered, a device is the list of those on it, a forward pass is a tree of module calls and parameter reads, and reading one that is not there fails. Activations, gradients, `torch.cuda.empty_cache` and entries of `_parameters` that are None are left out; a pair of hooks has one handle.
- Backend operator tables (BackendCfg): torch modules, functions and methods are names, different names being different objects; torch's config classes are records of what the setters stored, a table maps a pattern to its config. Fuser methods are not modelled, and the fixed-parameter operators, a dictionary of torch, are a parameter.
- Signal-to-noise error (Snr): a tensor is a shape and its entries in row-major order, exact rationals; `lower()` on ASCII letters.
- Feature map drawing (Featmap): exact rationals, the quotient that is rounded is exact, `F.interpolate` and `torch.topk` are parameters with stated contracts, of the image only the size is modelled; convert_overlay_heatmap, matplotlib and cv2 are outside: the result lists the planes they are given.
- Heads and classifier (Heads): tensors, losses and accuracies are opaque, layers and attribute lookups are functions; the base classes of mmcls (loss, feature extraction, simple_test of the head) are parameters.
- Support_Model: `str.upper` is on ASCII letters; logging's table of names is the standard library's; a level that is a bool counts as an integer. The training loop around the fast-stop hook is mmengine's: `runner.iter` and `runner.epoch` are counted up after the hooks are called. A registry is the list of names it finds; `register_module` registers under the class's own name and raises KeyError if it is taken.
- Kriging_Model: numpy's floats are real numbers; a standard deviation of fewer than two rows (nan) is None; the fit itself, which pydacefit makes, is left out. Gptq_Model: `Err1.matmul(Hinv)` is subtracted column by column.
- AdaptivePad_Model: one channel of one image; the convolution itself is a parameter (its output size is torch's formula); the division of two ints is the division of their doubles, which is Python's for sizes of at most 2^53; that mmcv's Conv2dAdaptivePadding ignores its padding argument is taken from mmcv.
- Connect_Model: layers are functions; mmcv's assertion on the order of a ConvModule is part of the model; parameters are addresses, torch's named_parameters lists each address once.
- TritonKernel_Model: memory is a function from addresses to values, so a load past the end of a tensor is whatever is there; half and single precision are exact rationals; programs of the grid are run one after the other (C253 shows that they store in different places).
- LsqLoad_Model: torch's Module._load_from_state_dict is written down for tensors with at least one dimension (no conversion of types, no hooks, no extra state); resize_ fills with an arbitrary value.

## Modelled code

* `models/mutators/channel_mutator/channel_mutator.py`, `slimmable_channel_mutator.py` (subnets),
  `mutable_channel/units/channel_unit.py`, `mutable_channel_unit.py`, `units/utils.py`,
  `task_modules/tracer/channel_analyzer.py` (finding mutable units)

* `mmrazor/utils/index_dict.py`, `utils/misc.py`, `registry/registry.py` (sub-configuration handling)
* `models/mutables/mutable_channel/*` (simple, sequential, one-shot channels, container, unit choice
  arithmetic, L1 units), `models/mutables/derived_mutable.py`, `mutable_value.py`, `mutable_module/*`
* `models/utils/make_divisible.py`, `models/utils/expandable_utils/*`
* `structures/graph/base_graph.py`, `channel_flow.py` (union-find, tensors, hash caches), `channel_nodes.py`,
  `channel_graph.py` (forward, merging, unit configuration, expand nodes), `module_graph.py` (without `refresh_module_name`
  and the unused pass nodes), conversion from torch.fx in `pseudo_fx_graph.py`
* `structures/subnet/candidate.py`, `structures/subnet/fix_subnet.py`, `models/mutators/group_mixin.py`,
  `models/mutators/nas_mutator.py` (choices)
* `engine/runner/*`: evolution search, greedy search, sampler, DARTS, PTQ/QAT loops, slimmable, distill and
  subnet validation; `engine/runner/utils/*`; `engine/hooks/*` (dump subnet, DMCP subnet, stop distill, estimate resources)
* `models/task_modules/recorder/*`, `delivery/*`, `tracer/{backward_tracer,parsers,path}.py`,
  `estimators/*` (FLOPs/parameter counters, op counters, resource estimator)
* `models/distillers/{configurable,byot}_distiller.py`, `models/algorithms/distill/configurable/*.py` (steps), `models/algorithms/base.py` (in-place modules)
* `models/distillers/ofd_distiller.py`, `models/architectures/connectors/{ofd,byot,fbkd,crd,mgd}_connector.py`, `factor_transfer_connectors.py`
* training steps of `models/algorithms/nas/{autoslim,bignas,darts,dsnas}.py`, `pruning/slimmable_network.py`, `utils/optim_wrapper.py`
* `models/algorithms/pruning/{ite_prune_algorithm,dcff,dmcp}.py`, the DMCP mutator and batch norm
* `models/architectures/dynamic_ops/*` convolution and linear mixins, weight slicing, static export, FuseConv2d, `dcff_channel_mutator.py` (`calc_information`)
* `models/architectures/ops/transformer_series.py`, `dynamic_ops/bricks/{dynamic_multi_head_attention,dynamic_relative_position,dynamic_embed,dynamic_container}.py`, `DynamicLayerNorm` in `dynamic_norm.py` and `mixins/dynamic_layernorm_mixins.py`, registration in `mixins/dynamic_mixins.py`
* `models/architectures/ops/{base,common,darts_series,efficientnet_series,mobilenet_series,shufflenet_series}.py` (shapes), `backbones/{searchable_shufflenet_v2,searchable_mobilenet_v2,searchable_mobilenet_v3,searchable_autoformer,darts_backbone}.py` (construction, shapes, freezing), `architectures/utils/mutable_register.py`, `models/utils/parse_values.py`
* `datasets/crd_dataset_wrapper.py`, the alias table, memory and loss of `models/losses/crd_loss.py`
* `models/losses/*.py` (all distillation losses)
* `implementations/pruning/{sparse_gpt,group_fisher}/*`, `implementations/quantization/gptq/*`,
  `structures/quantization/qconfig.py`, `models/quantizers/exporters/*`,
  `task_modules/tracer/fx/graph_utils.py` and `TorchNativeQuantizer.del_redundant_fakequant`,
  `models/algorithms/quantization/mm_architecture.py` (modes, `sync_qparams`, resetting), `models/quantizers/base.py`,
  `models/fake_quants/lsq.py`, `models/observers/lsq.py` (except loading state dicts)
* `models/task_modules/predictor/metric_predictor.py`, `handler/rbf_handler.py` (its check), `handler/{mlp,carts}_handler.py`, `engine/runner/evolution_search_loop.py` (predictor)
* `models/task_modules/tracer/fx/custom_tracer.py` (registry of skipped methods, stand-ins, copies), `models/utils/quantization_util.py` (`str2class`)
* `models/quantizers/native_quantizer.py` (modes, qconfig mapping, `post_process_for_deploy`), `models/quantizers/academic_quantizer.py` (qconfig mapping),
  `models/quantizers/{openvino,tensorrt}_quantizer.py` (names of files), `models/algorithms/quantization/mm_architecture.py` (`_build_qmodels`, rewriter records),
  `models/utils/quantization_util.py` (`pop_rewriter_function_record`)
* `datasets/transforms/{auto_augment,auto_augmentv2,formatting}.py`
* `models/task_modules/estimators/counters/latency_counter.py`, `engine/hooks/visualization_hook.py` (files, names, steps), `utils/runtime_info.py`,
  `utils/setup_env.py` (scopes, thread variables), `engine/optimizers/optimizer_constructor.py`, `models/architectures/ops/gather_tensors.py`
* `models/architectures/backbones/wideresnet.py`, `models/task_modules/demo_inputs/*.py`, `version.py`
* `implementations/quantization/gptq/custom_autotune.py`
* `models/task_modules/tracer/fx_tracer.py` 44-206, 211-325: FxTrace_Model.
* `models/architectures/ops/function.py` 11-42, `dynamic_ops/bricks/dynamic_function.py` 12-42, `dynamic_ops/mixins/dynamic_mixins.py` 402-455, `necks/squeezemean_with_dropout.py`, `generators/` (shapes), `utils/set_dropout.py`, `task_modules/tracer/loss_calculator/sum_loss_calculator.py`, and the `train` methods of algorithms and searchable backbones: Parts_Model.
- `mmrazor/implementations/pruning/sparse_gpt/utils.py`: all functions (`Offload_Model.v`).
- structures/quantization/backend_config/{common_operator_config_utils,academic,native,openvino,tensorrt,mapping}.py: BackendCfg_Model.v.
- implementations/quantization/gptq/utils.py 6-56: Snr_Model.v. models/mutators/channel_mutator/one_shot_channel_mutator.py 30-70: Kinds_Model.v. visualization/local_visualizer.py: Featmap_Model.v. models/architectures/heads/{deit_head,darts_subnet_head}.py, models/architectures/classifiers/image.py: Heads_Model.v.
- utils/log_tools.py, testing/_fast_stop_training_hook.py, models/observers/torch_observers.py 48-66, models/fake_quants/torch_fake_quants.py 20-38, models/utils/utils.py: Support_Model.v.
- models/task_modules/predictor/handler/gp_handler.py: Kriging_Model.v.
- AdaptivePad_Model: dynamic_conv.py:226-286 (DynamicConv2dAdaptivePadding).
- Connect_Model: convmodule_connector.py, torch_connector.py, param_recorder.py with base_recorder.py.
- TritonKernel_Model: the two kernels of gptq/ops.py and their launches.
- TritonTune_Model: the lists of configurations in gptq/ops.py.
- LsqLoad_Model: lsq.py, _load_from_state_dict.

## Not modelled

PyTorch kernels, autograd, CUDA, distributed communication, the mmengine runner, configuration files, the
file system beyond sets of file names, real threads; FX graph tracing (`torch.fx`) and quantization
preparation of graphs; the other model zoo definitions (backbones, heads, necks);
visualisation hooks; deployment helpers; the learning inside predictor handlers (pySOT, pydacefit, scikit-learn, the MLP).

## Plan written before the proofs (C01-C54)

| id | model | proof idea |
|----|-------|-----------|
| C01 | `IndexDict`: list of ranges, `contains`, `setitem` | induction over insertions; refutation for enclosing ranges |
| C02 | container: `fill_unregistered_range`, mask concatenation | induction over the sorted range list; refutation for interior gaps |
| C03 | sequential mutable channel setter/getter | list lemmas on slices, history independence |
| C04 | ratio mode in IEEE binary64 (`SpecFloat`) | witness by computation, exact-arithmetic partial |
| C05 | `make_divisible` over Z and Q | nonlinear integer arithmetic |
| C06 | one-shot channel with an explicit heap for the default list | invariant; refutation of independence by history |
| C07 | state machine per mutable kind | case analysis over histories |
| C08 | derived mutables' choice and mask closures | counting lemmas; refutation for divide |
| C09 | one-shot op as finite map name -> function | rewriting |
| C10 | diff choice route | zip lemmas, history refutation |
| C11 | one-hot op threshold rule | witness; partial statement |
| C12 | base graph with adjacency lists | invariant over operations |
| C13 | Kahn traversal | invariant + permutation |
| C14 | union-find with path compression on parent maps | invariant, refinement to generated equivalence |
| C15 | candidates collection | list refinement, stable sort |
| C16 | constraint check | forall/iff |
| C17 | evolution epoch | sorting, top-k lemma, fold over epochs |
| C18 | resume arithmetic | refutation, partial for fresh start |
| C19 | checkpoint set | induction over epochs |
| C20 | crossover | induction over keys |
| C21, C22 | greedy search loop as a step function with crash points | simulation; refutation for resume |
| C23 | schedule in Q, pool | arithmetic; refutations |
| C24 | grouping | partition lemmas; refutation |
| C25 | export / load on named trees, `lstrip` | round trip; refutation for prefixes |
| C26 | bindings map with nested patch/restore | stack lemma; refutation for shared targets |
| C27 | recorder buffers | history induction |
| C28 | delivery queue | FIFO refinement; stale data refutation |
| C29 | hook + loss dictionary | temporal induction |
| C30-C32 | counters and estimator | tree induction; refutations |
| C33, C34 | pruning schedule | Z arithmetic; binary64 refutation |
| C35-C37 | slicing of weight matrices over an abstract ring | sum lemmas |
| C38 | weighted averages in Q | induction; refutation |
| C39 | multi loader | refutation; partial |
| C40 | CRD index lists | filter lemmas; refutation |
| C41, C42 | DMCP arithmetic | arithmetic; refutation |
| C43 | group fisher | argmin lemma; refutation at the 1e5 sentinel |
| C44 | expansion | masked_scatter lemmas; refutation for repeated expansion |
| C45-C47 | SparseGPT masks, Hessian mean, aliasing | sorting/counting; refutations |
| C48, C49 | quantizer arithmetic in Q, Z | rounding lemmas; refutation |
| C50-C52, C54 | small state machines | induction; refutations |
| C53 | tracer on finite DAGs | structural induction; refutation |

# Formal model of BRGM/razorback in Rocq (Coq 8.16.1)

Status of each property: `MANIFEST.json`. English properties: `properties.jsonl`.
Seeded-bug experiments: `seeded/LOG.jsonl`.

## 1. Shape of the development

* `theories/Base.v` - results with exceptions (`Ok` / `Err exn`), Python
  dictionaries, slices, stable sort.
* `theories/Arith.v` - the arithmetic on times and rates is a *parameter* of
  the model: a record `Arith` of operations (no laws inside). Two instances:
  `QA` (exact rationals `Qc`) and `FA` (IEEE-754 binary64, Flocq).
  The same definitions are therefore proved exact over `QA` and refuted (or
  proved, for power-of-two rates) over `FA`.
* `theories/*Model.v` - the code, function by function, each definition citing
  `/repo` lines. No proofs there.
* `theories/Spec*.v` - small specification vocabulary, independent of the
  model's helpers (e.g. `track S tag k`: the list of segments read through
  position `k` of a tag).
* `theories/*Proofs.v` - lemmas.
* `theories/Prop*.v` - only the property theorems, each followed by
  `Print Assumptions`, with non-vacuity `Example`s beside them.

Python exceptions are values. Python objects that are mutated become functions
returning the new value. Floating point NaN/inf exist in `FA` only.

## 2. Plan per property

| property | modelled | proof |
|---|---|---|
| C01-C03 | `Tags`: dict + range, attribute shadowing of `indices`, `items`, `keys`, `get`; reserved keyword names | invariant by induction over an operation list |
| C04 | all public constructors/operations of `SignalSet` as an expression language | induction over expressions; order laws only, so also binary64 |
| C05, C06 | `SignalSet.__init__` | stable sort uniqueness under distinct keys; iff by case analysis |
| C07-C09 | `select_channels`, `select_runs`, `__getitem__` | `track` equality |
| C10, C11 | `_reorder_data`, `join` | inverse index map lemma; sort/permutation |
| C12-C16, C27 | `extract_i`, `extract_t`, clamping, `floor`/`ceil` | rational arithmetic; Flocq for binary64 |
| C17-C21 | `merge` with its recursive interval search | induction on operand list; grid lemma |
| C22-C26 | `merge_consecutive_runs`, `_group_indices` | fold invariant over groups |
| C28, C29 | `SyncSignal.__init__`, `fourier_coefficients` | case analysis; transposition lemma |
| C30-C36 | `Inventory` | list induction; hash order as a universally quantified permutation |
| C37-C40 | `discrete_window`, `time_to_freq` | Z/Q arithmetic; real trigonometric sums |
| C41-C45 | `m_estimate` loop with numeric kernels as section variables; weight objects as state machines | induction on iterations / steps; the threshold of rejection for real weights from the last iteration (`ThresholdProofs.v`) |
| C46-C48, C61 | `wlse` with mathcomp matrices over a field with involution | matrix algebra |
| C49-C52 | weight functions over R | real analysis |
| C53-C55 | block partition, union | list lemmas; numeric kernel is a variable |
| C56-C60, C62, C63, C109 | `_impedance` control flow with failure oracles | case analysis |
| C64-C66 | path normalisation, pattern compiler, backtracking matcher | matcher soundness/completeness vs. relational semantics |
| C67-C71, C110 | Python slice arithmetic, byte-level file model, struct codec | Z arithmetic, list lemmas |
| C72-C74, C83, C84 | file lookup, calibration sections, click group, local data directory, Phoenix | case analysis |
| C75, C89, C92, C111 | equality, patterns and dictionary operations of tags | case analysis; matcher of C66 |
| C76, C77 | arrays of invalid indices, exact data in the iteration | case analysis; fixed point |
| C78-C80, C86 | leverages, robust weights under changes of units and order, bounds | matrix algebra; real analysis |
| C81, C114, C82, C85 | coefficient of determination, the filter on complex data, prefilter values, two stages with remotes | algebra; case analysis |
| C115, C116 | complete estimates: bias with and without remote reference, other units | normal equations of two stages, positive definiteness; simulation lifted through the stages and the Fourier coefficients |
| C117 | errors, shapes, silent failures of complete estimates | the kernels on lists keep shapes (`keep_shapes`, SpecUtils.v) and a solved problem has an invertible matrix of cross products (`errors_exist`); C56, C57, C109 applied to them |
| C118 | sinusoidal recordings give the transfer function between the fields | the sum of a window over whole periods keeps one of the two exponentials of a real sinusoid, so the coefficients of run r are the field times one phase per window (`tone_channel`); polarised runs are independent windows, and at most as many inputs as runs (`independent_le`, mathcomp ranks); then `whole_no_noise` of C117 |
| C125 | robust estimates of recordings without noise fail | the first least-squares solution is exact (`rows_exact`), so the scale of the residuals is 0 and some weight is 0/0 (`list_nan_call`, as in C97 for the kernels on lists); the error of one output is that of the stage (`each_fails`) and of the frequency, from any state of the weight objects |
| C126 | estimates do not depend on when the runs were recorded | a run's coefficients do not depend on its start; runs in another order give the coefficients in another order, one for all channels (`blocks`, `coefficients_moved`); the kernels on lists do not depend on the order of the rows (`list_order`, from the lemmas of C102 with a condition on the rows), nor do `T.dot(br)` (up to that order) and the errors (`dot_tks`, `error_tks`); rejected windows correspond and are as many (`same_rows_length`), at the same places of the same runs (`times_moved`) |
| C119 | estimates depend only on the channels of their tags | `agree` compares what the tags read (`tracks` of SpecSet.v); the coefficients of equal segments are equal (`channel_same`, from the uniqueness of `run_coeffs`) and succeed together (`four_same`); arbitrary kernels and weights |
| C87, C93-C95 | groups of tags, `Inventory.pack` and `merge`: nothing common is lost | list induction; cover lemma of `merge` lifted to joins |
| C88 | error of a transfer function | matrix algebra |
| C90, C91 | older Fourier functions, Slepian windows | equality of programs; interpolation |
| C96, C97 | the estimation with all numeric parameters closed over the complex numbers (FullModel.v) | simulation between two runs (SimProofs.v); zero scale |
| C102, C103 | the same | rows named by numbers, lists as functions of the names (RowOrderProofs.v); the simulation with the conjugation (ConjProofs.v) |
| C112 | the real formulation with plain least squares | complex matrices as real ones of twice the size (Realify.v) |
| C113 | the printed lines | the functions once more with their output, equal to the former but for it; percentages with Flocq's error bounds |
| C104 | MestModel.v, WeightModel.v | histories do not matter (WeightProofs.v) |
| C105 | NumTextModel.v | rounding and calendar without reference to the algorithms (NumTextUnique.v, DateText.v) |
| C106 | SetTextModel.v | greedy filling of rows is unique (SetTextProofs.v) |
| C108 | LoadModel.v | trimming, splitting and reading of decimals as equivalences with grammars (LoadProofs.v) |
| C107 | WeightTextModel.v | induction over nested sequences (WeightTextProofs.v) |
| C100, C101 | texts of tags and signal sets | unambiguous reading of the text |
| C120 | WholeModel.v | the ratio of frequency and rate is all that the coefficients use (ClockProofs.v) |
| C121 | WholeModel.v | values of an estimate as a list of independent rows (AloneProofs.v) |
| C122 | OptionModel.v | keywords through three calls; every failure of the coefficients becomes nan |
| C123 | WholeModel.v | simulation in which the matrices of the two runs differ by an invertible factor (SimRows.v, MixScale.v to MixWhole.v) |
| C124 | EstOptModel.v | keywords through three calls; a wrong name fails before anything is computed; least squares ignores the initial estimate |
| C98, C99 | attribute access, copies, calibrations given as numbers | induction on the recursion limit; case analysis |

No property is declared not applicable; the numeric kernels (LAPACK solve,
dask, scipy interpolation, dpss) are outside the model and appear as
universally quantified functions.

## 3. Trusted base

1. Coq's kernel (8.16.1) and its checker `coqchk`. No kernel check is switched
   off, no plugin written in OCaml is used, no functor or module type is defined.
2. The axioms shown by `Print Assumptions` under each theorem. The development
   states none; those that appear are axioms of the standard library:

   | axioms | theorems |
   |---|---|
   | `sig_forall_dec`, `functional_extensionality_dep` | C61_solutions, C42_threshold, C42_fixed_weights |
   | `sig_forall_dec`, `sig_not_dec`, `functional_extensionality_dep` | C39_linear, C40_pure_tone, C90_prefix, C90_tone, C61_residuals, C49_huber, C49_decreasing, C49_zero_scale, C49_nan, C80_scale_bounded, C80_equal_majority, C114_recordings_part, C118_flat, C122_call |
   | the same three and `classic` | C04_reachable_well_formed_binary64, C16_full_interval_binary64, C16_full_interval_binary64_refuted, C50_thomson, C50_value, C50_nan, C50_zero_scale, C51_value, C51_bound, C51_no_leverage, C51_exceeds_one_iff, C51_at_most_one_refuted, C79_unit, C79_row_order, C86_run, C86_bounds, C86_failures, C113_percent, C113_starting |
   | the same four and `constructive_indefinite_description` | C96_equivariant, C97_least_squares, C97_robust_fails, C97_majority_fails, C102_row_order, C103_conjugate, C112_least_squares, C112_shapes, C112_single_values, C114_recordings, C114_recordings_succeeds, C115_remote, C115_local, C115_local_bias_refuted, C116_units, C116_filter, C117_errors, C117_no_noise, C117_no_noise_remote, C117_silent, C117_shapes, C118_tones, C118_shaped, C118_remote, C119_uncalibrated_refuted, C120_clock, C121_frequencies, C121_channels, C122_values, C122_unusable, C123_local, C123_remote, C123_filter, C124_values, C124_misnamed, C124_misnamed_silent, C124_misnamed_raises, C124_init, C125_silent, C125_all, C125_raises, C125_error, C125_tones, C125_mest, C125_bi, C126_moved |
   | none ("Closed under the global context") | all others |

   Full names: `ClassicalDedekindReals.sig_forall_dec`,
   `ClassicalDedekindReals.sig_not_dec`,
   `FunctionalExtensionality.functional_extensionality_dep`,
   `Classical_Prop.classic`,
   `ClassicalEpsilon.constructive_indefinite_description`. The last one gives the
   complex numbers of Coquelicot the choice operator a mathcomp field needs
   (CField.v). The others come in with `Reals` (C39, C40, C42, C49-C51, C61,
   C79, C80, C86, C90, C114) and with Flocq's binary64 (C04, C16, C113).
   `coqchk -o` prints a longer list: the fields of the sealed modules of
   `Reals` (`RbaseSymbolsImpl`, `RinvImpl`) and of mathcomp (`BigOp`,
   `FinfunDef`, `CardDef`, ...). Those are defined terms hidden behind a module
   type, not axioms.
3. The reading of the Python source: each definition of `*Model.v` cites the
   lines it stands for. Nothing checks mechanically that the text of `/repo`
   and the model agree. Section 4 says what is simplified.
4. The reading of Python, numpy, dask, scipy where the code calls them
   (section 5).

## 4. What is modelled

| source | model | content | simplifications |
|---|---|---|---|
| signalset.py:27-143 | TagsModel.v, TagValueModel.v, TagFilterModel.v | `TagsBase`, `Tags`: validation, attribute access and assignment, inference of the number of channels, `filter`, `filter_get` through GlobModel.v | names are 8-bit strings, `isalpha` on ASCII; channel numbers are ints; names starting with `_` are not assigned |
| signalset.py:146-651 | SetModel.v, FourierModel.v | `SignalSet`: constructor, tags, join, selection, extraction, merge, consecutive runs, Fourier coefficients | sharing of mutable arrays between sets is not modelled |
| signalset.py:654-872 | SyncModel.v, FourierModel.v, CalArgModel.v | `SyncSignal` | calibrations given as numbers are already wrapped, except in CalArgModel.v |
| signalset.py:293-311, 370-403 | AttrModel.v | `SignalSet.__getattr__`, attribute lookup, copies | attributes added by a user are not modelled; values of methods and computed properties are only named |
| signalset.py:130-136, 288-291, 720-724 | ReprModel.v | `repr` of tags and signal sets | the text of a float is a parameter; `%` directives other than `%%` and `%s` and names that are not printable are outside |
| signalset.py:257, 262, 700, 722-723; weights.py:50, 69, 97-100, 147 (Python's `%g`, `np.round`, `datetime.utcfromtimestamp` and `str` of a datetime) | NumTextModel.v | texts of numbers and times | a number is the exact rational value of a finite float: no `-0`, `inf`, `nan`; a time outside the years 1 to 9999 gives ValueError on every platform |
| signalset.py:252-286, 699-718, 902-903 | SetTextModel.v | `str` of signal sets and runs, `repr` of inventories | `str` of a float (the rate in `str` of a run) is a parameter; names as in ReprModel.v |
| weights.py:23-43, 49-50, 61-69, 85-86, 96-100, 132-147 | WeightTextModel.v | sequences of weights and their texts | parameters are finite floats, by their exact values; the only indices are ints and slices; the thresholds of bi_weights are given |
| signalset.py:875-1064 | InvModel.v | `Inventory` | members compared by position; iteration order of sets is a parameter, theorems hold for all orders |
| fourier_transform.py:24-108 | FourierModel.v | `discrete_window`, `time_to_freq` | complex arithmetic is a parameter (instantiated over R in FourierReal.v); the quotient of the number of windows is taken in Z |
| fourier_transform.py:135-194 | FourierOldModel.v | `time_to_freq_old`, `sliding_window`, `ft` | contiguous arrays; a window of length 1 is not broadcast |
| fourier_transform.py:16-21, 111-132 | SlepianModel.v | `slepian`, `slepian_window` | exact rationals; values of scipy's dpss are a parameter; a mean of 0 is excluded |
| mestimator.py:21-48 | ErrModel.v | `transfer_error` | exact arithmetic; shapes are types |
| mestimator.py:51-262 | MestModel.v | `transfer_function`, `m_estimate` and its iterations, merging of rejected indices | numeric kernels are parameters; FullModel.v closes them with exact complex arithmetic |
| mestimator.py:265-305 | WlseModel.v | weighted normal equations, hat matrix | exact arithmetic, `None` for a singular matrix |
| weights.py | WeightModel.v (states), RobustModel.v (formulas), BiModel.v (both) | weight objects and formulas | exact real arithmetic with nan and infinities; a stored array of weights is not aliased; thresholds of `bi_weights` are parameters (`gammaincinv`) |
| prefilters.py | PrefilterModel.v (blocks), CodModel.v (coefficient), CodFilterModel.v (both) | `CoefficientOfDeterminationFilter` | exact arithmetic, with nan for a zero output; outputs and inputs of the same length; the block size is not negative |
| utils.py:24-38, 61-134, 166-392 | UtilsModel.v, MassModel.v | impedance and tipper runs, two stages, silent failures, prefilter values, combinations of remotes | printing is in PrintModel.v; a stacked array is the list of its slices, and stacking fails unless they have one shape (numpy 1.24 and later); the solver is the parameter of MestModel.v |
| utils.py:61-296 with signalset.py:558-606, mestimator.py and prefilters.py | WholeModel.v | complete estimates: real samples and calibrations to transfer functions and errors, any number of channels, weights of the library, the determination filter | exact arithmetic over the complex numbers; calibrations of value 0 are outside (numpy gives infinities); rows of a matrix have one length |
| utils.py:162-164, 226, 420-425 | OptionModel.v | Fourier options as dictionaries, the calls that receive them, `compute_prefilter` up to its failure | a value of a wrong kind always gives TypeError; lazy arrays with `compute=False` |
| utils.py:166, 203-206, 236-237, 260-261, mestimator.py:51-180 | EstOptModel.v | options of the estimator as dictionaries and the calls that receive them | a value of a wrong kind gives TypeError at the call instead of the line that uses it; `init=None` given explicitly counts as a wrong kind |
| utils.py:91-119, 189-296, 350-371 | PrintModel.v | the lines printed by `impedance` and the mass functions; percentages in binary64 | the text of an exception is not modelled |
| utils.py:395-417 | RealPbModel.v, RealProbModel.v | real formulation; in RealProbModel.v with the estimation of FullModel.v | exact arithmetic; real arrays are complex ones with zero imaginary parts; no weights with a single output |
| utils.py:444-544 | PathModel.v | `tags_from_path`, with the used parts of `os.path`, `fnmatch`, `re`, `string.Formatter` | 8-bit characters; brackets around fields or stars, and templates with `.` or `[` in a field name are outside the model |
| fnmatch (Python) | GlobModel.v | shell patterns | a set reduced to a leading `!` after removing empty ranges |
| io/binary_file_array.py | ProxyModel.v, FileModel.v | array proxies, binary file arrays; in FileModel.v also the place of the file and its changes after the array was made | float indices equal to integers; symbolic links |
| io/ats.py | AtsModel.v | header codec, channels, consistency of files | converted latitude, longitude, elevation are the stored integer and its unit, the product is not computed; samples are read at once instead of lazily |
| calibrations.py | CalModel.v | file sections, interpolation, Metronix and Phoenix calibrations | `loadtxt`, `np.angle`, the complex exponential and the parser of Phoenix files are parameters; tables of less than two rows are outside the theorems |
| calibrations.py:75-76, 111, 115-149 | LoadModel.v | `np.loadtxt` on lines of text, the first line of Phoenix files, both calibrations from the text | 8-bit characters; the words for infinities and nan are a parameter; numbers with underscores, hexadecimal numbers and negative numbers of channels are outside |
| data.py, cli.py | DataModel.v | data directories, commands | no symbolic links, no `..`, no permissions; two initial slashes count as one |

## 5. What is not modelled

* scipy's dpss window: theorems on Fourier coefficients hold for every window.
* progress output, the `version` command, `repr` of calibrations and of file
  arrays.
* The numeric libraries: LAPACK, dask's graphs and chunks, scipy's
  interpolation outside its documented piecewise linear formula.
* Rounding, except in the theorems named `_binary64` and their refutations.
* Concurrency of dask workers; the code has no shared mutable state there.

## 6. Refuted expectations

Theorems named `_refuted` give a witness where the expected statement is false
of the faithful model. `MANIFEST.json` counts the property as proved when the
guarded statement is proved and the guard is shown necessary by such a witness.

## 7. Wrong programs

`seeded/LOG.jsonl` records edits of the model in a scratch copy. A lemma whose
proof breaks is replaced by an axiom there, so that the build continues; the
property theorems that rest on such a lemma are read off `Print Assumptions`.
`theorems_failed` therefore lists theorems whose proof no longer goes through;
`examples_failed` lists concrete cases that compute something else. An edit that
broke no theorem is a survivor; the theorems added because of it are in
`theorems_tightened`.

# Formal model of ExoRad2 in Rocq (Coq 8.16.1)

## 1. What is modelled and how

The model is a set of total Gallina functions mirroring the Python functions branch by branch.

* **Exceptions are values.** `res A := Ok a | Err exn` (Base.v); `exn` names the Python exception class.
  `try/except` blocks are explicit matches.
* **Mutation is returned.** A function that mutates an argument returns the new value as well
  (e.g. `vstack_tables` returns the stacked table *and* the mutated input tables, because the mutation of
  `channel.table` is observable by the next target).
* **Loops** are structural recursion or folds; `while` loops without an evident bound use explicit fuel and a
  distinguished out-of-fuel result that no theorem conflates with a normal one.
* **Numbers.** numpy `float64` is modelled by real numbers (`R` of the standard library), i.e. rounding is
  abstracted away. Where NaN/infinity matter (noise, tables, rebin), values live in `xr` (XR.v): finite real,
  +inf, -inf or NaN with IEEE propagation rules; signed zero is not modelled.
* **Units.** astropy quantities are modelled after conversion: a value in the unit fixed by the code. Unit
  conversion itself is a multiplication by a positive factor, recorded where used.
* **Dictionaries / OrderedDict / tables** are association lists in insertion order with Python's update rule
  (existing key keeps its place); astropy tables are ordered lists of named columns.
* **External calls** (file readers, scipy special functions, `float()` parsing, PSF images, worker pool) are
  parameters of the model: theorems are quantified over them; assumptions about them are visible hypotheses.

File layout (`rocq/theories/`): `Base.v`, `Dict.v`, `PyStr.v`, `XR.v` (generic material), `M_*.v` (model of the code, definitions only),
`S_*.v` (small independent specifications), `L_*.v` (lemmas and proofs), `P_*.v` (property theorems: statement,
proof, `Print Assumptions`, with `Example`s showing that the hypotheses are met).

## 2. Plan

The properties are grouped by area; section 4 says for each property what is modelled and how it is proved.
Every property of properties.jsonl can be expressed in the model; where reading the code showed that the first
wording is false of the code, the theorem is a characterisation of what happens plus a refutation (`_refuted`),
and where only a part is proved the theorem carries the suffix `_partial`.

## 3. Trusted base

* Coq's kernel (8.16.1), checked again by `coqchk`.
* Axioms: only those of the standard library's Reals (`ClassicalDedekindReals.sig_forall_dec`,
  `ClassicalDedekindReals.sig_not_dec`, `FunctionalExtensionality.functional_extensionality_dep`,
  and `Classical_Prop.classic` where real analysis lemmas need it). Each `P_*.v` prints them per theorem.
* The faithfulness of the model to the Python text, which was read and not run.

## 4. Properties, models, proofs

### 4.1 By area

| Theorems | Model | What is modelled and how it is proved |
|---|---|---|
| P_Area.v | M_Build, M_Star, M_Observe, M_Noise | Building with another area gives the same channels but for the area (by cases on the builder); the own columns of such channels differ in the three star columns; two observations are compared bin by bin (L_Compare). |
| P_Args.v | M_Args | argparse as an algorithm on words (classification, then consumption from the left). Words in the usual spelling are classified as what they say (the finitely many abbreviations by cases), and the loop folds them (induction on the spelling). Conversely a run that ends in a call consumed every word (induction on the number of words), and each consumed word inverts to a reading. |
| P_Auto.v | M_Build | Two observations compared row by row (L_Compare): the columns of the star are scaled, the others equal, so the maxima are between; an automatic frame time is the inverse of the largest. The refutation computes both noises from C12 and C14. |
| P_Bins.v | M_Bins | Bins and pixels; geometric series for fixed resolution, fuel and a progress measure for variable resolution. |
| P_Bright.v | M_Observe (with M_Star, M_Source, M_Noise) | The propagated star table of a scaled spectrum is the scaled table (L_Bright, equality of programs); block_view and noise_of_rows of C114 carry it to the final table; the noise inequality is real arithmetic on the closed form of C86. |
| P_BrightMission.v | M_Build, M_Observe | C96 gives the channels, C50 the scaling of the source with distance and radius, then C115_brightness in both directions. |
| P_Build.v | M_Build | Inversion of the building functions; induction over the channels; the optics and bins theorems (C24, C25, C60-C63) applied to what is built. |
| P_Campaign.v | M_Pipeline, M_Observe, M_Build | The abstract observation of C37-C38 is instantiated by observe_target; C83 makes it independent of history; C97 and C105 compose. |
| P_Command.v | M_Command (on M_Pipeline, M_Hdf5) | Every step changes the file system within a set of paths; sets are composed along the run. The steps before reading are computed exactly when no names collide. |
| P_CommandRun.v | M_Command, M_Pipeline, M_Payload | C113 refines the run to M_Pipeline.standard_pipeline, then C105. |
| P_Complete.v | M_Observe, M_Foreground, M_Source | Success conditions for descriptions of stars and foregrounds. |
| P_Emission.v | M_Build, M_Optics, M_Light | Induction along the optical path pairs warm elements with radiances; C25, C27, C56 give the light of each. |
| P_Faded.v | M_Build, M_Bins, M_Light, M_Star, M_Observe, M_Noise | Every step from the quantum efficiency to the columns is linear in it (L_Faded), by unfolding and induction over elements and foregrounds; as for the star, the factor acts like the telescope area of C117; the rows of two observations are compared bin by bin (L_Compare). |
| P_Files.v | M_Options | Induction over the document: each level is the result of the loop over the children (the invariant of C04) followed by the three file steps, each inverted into its specification; success by the same induction with the path as invariant. |
| P_Filter.v | M_Optics, M_Build, M_Star, M_Light, M_Observe, M_Noise | The table of transmissions with one grey element in front is the one without, times k, and the chain of emissions is the same (L_Filter); for the star a filter is a smaller telescope (P_Area), for foregrounds every step commutes with scaling (L_Glow); two observations are compared bin by bin (L_Compare). |
| P_Foreground.v | M_Foreground | Foregrounds as a fold over the description; products of filters, characterisation of success and failure. |
| P_Framed.v | M_Build | As P_Auto, for the comparisons of P_Filter and P_Faded: the maxima behind a filter lie between the k-fold and the whole; with a lower quantum efficiency every column that counts is the k-fold, so the maxima are, and the inverse of the largest fixes the frame time. |
| P_Full.v | M_Full (on M_Observe, M_Table) | The channels with itemised tables behave like channels that all have the union of the columns, zeros where an element is absent (observe_unified, by induction over the history); of those, maxima, signal sums and noise are compared column by column. |
| P_FullMission.v | M_Full, M_Build | C96 gives the channels, C28 the sum of the element signals, then C114. |
| P_Glow.v | M_Foreground, M_Light, M_Observe, M_Noise | Every step of the propagation commutes with scaling (L_Glow); the estimated foregrounds are those before with one of them scaled, by induction over the descriptions; two observations are compared bin by bin (L_Compare). |
| P_Hdf5.v | M_Hdf5 | Round trip by induction on trees. |
| P_Hot.v | M_Build | As P_Auto, for the comparison of P_Warm: the maxima are no smaller, so the inverse of the largest is no larger; warmth changes no transmission, so what was seen is seen still. |
| P_Instance.v | M_Observe | A concrete instrument meeting the hypotheses of C81-C89, and counterexamples. |
| P_Light.v | M_Light, M_Optics | Diffuse light through slit, pixels and windows; trapezoidal sums, linearity, induction over elements. |
| P_Log.v | M_Log | Invariant over the runs: the handlers of the logger are the console and one per log file asked for; by induction over runs and over the messages of a run. |
| P_Mission.v | M_Build, M_Observe | C96 composed with C89. |
| P_Mpi.v | M_Mpi | All processes run the same call; the exchange takes place when none of them has raised. Induction over the processes; the refuted claims are examples with two processes. |
| P_Noise.v | M_Noise, M_Table | Noise of a channel as a function over the extended reals; algebra, induction over rows and contributions. |
| P_Observe.v | M_Observe | The observation of one target as a composition of stages over shared channels; invariants over histories of observations. |
| P_Omega.v | M_Omega | The elliptic integral as a Riemann integral (Coquelicot); evaluation by antiderivatives and substitution. |
| P_Optics.v | M_Optics | Elements, transmission table and emission chain as folds; induction over the list of elements. |
| P_Options.v | M_Options | XML trees to dictionaries, global variables threaded; induction on trees and documents. |
| P_Outcome.v | M_Observe, M_Noise | What success of the parts implies for the whole observation. |
| P_Parts.v | M_Build, M_Psf, M_Bins | Inversion of the building functions, and the theorems on windows, gains and quantum efficiency (C36, C60, C70). |
| P_Payload.v | M_Payload, M_Hdf5, M_Pipeline, M_Options | Induction over the list of channels with the round trip of C47; case analysis of the argument and of the units. |
| P_Pipeline.v | M_Pipeline | Pool of workers as an arbitrary schedule, files as histories of writes; refinement to a map. |
| P_Planck.v | M_Source | Monotonicity and limits by derivatives (Coquelicot and the standard library). |
| P_Plot.v | M_Plot | Folds for the smallest and largest edge, mapM over the selected names, permutations for the order of the set. |
| P_PlotCommand.v | M_Plot, M_Util, M_Payload, M_Hdf5, M_Pipeline | C44 for the range expressions, sorting of the names, C39 and C105 for what a run leaves in the file. |
| P_PlotMission.v | M_Plot, M_Observe, M_Build, M_Pipeline | C96/C97/C104 for the run, C90 for the edges of built channels. |
| P_PlotObserve.v | M_Plot, M_Pipeline, M_Payload | The plotting step of C37-C38 is instantiated; C102 for the processed data of loaded channels. |
| P_PlotTarget.v | M_Plot, M_Observe, M_Pipeline | Texts occur only in chName: preserved by stacking, replacing and summing columns; names only grow; C85 gives the edges, C106 the figure. |
| P_Psf.v | M_Psf | Images as lists of rows; sums over pixels, nearest-index characterisation, fuelled search for the aperture. |
| P_Ready.v | M_Build | Forward reasoning: every stage of the building succeeds under the conditions of S_Ready, by the success lemmas of L_Ready. |
| P_Rebin.v | M_Rebin | The growth of a piecewise linear function between two points is bounded by its slopes (induction over the segments); the accumulated area has the samples' means as slopes; on an even grid the differences telescope. |
| P_Run.v | M_Pipeline, M_Payload, M_Hdf5 | Induction over the list of saved targets with the round trips of C47 and C101. |
| P_Seen.v | M_Build | A curve rebinned to a grid is positive at a point between positive neighbours that the curve reaches; the integral over a bin containing such a point is positive; so the largest pixel signal is, which is all the frame time needs. Composition with C96, C97 (payload to table). |
| P_Shell.v | M_Shell | the argument reader of M_Args followed by the files as the command leaves them (M_Command); the theorems compose those of P_Args and P_Command, and the refuted claim is an example evaluated in the model. |
| P_Signal.v | M_Signal | Signal shapes by case analysis; rebin by order arguments on sorted lists and convexity of linear interpolation. |
| P_Skies.v | M_Build | As P_Auto, for the comparison of P_Glow: the columns of the foreground are scaled, the others equal, so the maxima are between. |
| P_Source.v | M_Source | Source dispatch, nearest stellar model, flux scaling; algebra over R and case analysis. |
| P_Star.v | M_Star | Propagation of the star for photometers and spectrometers; sums over half-open windows. |
| P_Success.v | M_Light, M_Star | Necessary and sufficient conditions for light to go through a channel. |
| P_Table.v | M_Table | Tables as ordered columns; induction over lists of tables, extensional description of every cell. |
| P_TargetList.v | M_TargetList | Rows to targets; induction over rows, case analysis over formats. |
| P_Task.v | M_Task | Task as a state machine with an arbitrary body; induction over histories of calls. |
| P_Util.v | M_Util | Induction over strings and lists. |
| P_Version.v | M_Version | String reasoning. |
| P_Warm.v | M_Build | A relation "no smaller, and not negative" between lists is preserved by every stage: black body radiance (C53), products, resampling and interpolation (linearity applied to the difference), convolution with the slit, selection, maxima, integration and sums; then the rows are compared as in C120 and C121. |
| P_Wells.v | M_Build | As P_Auto, for the comparison of P_Worse: an automatic frame time depends on the fullest pixels, the well depth and the fraction to fill only, so it is the same, and the rows compare as with a fixed one. |
| P_Windows.v | M_Bins | Window sizes by case analysis of the description; binned columns by the rebin lemmas. |
| P_Works.v | M_Observe | Composition of the success conditions. |
| P_Worse.v | M_Build, M_Observe, M_Noise | Building with other detectors gives the same channels but for the detectors, by cases on the builder; the own columns of such channels are the same; the rows of two observations are compared bin by bin (L_Compare), each contribution being monotone. |

### 4.2 By property

| Property | Title | Status | Area | Theorems |
|---|---|---|---|---|
| C01 | A task call with an undeclared keyword fails before doing anything | proved | P_Task | `C01_unknown_keyword_rejected` |
| C02 | A task body sees exactly the passed keywords overlaid on the declared defaults, and nothing from earlier calls | proved | P_Task | `C02_body_sees_kwargs_over_defaults` |
| C03 | What a task call returns over a history of calls | proved | P_Task | `C03_return_value_over_history`, `C03_task_without_parameters_never_runs`, `C03_fresh_output_refuted` |
| C04 | XML options: each element becomes one dictionary entry with attributes, children and a typed value | proved | P_Options | `C04_loaded_dictionary_represents_document`, `C04_denotation_unique`, `C04_wellformed_documents_load`, `C04_element_without_text_fails` |
| C05 | Repeated sibling tags are all kept, in document order, exactly when their values are distinct | proved | P_Options | `C05_distinct_repetitions_all_kept`, `C05_equal_values_are_kept_refuted`, `C05_first_occurrence_without_value_fails` |
| C06 | __ConfigPath__ placeholders are resolved with the configuration path in force | proved | P_Options | `C06_values_resolved_with_path_in_force`, `C06_path_after_load`, `C06_placeholder_without_path_fails` |
| C07 | The working resolution is process-global state shared by successive payloads | proved | P_Options | `C07_working_resolution_is_the_last_one_loaded` |
| C08 | Stacking tables keeps every row and every cell, filling only missing columns | proved | P_Table | `C08_vstack_is_the_stack`, `C08_every_cell_kept`, `C08_vstack_succeeds`, `C08_inputs_only_gain_constant_columns`, `C08_no_tables`, `C08_leading_empty_tables_dropped`, `C08_inputs_untouched_refuted` |
| C09 | Updating the target table replaces exactly the recomputed columns | proved | P_Table | `C09_update_replaces_exactly_the_new_columns`, `C09_update_twice_is_update_once`, `C09_previous_object_loses_columns` |
| C10 | Maximum signal in pixel is the sum of all per-source maxima, once | proved | P_Table | `C10_max_signal_is_the_sum`, `C10_estimating_again_counts_the_total` |
| C11 | The target table has one block of rows per channel, in channel order | proved | P_Table | `C11_one_block_per_channel` |
| C12 | No pixel exceeds the allowed well fraction within the automatic frame time | proved | P_Noise | `C12_automatic_frame_time`, `C12_given_frame_time_used_unchanged`, `C12_no_light_infinite_frame_time`, `C12_no_well_fraction_fails` |
| C13 | MULTIACCUM gains stay in their physical range | proved | P_Noise | `C13_gains_in_range`, `C13_gains_monotone`, `C13_dependence_on_M` |
| C14 | Total noise is the quadrature sum of its contributions relative to the star signal | proved | P_Noise | `C14_row_formula`, `C14_at_least_each_contribution`, `C14_monotone` |
| C15 | Rows without star signal have undefined noise, all other rows finite | proved | P_Noise | `C15_nan_exactly_without_star_signal` |
| C16 | Custom noise adds in quadrature, in any order | proved | P_Noise | `C16_quadrature`, `C16_order_irrelevant`, `C16_incomplete_entry_discards_the_rest`, `C16_contribution_named_total_overwrites` |
| C17 | Each noise row describes the spectral bin of the same row | proved | P_Noise | `C17_rows_aligned`, `C17_depends_on_own_rows_only`, `C17_estimate_succeeds` |
| C18 | Asking for full contributions does not change the noise | proved | P_Noise | `C18_only_the_sum_of_signals_matters`, `C18_full_contributions_same_noise`, `C18_element_named_Max_changes_the_maximum` |
| C19 | Re-estimating noise on an already processed target | proved | P_Noise | `C19_noise_columns_become_signals`, `C19_maximum_signal_doubles`, `C19_frame_time_halves` |
| C20 | A Signal never has inconsistent shapes | proved | P_Signal | `C20_built_iff_consistent`, `C20_units_converted`, `C20_errors`, `C20_time_dependence` |
| C21 | Rebinning never invents flux | proved | P_Signal | `C21_values_within_samples`, `C21_sign_and_unit_interval_kept` |
| C22 | Rebinning returns one value per distinct target wavelength | proved | P_Signal | `C22_one_value_per_grid_point`, `C22_ordered_grid_without_duplicates`, `C22_unordered_grid_kept`, `C22_nan_target_fails`, `C22_only_value_error`, `C22_fails_iff_few_sources`, `C22_signal_on_increasing_grid`, `C22_signal_shape_kept_refuted` |
| C23 | Rebinning reproduces samples, constants and linear interpolation | proved | P_Signal | `C23_interpolation`, `C23_binning`, `C23_interior_bins_filled`, `C23_linear`, `C23_constant_reproduced_refuted` |
| C24 | Total transmission is the product of the element transmissions | proved | P_Optics | `C24_paths_are_sampled`, `C24_total_is_product`, `C24_element_columns`, `C24_within_unit_interval`, `C24_more_elements_less_light`, `C24_order_irrelevant` |
| C25 | Self-emission is attenuated by exactly the elements that follow | proved | P_Optics | `C25_attenuated_by_what_follows`, `C25_only_emitting_elements`, `C25_slit_width`, `C25_fails_iff_slit_without_width` |
| C26 | Common optics precede channel optics, and all elements are kept when names differ | proved | P_Optics | `C26_distinct_names_all_kept`, `C26_shared_name_takes_common_place`, `C26_elements_of_a_section` |
| C27 | Solid angle by position of the emitting element | proved | P_Light | `C27_position_by_type`, `C27_radiance_position`, `C27_signal_without_slit`, `C27_given_solid_angle_used_refuted` |
| C28 | Instrument signal is the sum of the element signals | proved | P_Light | `C28_sum_of_element_signals`, `C28_elements_do_not_interfere`, `C28_nothing_emits`, `C28_nonnegative` |
| C29 | Sky transmission is the product of the foreground filters | proved | P_Foreground | `C29_product`, `C29_order`, `C29_zodi_transparent` |
| C30 | Foregrounds do not influence each other | proved | P_Light, P_Success | `C30_each_foreground_alone`, `C30_attenuation_by_filters_refuted`, `C30_foreground_signal`, `C30_no_foreground_attribute`, `C30_nonnegative` |
| C31 | Observing a target twice | proved | P_Foreground | `C31_accumulates`, `C31_power`, `C31_other_length` |
| C32 | Photometer bin is the channel band | proved | P_Bins | `C32_photometer_bin` |
| C33 | Fixed-resolution spectral bins tile the channel band | proved | P_Bins | `C33_fixed_resolution_tiles` |
| C34 | Binning over contiguous bins conserves photons | proved | P_Light, P_Star | `C34_slit_bins_conserve_light`, `C34_star_bins_conserve_light` |
| C35 | Variable-resolution binning: termination and tiling | proved | P_Bins | `C35_table_resolution_tiles`, `C35_terminates_iff_no_edge_repeats`, `C35_next_edge`, `C35_terminates_when_bins_are_wide`, `C35_needs_three_edges`, `C35_first_bin_may_be_negative_refuted`, `C35_always_terminates_refuted` |
| C36 | Window sizes and their precedence | proved | P_Windows | `C36_spectrometer_window`, `C36_windows_positive`, `C36_spectral_extents_add_up`, `C36_prescribed_pixels`, `C36_native_bins_are_one_pixel`, `C36_photometer_window` |
| C37 | One failing target does not affect the others | proved | P_Pipeline | `C37_results_under_their_names`, `C37_failures_share_one_entry`, `C37_list_order`, `C37_outcomes_do_not_depend_on_neighbours` |
| C38 | Parallel and sequential observation agree | proved | P_Pipeline | `C38_any_schedule_gives_the_same_dictionary`, `C38_parallel_equals_sequential`, `C38_parallel_equals_sequential_unmodified`, `C38_no_deadlock`, `C38_every_schedule_ends`, `C38_parallel_equals_sequential_refuted` |
| C39 | Saved file after a crash or a failing target | proved | P_Pipeline | `C39_a_prefix_is_saved`, `C39_saved_targets_are_complete`, `C39_nothing_saved_after_the_first_failure` |
| C40 | Logging level after observing | proved | P_Pipeline | `C40_level_after_observing`, `C40_levels_while_observing`, `C40_debug_is_kept_refuted` |
| C41 | Output replacement | proved | P_Pipeline | `C41_replace_discards_previous_output`, `C41_replace_deletes_its_own_payload`, `C41_without_replace_everything_is_kept`, `C41_rerun_without_replace_fails`, `C41_rerun_fails_on_saved_targets` |
| C42 | One target per row, fields from that row | proved | P_TargetList | `C42_csv_one_target_per_row`, `C42_csv_well_formed_loads`, `C42_mrs_one_target_per_row`, `C42_mrs_headers`, `C42_qtable_one_target_per_row`, `C42_xlsx_one_target_per_row` |
| C43 | Target list format dispatch | proved | P_TargetList | `C43_dispatch`, `C43_reader_errors`, `C43_qtable`, `C43_no_fallback_for_native_lists` |
| C44 | Range expressions denote the listed integers | proved | P_Util | `C44_range_expression_lists_its_integers`, `C44_interval_is_inclusive`, `C44_all_and_none`, `C44_malformed_piece_gives_nothing`, `C44_malformed_is_always_rejected_refuted` |
| C45 | Chunking loses and reorders nothing | proved | P_Util | `C45_chunks_partition_the_list`, `C45_zero_chunk_size_raises`, `C45_negative_chunk_size_loses_everything` |
| C46 | Object serialisation exports exactly the public data | proved | P_Util | `C46_public_data_is_exported`, `C46_nothing_else_is_exported`, `C46_idempotent_without_tables`, `C46_idempotent_with_tables_refuted` |
| C47 | Saved dictionaries are read back | proved | P_Hdf5 | `C47_saved_dictionaries_are_read_back`, `C47_saved_group_is_read_back`, `C47_every_quantity_keeps_its_unit_refuted`, `C47_dotted_table_names_break_loading`, `C47_tables_are_read_back`, `C47_unlike_items_are_numbered`, `C47_unlike_items_are_read_back` |
| C48 | Nothing already stored is overwritten | proved | P_Hdf5 | `C48_existing_data_is_kept`, `C48_success_means_no_clash`, `C48_success_means_no_clash_in_group`, `C48_clash_raises` |
| C49 | File open modes | proved | P_Hdf5 | `C49_append_keeps_everything`, `C49_no_append_discards_everything`, `C49_new_file_has_info`, `C49_info_is_written_once`, `C49_every_opened_file_has_info` |
| C50 | Stellar flux follows the inverse square law | proved | P_Source | `C50_inverse_square`, `C50_luminosity`, `C50_radius`, `C50_nonneg` |
| C51 | Source type dispatch | proved | P_Source | `C51_case_insensitive`, `C51_name_or_dictionary`, `C51_unknown_is_planck`, `C51_what_is_used`, `C51_incomplete_target`, `C51_header` |
| C52 | Nearest stellar model is selected | proved | P_Source | `C52_nearest_model`, `C52_model_of_the_star`, `C52_a_model_is_found` |
| C53 | Planck function | proved | P_Planck | `C53_positive_and_increasing`, `C53_rayleigh_jeans`, `C53_wien`, `C53_displacement`, `C53_single_peak`, `C53_close_to_plancks_law` |
| C54 | Pixel response kernel has unit-pixel weight | proved | P_Psf | `C54_kernel_weight`, `C54_pixel_area`, `C54_modf` |
| C55 | Pixel solid angle | proved | P_Omega | `C55_omega_is_the_solid_angle`, `C55_circular`, `C55_slower_beams_see_less`, `C55_bounds` |
| C56 | Diffuse light integration | proved | P_Light | `C56_slit`, `C56_slit_multiplies_constant_light`, `C56_slit_failures`, `C56_slit_linear`, `C56_integration_linear` |
| C57 | What the update check reports | proved | P_Version | `C57_reports_iff_first_heading_is_another_version`, `C57_force_raises_iff_reported`, `C57_reported_version_is_between_the_brackets`, `C57_bracket_never_closed`, `C57_reported_changes`, `C57_newer_only_refuted` |
| C58 | Searching a target list | proved | P_TargetList | `C58_search_returns_the_matches`, `C58_star_only_lists_fail`, `C58_search_succeeds` |
| C59 | What an optical element description means | proved | P_Optics | `C59_constant_in_band`, `C59_defaults_and_choice`, `C59_emissivity`, `C59_file_values_in_range`, `C59_named_wavelength_column_fails` |
| C60 | Binned transmission and quantum efficiency | proved | P_Windows | `C60_transmission_at_centres`, `C60_transmission_between_0_and_1`, `C60_transmission_in_general`, `C60_flag_required`, `C60_constant_quantum_efficiency`, `C60_tabulated_quantum_efficiency`, `C60_quantum_efficiency_failures` |
| C61 | Rebinning onto the own grid changes nothing | proved | P_Light | `C61_own_grid_identity`, `C61_rebinning_idempotent` |
| C62 | Native bins | proved | P_Bins | `C62_one_bin_per_pixel`, `C62_no_pixel_fails`, `C62_linear_solution_tiles`, `C62_native_bins_tile_refuted` |
| C63 | Pixels of a spectrometer | proved | P_Bins | `C63_solution_is_one_to_one`, `C63_pixels_cover_the_band` |
| C64 | Star signal of a photometer | proved | P_Star | `C64_photometer_signal`, `C64_photometer_bounds`, `C64_photometer_linear` |
| C65 | Star signal of spectrometer bins | proved | P_Star | `C65_spectrometer_signal`, `C65_spectrometer_bounds`, `C65_spectrometer_scaling` |
| C66 | Fraction of the star in the aperture | proved | P_Star | `C66_aperture_fraction` |
| C67 | Sky transmission and the history of a channel | proved | P_Star | `C67_sky_dims_the_star`, `C67_star_columns_ignore_history`, `C67_reported_sky_may_be_stale` |
| C68 | The brightest pixel needs a pixel | proved | P_Star | `C68_every_bin_needs_a_pixel`, `C68_native_bins_have_a_pixel` |
| C69 | Binning an image to pixels | proved | P_Psf | `C69_binning_bounds`, `C69_point_becomes_the_pixel`, `C69_binning_is_linear` |
| C70 | Gain of a spectrometer | proved | P_Psf | `C70_gain`, `C70_strehl`, `C70_gain_bounds`, `C70_gain_table_covers_the_pixels` |
| C71 | PSF of the nearest wavelength | proved | P_Psf | `C71_nearest_psf` |
| C72 | Interpolated PAOS PSFs | proved | P_Psf | `C72_interpolated_psf`, `C72_interpolation_fails_at_the_end`, `C72_paos_psf` |
| C73 | Aperture for an encircled energy | proved | P_Psf | `C73_search_ends`, `C73_radius_holds_the_energy` |
| C74 | Stellar models lose their last sample | proved | P_Source | `C74_last_sample_dropped` |
| C75 | Silent black bodies | proved | P_Source | `C75_temperature_out_of_range`, `C75_one_unreadable_name`, `C75_metal_rich_names_are_unreadable`, `C75_metal_poor_names_misread_refuted` |
| C76 | Wavelength grid of the source | proved | P_Source | `C76_wavelengths_of_the_source`, `C76_order`, `C76_bare_numbers_are_um`, `C76_mixed_fails`, `C76_other_units_refuted` |
| C77 | Amount of zodiacal light | proved | P_Foreground | `C77_amount`, `C77_proportional`, `C77_positive`, `C77_always_without_map`, `C77_failed_fit`, `C77_other_failures` |
| C78 | Sky filters | proved | P_Foreground | `C78_sky_filter`, `C78_bounds`, `C78_complete_tables_suffice`, `C78_rows_in_any_order`, `C78_units`, `C78_failures`, `C78_bare_range` |
| C79 | Map of zodiacal light | proved | P_Foreground | `C79_nearest_on_the_sky_refuted`, `C79_nearest_on_a_parallel`, `C79_missing_custom_map` |
| C80 | Names of foregrounds | proved | P_Foreground | `C80_last_wins`, `C80_all_foregrounds_count_refuted` |
| C81 | Each channel shows what it shows alone | proved | P_Observe | `C81_as_if_alone` |
| C82 | An observation fails exactly if one of its channels fails alone | proved | P_Observe | `C82_fails_as_one_alone`, `C82_same_error` |
| C83 | Earlier observations do not matter | proved | P_Instance, P_Observe | `C83_foreground_columns_refuted`, `C83_history_free`, `C83_channels_kept` |
| C84 | How observations fail | proved | P_Observe | `C84_no_channels`, `C84_no_foregrounds_refuted`, `C84_order` |
| C85 | What the table of an observed target holds | proved | P_Observe | `C85_what_the_table_holds`, `C85_light_of_the_star`, `C85_header`, `C85_header_of_the_star` |
| C86 | Noise and brightest pixel follow from the table | proved | P_Outcome | `C86_noise_follows_from_the_table`, `C86_brightest_pixel` |
| C87 | An observation succeeds whenever its parts do | proved | P_Outcome | `C87_an_observation_succeeds` |
| C88 | When light goes through a channel | proved | P_Success | `C88_curve_on_a_grid`, `C88_photometer_succeeds`, `C88_spectrometer_succeeds`, `C88_foregrounds_succeed` |
| C89 | Working channels can observe every star that is completely described | proved | P_Complete, P_Works | `C89_complete_descriptions_observe`, `C89_working_channels_observe` |
| C90 | Built channels can be observed with | proved | P_Build | `C90_built_channels_are_instruments`, `C90_rows_are_bins`, `C90_bins` |
| C91 | Channels are built one by one | proved | P_Build | `C91_one_by_one`, `C91_single_channel`, `C91_missing` |
| C92 | The class decides | proved | P_Build | `C92_class_decides`, `C92_unknown_class`, `C92_case_does_not_matter`, `C92_loaded_is_not_built` |
| C93 | Which slit a channel has | proved | P_Build | `C93_path`, `C93_no_photometer_behind_a_slit`, `C93_which_slit` |
| C94 | Units of the detector's range are ignored by the optics | proved | P_Build | `C94_range_unit_ignored`, `C94_transmission_column`, `C94_other_units_refuted`, `C94_warm_needs_overlap`, `C94_warm_optics_in_other_units_refuted` |
| C95 | Building twice | proved | P_Build | `C95_built_twice` |
| C96 | Complete descriptions can be built | proved | P_Ready | `C96_photometer_builds`, `C96_spectrometer_builds`, `C96_complete_payload_builds` |
| C97 | From complete descriptions to an observation | proved | P_Mission | `C97_build_then_observe` |
| C98 | What a built channel is made of | proved | P_Parts | `C98_from_the_description`, `C98_photometer`, `C98_spectrometer`, `C98_quantum_efficiency` |
| C99 | The emission of the instrument | proved | P_Emission | `C99_emission` |
| C100 | Lists of channels of a class | proved | P_Payload | `C100_channels_of_a_class`, `C100_single_channel_fails`, `C100_class_is_needed`, `C100_no_channels` |
| C101 | Payloads written to a file are loaded | proved | P_Payload | `C101_written_channels_are_loaded`, `C101_order_of_channels_is_kept_refuted`, `C101_unknown_class`, `C101_missing_parts` |
| C102 | Channels loaded from a file cannot observe | proved | P_Payload | `C102_loaded_channels_cannot_observe`, `C102_in_memory_they_can` |
| C103 | What may be passed as payload | proved | P_Payload | `C103_other_files_are_refused`, `C103_other_objects_are_refused`, `C103_xml_files`, `C103_hdf5_files`, `C103_dictionaries`, `C103_range_is_read_last` |
| C104 | A list of targets is observed as if each were alone | proved | P_Campaign | `C104_parallel_and_sequential_alike`, `C104_each_target_as_if_alone`, `C104_every_complete_target_is_observed` |
| C105 | A run leaves a file from which everything can be read back | proved | P_Campaign, P_Run | `C105_from_descriptions_to_results`, `C105_a_run_is_read_back`, `C105_further_targets` |
| C106 | What the figure of a table shows | proved | P_Plot | `C106_signal_curves`, `C106_noise_curves`, `C106_bands`, `C106_enumeration_does_not_matter`, `C106_ticks`, `C106_every_edge_is_labelled_refuted`, `C106_drawn_exactly_if_complete` |
| C107 | The plot command draws the chosen targets of a file, each into its own image | proved | P_PlotCommand | `C107_all_targets`, `C107_numbered_targets`, `C107_number_out_of_range`, `C107_named_target`, `C107_refused`, `C107_first_failure_ends`, `C107_figures_of_a_run` |
| C108 | Plots asked for while observing | proved | P_PlotObserve | `C108_plots_without_directory_lose_every_target`, `C108_plots_change_no_result`, `C108_undrawable_target_is_lost`, `C108_image_of_a_target` |
| C109 | The efficiency figure shows transmission, quantum efficiency and their product for every channel | proved | P_PlotObserve | `C109_photon_conversion_efficiency`, `C109_where_the_figure_goes`, `C109_without_channels`, `C109_loaded_channels_have_no_figure` |
| C110 | Every observed target can be drawn | proved | P_PlotMission, P_PlotTarget | `C110_every_complete_target_has_its_image`, `C110_every_observed_target_is_drawn`, `C110_one_band_per_channel`, `C110_plots_change_no_result` |
| C111 | Files a run may touch | proved | P_Command | `C111_a_run_stays_in_its_directory`, `C111_no_output_no_file`, `C111_images_of_a_run` |
| C112 | What a run does to its inputs | proved | P_Command | `C112_inputs_are_kept_and_copied`, `C112_inputs_of_the_same_name`, `C112_output_over_an_input`, `C112_a_file_in_place_of_the_directory` |
| C113 | The output of the command and the results it held before | proved | P_Command, P_CommandRun | `C113_a_failed_run_destroys_former_results`, `C113_former_results_do_not_matter`, `C113_the_output_of_a_run`, `C113_without_replace_nothing_is_lost`, `C113_what_is_no_archive_is_left_alone`, `C113_the_command_leaves_a_readable_output` |
| C114 | Itemising the instrument's light does not change the noise | proved | P_Full, P_FullMission | `C114_itemising_leaves_the_noise`, `C114_itemising_a_payload` |
| C115 | A fainter star: its own columns scale, nothing else improves | proved | P_Bright, P_BrightMission | `C115_brightness`, `C115_distance`, `C115_radius` |
| C116 | Where messages go: log files and console over the runs of a process | proved | P_Log | `C116_log_file`, `C116_first_log`, `C116_nothing_is_lost`, `C116_once_refuted`, `C116_console`, `C116_log_file_that_cannot_be_opened` |
| C117 | The telescope's area scales the star, and the star only | proved | P_Area | `C117_area` |
| C118 | A brighter foreground scales its own columns only and never helps | proved | P_Glow | `C118_brighter_foreground` |
| C119 | A grey filter in front of the optics scales all light by its transmission and never helps | proved | P_Filter | `C119_grey_filter` |
| C120 | Noisier detectors change nothing but the noise, and never improve it | proved | P_Wells, P_Worse | `C120_automatic_frame_times`, `C120_noisier_detectors` |
| C121 | A detector of lower quantum efficiency counts all light in proportion and is never less noisy | proved | P_Faded | `C121_lower_quantum_efficiency` |
| C122 | Files named in an options document are read under the path in force and put in their place | proved | P_Files | `C122_documents_with_files`, `C122_readable_documents_load`, `C122_unreadable_table_fails`, `C122_other_table_types_fail`, `C122_other_dictionaries_fail`, `C122_two_files_fail`, `C122_dictionaries_need_a_path`, `C122_config_dict_is_the_section`, `C122_config_dict_keeps_its_siblings_refuted`, `C122_other_tags_are_untouched` |
| C123 | Warmer or more emissive optics never help | proved | P_Warm | `C123_warmer_optics` |
| C124 | The rebinning that conserves the area | proved | P_Rebin | `C124_units_refused`, `C124_agrees_where_interpolating`, `C124_covered_bins_within_samples`, `C124_light_conserved`, `C124_ends_refuted` |
| C125 | Where light is counted there are numbers: automatic frame times and noise | proved | P_Seen | `C125_automatic_frame_times`, `C125_noise_where_light_is_counted` |
| C126 | Stars, foregrounds, larger telescopes, filters, warm optics and worse detectors with automatic frame times | proved | P_Auto, P_Framed, P_Hot, P_Skies | `C126_distance`, `C126_radius`, `C126_area`, `C126_fainter_no_less_noise_refuted`, `C126_grey_filter`, `C126_quantum_efficiency`, `C126_warmer_optics`, `C126_brighter_foreground` |
| C127 | The command line is read as it is written | proved | P_Args | `C127_as_asked`, `C127_any_order`, `C127_refused`, `C127_status_of_refusals`, `C127_help`, `C127_nothing_passed_over` |
| C128 | What the command does to the files | proved | P_Shell | `C128_a_refused_command_touches_nothing`, `C128_help_touches_nothing`, `C128_no_output_no_file`, `C128_runs_what_is_asked`, `C128_stays_in_its_directory`, `C128_failure_is_harmless_refuted` |
| C129 | Scattering and gathering over processes | proved | P_Mpi | `C129_scatter_then_gather`, `C129_scatter_returns`, `C129_scatter_refuses`, `C129_without_mpi`, `C129_data_at_the_root_only_refuted`, `C129_enough_items_refuted` |

## 5. Which code is modelled

Every definition of an `M_*.v` file carries the lines it models. By file:

* `M_Args.v`: Model of the command line: exorad/exorad.py:124-213 (main), with Python's argparse. Definitions only. argparse is modelled by its algorithm (Python 3.8 to 3.11): every word is first classified as an option or a value, then the words are consumed from the left. Simplified: that the text of a number is an integer, and which one, is an argument; a negative number ending in a newline is not taken for one; the text printed before leaving is left out, and only the exit status is kept (0: help, 2: an error of the command line, 1: an exception).
* `M_Bins.v`: Model of the spectral bins of the channels: Photometer._wavelength_table (models/instruments/photometer.py:18-36), Spectrometer._wavelength_table and the pixel and window part of Spectrometer.builder (spectrometer.py:25-185, 251-333), Photometer._windows_size (photometer.py:90-132), and the binned columns of Instrument (instrument.py:240-341). Definitions only. Wavelengths are in um; arithmetic is exact.
* `M_Build.v`: Model of the building of channels: Instrument.build and build_optical_path (models/instruments/instrument.py:86-154), Photometer.builder (photometer.py:38-132), Spectrometer.builder (spectrometer.py:111-324), prepare (utils/diffuse_light_propagation.py:14-54), BuildInstrument and BuildChannels (tasks/instrumentHandler.py:58-72, 103-153). Definitions only. Units: the band, pixels and focal ratios are in um and dimensionless; the range of the detector keeps its unit, since build_optical_path ignores it. Detector keys other than those which are options here are assumed present. What a failing build leaves behind is not modelled.
* `M_Command.v`: Model of what a run does to the file system: exorad/exorad.py:39-121 (standard_pipeline) and exorad/exorad.py:124-213 (main). Definitions only. Simplifications: paths are absolute lists of names, without links, permissions or ".."; the log file of [log=True] is not modelled; reading a payload or a target list is any function of the argument and of the content found there; observing is any function of the payload and the list that returns the entries (Model M_Pipeline) and the images drawn, an image that cannot be saved not being among them; the content of the output file is that of M_Hdf5. os.path.exists, os.remove, os.makedirs and shutil.copy follow their documentation.
* `M_Foreground.v`: Model of tasks/foregroundHandler.py (EstimateZodi 31-66, EstimateForeground 88-126, EstimateForegrounds 148-187), models/foregrounds/skyForegrounds.py (SkyForeground 21-55) and models/foregrounds/zodiacalForeground.py (ZodiacalFrg 32-132). Definitions only. Wavelengths are in um, radiances in W/m^2/sr/um, angles in degrees; arithmetic is exact. What a failing call leaves behind in the target is not modelled.
* `M_Full.v`: Model of the full contributions, exorad/exorad.py:87-97 (standard_pipeline with full_contrib) and of the signal table they are taken from, models/optics/opticalPath.py:350-352. Definitions only.
* `M_Hdf5.v`: Model of exorad/output/hdf5/util.py, exorad/output/hdf5/hdf5.py and the dictionary part of exorad/output/output.py: storing nested dictionaries in an HDF5 file and loading them. Definitions only. Simplifications: dataset values are opaque ([V]); names containing '/' (which h5py would turn into nested groups) and HDF5 attributes are not modelled; keys are strings, i.e. [str(key)] has already been applied; the truncation of array strings to 64 bytes (hdf5.py:132) is not modelled.
* `M_Light.v`: Model of exorad/utils/diffuse_light_propagation.py, OpticalPath.compute_signal (models/optics/opticalPath.py:283-362), Instrument.propagate_diffuse_foreground (models/instruments/instrument.py:170-238). Definitions only. Numbers are reals in the units the code converts to (um, m^2, sr, count/s); unit bookkeeping itself is not modelled here.
* `M_Log.v`: Model of the log: exorad/log/__init__.py:56-92, exorad/log/logger.py:49-82 and the part of standard_pipeline (exorad/exorad.py:50-60) that sets it up. Definitions only. Python's logging: a message at a level below that of the logger "exorad" (DEBUG; its children have none of their own, and it does not propagate) is dropped, any other is offered to the handlers of "exorad" in the order in which they were added; each drops what is below its own level. Simplified: the text of a message stands for the formatted line; that a file can be opened for appending is an argument, and so is the absolute path of a name.
* `M_Mpi.v`: Model of utils/mpi.py: the processes of a parallel run, all of which run the same program. Definitions only. Simplifications: mpi4py either is installed for all processes or for none ([None]); importing it without its being there is [OtherError]. The lower case scatter and gather of mpi4py follow their documentation: they copy objects (pickling is taken to be exact), scatter wants as many items as there are processes at the root and looks at nothing elsewhere. A process that has entered a collective operation which another one never enters is taken to wait for ever; MPI lets it return in some cases. @lru_cache changes nothing, neither number ever changing.
* `M_Noise.v`: Model of exorad/models/noise.py and exorad/tasks/noiseHandler.py. Definitions only. Simplifications: values are numbers in fixed units (counts, s, micron; rates in ct/s), 3600 is the number of seconds per hour; masked cells are read as NaN; the detector keys other than frame_time, f_well_depth, multiaccumM are assumed present; customNoise with a "data" table (noise.py:175-192) is not modelled.
* `M_Observe.v`: Model of ObserveTarget (tasks/targetHandler.py:188-264) and of the tasks it is made of as far as they are not modelled elsewhere: PrepareTarget (targetHandler.py:67-97), PropagateForegroundLight and PropagateTargetLight (tasks/propagateLight.py:5-86). Definitions only. Channels are shared objects: what is done to their tables stays, also when the observation fails. What a failing observation leaves behind in the target is not modelled.
* `M_Omega.v`: Model of OmegaPix, utils/exolib.py:525-566, the solid angle under which a pixel sees the optics. Definitions only. Arithmetic is exact; mpmath.ellippi is the complete elliptic integral of the third kind.
* `M_Optics.v`: Model of exorad/models/optics/opticalElement.py and opticalPath.py (elements, transmission table, emission chain), and exorad/models/utils.py. Definitions only.
* `M_Options.v`: Model of exorad/tasks/loadOptions.py (LoadOptions) and exorad/utils/passVal.py. Definitions only.
* `M_Payload.v`: Model of the payload tasks of exorad/tasks/instrumentHandler.py: GetChannelList (320-370), LoadPayload (153-203) and PreparePayload (206-282), of Instrument.load and Instrument.build on a loaded instrument (exorad/models/instruments/instrument.py:63-70, 86-99) and of the part of observing that reads the processed instrument (instrument.py:343-360, exorad/utils/diffuse_light_propagation.py:14-41). Definitions only. Simplifications: numeric values are opaque; a unit is the product of named units, and two units can be converted if they have the same dimensions; h5py lists names alphabetically.
* `M_Pipeline.v`: Model of exorad/tasks/targetHandler.py:267-401 (pipeline_to_dict, ObserveTargetlist), exorad/log/__init__.py:56-80, the file part of exorad/exorad.py:39-121 (standard_pipeline), exorad/tasks/instrumentHandler.py:75-150, 206-288 (writing of the payload) and exorad/models/target.py:43-49. Definitions only. Simplifications: Target and channel objects are abstract; observing a target is any function of the channels and the target that may change the channels (they are shared objects); the result of a worker process is the same whether or not it travels through pickle; a killed worker (BrokenProcessPool) is not modelled; plots either succeed or raise.
* `M_Plot.v`: Model of exorad/utils/plotter.py (the Plotter class and the command exorad-plot), of efficiency_plot (exorad/exorad.py:24-37) and of the plots of observed targets (exorad/tasks/targetHandler.py:294-306). Definitions only. What is modelled of a figure is its data: title, curves with labels, bands, ticks of the wavelength axis. Simplifications: colours, scales, legends and layout are left out; drawing and writing an image do not fail by themselves; a column of text among the drawn ones ends in a TypeError; the rows of a table are as many in every column.
* `M_Psf.v`: Model of the point spread functions of utils/exolib.py (193-508) and of the gain table of a spectrometer (models/instruments/spectrometer.py:190-237). Definitions only. An image is a list of rows; arithmetic is exact; lengths are in um.
* `M_Rebin.v`: Model of rebin_, the second rebinning function of exorad/utils/exolib.py (118-164). Grids and samples are real numbers (NaN is not modelled); numpy.interp is the linear interpolation of M_Signal, which is what it computes on sources of increasing wavelength.
* `M_Shell.v`: Model of the command exorad as a whole: exorad/exorad.py:124-213 (main with argparse, M_Args) and what its call of standard_pipeline does to the file system (M_Command). Definitions only. Simplified: the log file of --log is left out (M_Log, M_Command); [resolve] is the path a name stands for in the working directory; the exit status is that of the Python interpreter: 1 after an exception.
* `M_Signal.v`: Model of exorad/models/signal.py and of exorad/utils/exolib.py: rebin. Definitions only.
* `M_Source.v`: Model of the stellar source: utils/exolib.py: planck (167-190), models/source.py (17-269), models/target.py: calc_logg and update_target (26-42), tasks/loadSource.py: LoadSource (48-205). Definitions only. Lengths of the star are in m, masses in kg, temperatures in K, wavelengths in um, fluxes in W/m^2/um; arithmetic is exact.
* `M_Star.v`: Model of the propagation of the star's light: Instrument._get_efficiency and _window_function (models/instruments/instrument.py:343-388), Photometer.propagate_target (photometer.py:134-208) and Spectrometer.propagate_target (spectrometer.py:336-422). Definitions only. Units as in M_Light: um, W/m^2/um, m^2, count/s; arithmetic is exact.
* `M_Table.v`: Model of the target and channel tables (astropy QTable): exorad/utils/util.py:79-94, exorad/tasks/targetHandler.py:67-185, exorad/tasks/instrumentHandler.py:292-316, exorad/exorad.py:87-97. Definitions only. Simplifications: the values of a column are in one fixed unit (unit conversions and unit mismatches are not modelled); dtypes are not modelled.
* `M_TargetList.v`: Model of exorad/models/targetlist.py and LoadTargetList (exorad/tasks/targetHandler.py:14-64). Definitions only. Simplifications: reading the file (astropy.io.ascii, xlrd) is the input of the model: a list of columns; masked cells are not modelled; numbers are opaque ([V]); u.Unit is the parameter [unit_ok]; a number times a unit is kept as a pair.
* `M_Task.v`: Model of exorad/tasks/task.py (class Task). Definitions only.
* `M_Util.v`: Model of exorad/utils/util.py: parse_range, chunks, to_dict (and progressbar's iteration). vstack_tables is in M_Table. Definitions only.
* `M_Version.v`: Model of exorad/utils/version_control.py:20-39, 62-83: the update check on the lines of the published change log. Definitions only. The network part (23, 41-60, 85-101) is not modelled: the content is an argument. Line break characters are represented by ["010"].

Not modelled:

* Colours, scales, legends and layout of figures (of `utils/plotter.py` the data are modelled), `utils/ascii_art.py`, the formatting of log messages, the network part of
  `utils/version_control.py`.
* Reading files: astropy's `ascii.read`/`QTable.read`, `xlrd`, `h5py` itself, FITS. What is read is an argument.
* Custom noise given as a "data" table (noise.py:175-192); `load_pixel_psf_size` and the reading of PSF files.
* Rounding of floating point numbers and overflow; dtypes; signed zero; unit bookkeeping (values are in the unit the code
  converts to; a few checks that units are present are modelled where they decide the outcome).
* `scipy`, `numpy`, `photutils`, `mpmath`: by their mathematical definition (interp1d, trapz, argmin, ellippi, ...), or as
  arguments over which theorems quantify (PSF images, kernels, sky-coordinate transformations).
* Messages of exceptions (only the class is kept), warnings; which messages are logged (M_Log: where they go).

## 6. Print Assumptions of each theorem

Abbreviations: S = `ClassicalDedekindReals.sig_forall_dec`, N = `ClassicalDedekindReals.sig_not_dec`, C = `Classical_Prop.classic`,
F = `FunctionalExtensionality.functional_extensionality_dep`; "closed" = closed under the global context. All four are axioms of
the standard library; S, N, F come with its real numbers, C with some of its lemmas about them. Nothing else appears.

* **S** (4): `C25_slit_width`, `C25_fails_iff_slit_without_width`, `C27_radiance_position`, `C27_given_solid_angle_used_refuted`.
* **F** (1): `C113_former_results_do_not_matter`.
* **S F** (129): `C08_vstack_is_the_stack`, `C08_every_cell_kept`, `C08_vstack_succeeds`, `C08_inputs_only_gain_constant_columns`, `C08_leading_empty_tables_dropped`, `C08_inputs_untouched_refuted`, `C10_max_signal_is_the_sum`, `C10_estimating_again_counts_the_total`, `C11_one_block_per_channel`, `C12_no_light_infinite_frame_time`, `C13_gains_in_range`, `C13_gains_monotone`, `C13_dependence_on_M`, `C18_element_named_Max_changes_the_maximum`, `C20_built_iff_consistent`, `C20_units_converted`, `C20_errors`, `C20_time_dependence`, `C21_values_within_samples`, `C21_sign_and_unit_interval_kept`, `C22_one_value_per_grid_point`, `C22_ordered_grid_without_duplicates`, `C22_unordered_grid_kept`, `C22_nan_target_fails`, `C22_only_value_error`, `C22_signal_on_increasing_grid`, `C22_signal_shape_kept_refuted`, `C23_interpolation`, `C23_binning`, `C23_interior_bins_filled`, `C23_linear`, `C23_constant_reproduced_refuted`, `C24_paths_are_sampled`, `C24_total_is_product`, `C24_element_columns`, `C24_within_unit_interval`, `C24_more_elements_less_light`, `C24_order_irrelevant`, `C25_attenuated_by_what_follows`, `C26_elements_of_a_section`, `C30_each_foreground_alone`, `C30_attenuation_by_filters_refuted`, `C30_foreground_signal`, `C32_photometer_bin`, `C34_slit_bins_conserve_light`, `C34_star_bins_conserve_light`, `C35_terminates_iff_no_edge_repeats`, `C35_next_edge`, `C35_terminates_when_bins_are_wide`, `C35_needs_three_edges`, `C35_first_bin_may_be_negative_refuted`, `C35_always_terminates_refuted`, `C36_spectrometer_window`, `C36_windows_positive`, `C36_spectral_extents_add_up`, `C36_prescribed_pixels`, `C52_nearest_model`, `C52_a_model_is_found`, `C54_kernel_weight`, `C54_pixel_area`, `C54_modf`, `C56_slit`, `C56_slit_multiplies_constant_light`, `C56_slit_failures`, `C56_slit_linear`, `C56_integration_linear`, `C59_constant_in_band`, `C59_defaults_and_choice`, `C59_emissivity`, `C59_file_values_in_range`, `C59_named_wavelength_column_fails`, `C60_transmission_at_centres`, `C60_transmission_between_0_and_1`, `C60_transmission_in_general`, `C60_flag_required`, `C61_own_grid_identity`, `C61_rebinning_idempotent`, `C63_solution_is_one_to_one`, `C63_pixels_cover_the_band`, `C64_photometer_signal`, `C64_photometer_bounds`, `C64_photometer_linear`, `C65_spectrometer_signal`, `C65_spectrometer_bounds`, `C65_spectrometer_scaling`, `C66_aperture_fraction`, `C67_sky_dims_the_star`, `C67_star_columns_ignore_history`, `C67_reported_sky_may_be_stale`, `C68_every_bin_needs_a_pixel`, `C69_binning_bounds`, `C69_point_becomes_the_pixel`, `C69_binning_is_linear`, `C70_gain_table_covers_the_pixels`, `C71_nearest_psf`, `C72_interpolated_psf`, `C72_interpolation_fails_at_the_end`, `C72_paos_psf`, `C73_search_ends`, `C73_radius_holds_the_energy`, `C75_metal_rich_names_are_unreadable`, `C75_metal_poor_names_misread_refuted`, `C78_bounds`, `C106_signal_curves`, `C106_noise_curves`, `C106_bands`, `C106_enumeration_does_not_matter`, `C106_ticks`, `C106_every_edge_is_labelled_refuted`, `C106_drawn_exactly_if_complete`, `C107_all_targets`, `C107_numbered_targets`, `C107_number_out_of_range`, `C107_named_target`, `C107_refused`, `C107_first_failure_ends`, `C107_figures_of_a_run`, `C108_plots_without_directory_lose_every_target`, `C108_plots_change_no_result`, `C108_undrawable_target_is_lost`, `C108_image_of_a_target`, `C109_photon_conversion_efficiency`, `C109_where_the_figure_goes`, `C109_without_channels`, `C109_loaded_channels_have_no_figure`, `C124_units_refused`, `C124_covered_bins_within_samples`, `C124_light_conserved`, `C124_ends_refuted`.
* **S C** (1): `C25_only_emitting_elements`.
* **S N F** (32): `C12_automatic_frame_time`, `C12_given_frame_time_used_unchanged`, `C12_no_well_fraction_fails`, `C14_row_formula`, `C14_at_least_each_contribution`, `C14_monotone`, `C15_nan_exactly_without_star_signal`, `C16_quadrature`, `C16_order_irrelevant`, `C16_incomplete_entry_discards_the_rest`, `C16_contribution_named_total_overwrites`, `C17_rows_aligned`, `C17_depends_on_own_rows_only`, `C17_estimate_succeeds`, `C18_only_the_sum_of_signals_matters`, `C18_full_contributions_same_noise`, `C19_noise_columns_become_signals`, `C19_maximum_signal_doubles`, `C19_frame_time_halves`, `C27_position_by_type`, `C27_signal_without_slit`, `C28_sum_of_element_signals`, `C28_elements_do_not_interfere`, `C28_nothing_emits`, `C28_nonnegative`, `C30_nonnegative`, `C36_photometer_window`, `C70_gain`, `C74_last_sample_dropped`, `C79_nearest_on_the_sky_refuted`, `C79_nearest_on_a_parallel`, `C126_fainter_no_less_noise_refuted`.
* **S C F** (6): `C22_fails_iff_few_sources`, `C88_curve_on_a_grid`, `C88_photometer_succeeds`, `C88_spectrometer_succeeds`, `C88_foregrounds_succeed`, `C124_agrees_where_interpolating`.
* **closed** (158): `C01_unknown_keyword_rejected`, `C02_body_sees_kwargs_over_defaults`, `C03_return_value_over_history`, `C03_task_without_parameters_never_runs`, `C03_fresh_output_refuted`, `C04_loaded_dictionary_represents_document`, `C04_denotation_unique`, `C04_wellformed_documents_load`, `C04_element_without_text_fails`, `C05_distinct_repetitions_all_kept`, `C05_equal_values_are_kept_refuted`, `C05_first_occurrence_without_value_fails`, `C06_values_resolved_with_path_in_force`, `C06_path_after_load`, `C06_placeholder_without_path_fails`, `C07_working_resolution_is_the_last_one_loaded`, `C08_no_tables`, `C09_update_replaces_exactly_the_new_columns`, `C09_update_twice_is_update_once`, `C09_previous_object_loses_columns`, `C26_distinct_names_all_kept`, `C26_shared_name_takes_common_place`, `C30_no_foreground_attribute`, `C37_results_under_their_names`, `C37_failures_share_one_entry`, `C37_list_order`, `C37_outcomes_do_not_depend_on_neighbours`, `C38_any_schedule_gives_the_same_dictionary`, `C38_parallel_equals_sequential`, `C38_parallel_equals_sequential_unmodified`, `C38_no_deadlock`, `C38_every_schedule_ends`, `C38_parallel_equals_sequential_refuted`, `C39_a_prefix_is_saved`, `C39_saved_targets_are_complete`, `C39_nothing_saved_after_the_first_failure`, `C40_level_after_observing`, `C40_levels_while_observing`, `C40_debug_is_kept_refuted`, `C41_replace_discards_previous_output`, `C41_replace_deletes_its_own_payload`, `C41_without_replace_everything_is_kept`, `C41_rerun_without_replace_fails`, `C41_rerun_fails_on_saved_targets`, `C42_csv_one_target_per_row`, `C42_csv_well_formed_loads`, `C42_mrs_one_target_per_row`, `C42_mrs_headers`, `C42_qtable_one_target_per_row`, `C42_xlsx_one_target_per_row`, `C43_dispatch`, `C43_reader_errors`, `C43_qtable`, `C43_no_fallback_for_native_lists`, `C44_range_expression_lists_its_integers`, `C44_interval_is_inclusive`, `C44_all_and_none`, `C44_malformed_piece_gives_nothing`, `C44_malformed_is_always_rejected_refuted`, `C45_chunks_partition_the_list`, `C45_zero_chunk_size_raises`, `C45_negative_chunk_size_loses_everything`, `C46_public_data_is_exported`, `C46_nothing_else_is_exported`, `C46_idempotent_without_tables`, `C46_idempotent_with_tables_refuted`, `C47_saved_dictionaries_are_read_back`, `C47_saved_group_is_read_back`, `C47_every_quantity_keeps_its_unit_refuted`, `C47_dotted_table_names_break_loading`, `C47_tables_are_read_back`, `C47_unlike_items_are_numbered`, `C47_unlike_items_are_read_back`, `C48_existing_data_is_kept`, `C48_success_means_no_clash`, `C48_success_means_no_clash_in_group`, `C48_clash_raises`, `C49_append_keeps_everything`, `C49_no_append_discards_everything`, `C49_new_file_has_info`, `C49_info_is_written_once`, `C49_every_opened_file_has_info`, `C51_header`, `C57_reports_iff_first_heading_is_another_version`, `C57_force_raises_iff_reported`, `C57_reported_version_is_between_the_brackets`, `C57_bracket_never_closed`, `C57_reported_changes`, `C57_newer_only_refuted`, `C58_search_returns_the_matches`, `C58_star_only_lists_fail`, `C58_search_succeeds`, `C84_no_channels`, `C92_loaded_is_not_built`, `C100_channels_of_a_class`, `C100_single_channel_fails`, `C100_class_is_needed`, `C100_no_channels`, `C101_written_channels_are_loaded`, `C101_order_of_channels_is_kept_refuted`, `C101_unknown_class`, `C101_missing_parts`, `C102_loaded_channels_cannot_observe`, `C102_in_memory_they_can`, `C103_other_files_are_refused`, `C103_other_objects_are_refused`, `C103_xml_files`, `C103_hdf5_files`, `C103_dictionaries`, `C103_range_is_read_last`, `C105_a_run_is_read_back`, `C105_further_targets`, `C111_a_run_stays_in_its_directory`, `C111_no_output_no_file`, `C111_images_of_a_run`, `C112_inputs_are_kept_and_copied`, `C112_inputs_of_the_same_name`, `C112_output_over_an_input`, `C112_a_file_in_place_of_the_directory`, `C113_a_failed_run_destroys_former_results`, `C113_the_output_of_a_run`, `C113_without_replace_nothing_is_lost`, `C113_what_is_no_archive_is_left_alone`, `C113_the_command_leaves_a_readable_output`, `C116_log_file`, `C116_first_log`, `C116_nothing_is_lost`, `C116_once_refuted`, `C116_console`, `C116_log_file_that_cannot_be_opened`, `C122_documents_with_files`, `C122_readable_documents_load`, `C122_unreadable_table_fails`, `C122_other_table_types_fail`, `C122_other_dictionaries_fail`, `C122_two_files_fail`, `C122_dictionaries_need_a_path`, `C122_config_dict_is_the_section`, `C122_config_dict_keeps_its_siblings_refuted`, `C122_other_tags_are_untouched`, `C127_as_asked`, `C127_any_order`, `C127_refused`, `C127_status_of_refusals`, `C127_help`, `C127_nothing_passed_over`, `C128_a_refused_command_touches_nothing`, `C128_help_touches_nothing`, `C128_no_output_no_file`, `C128_runs_what_is_asked`, `C128_stays_in_its_directory`, `C128_failure_is_harmless_refuted`, `C129_scatter_then_gather`, `C129_scatter_returns`, `C129_scatter_refuses`, `C129_without_mpi`, `C129_data_at_the_root_only_refuted`, `C129_enough_items_refuted`.
* **S N C F** (134): `C29_product`, `C29_order`, `C29_zodi_transparent`, `C31_accumulates`, `C31_power`, `C31_other_length`, `C33_fixed_resolution_tiles`, `C35_table_resolution_tiles`, `C36_native_bins_are_one_pixel`, `C50_inverse_square`, `C50_luminosity`, `C50_radius`, `C50_nonneg`, `C51_case_insensitive`, `C51_name_or_dictionary`, `C51_unknown_is_planck`, `C51_what_is_used`, `C51_incomplete_target`, `C52_model_of_the_star`, `C53_positive_and_increasing`, `C53_rayleigh_jeans`, `C53_wien`, `C53_displacement`, `C53_single_peak`, `C53_close_to_plancks_law`, `C55_omega_is_the_solid_angle`, `C55_circular`, `C55_slower_beams_see_less`, `C55_bounds`, `C60_constant_quantum_efficiency`, `C60_tabulated_quantum_efficiency`, `C60_quantum_efficiency_failures`, `C62_one_bin_per_pixel`, `C62_no_pixel_fails`, `C62_linear_solution_tiles`, `C62_native_bins_tile_refuted`, `C68_native_bins_have_a_pixel`, `C70_strehl`, `C70_gain_bounds`, `C75_temperature_out_of_range`, `C75_one_unreadable_name`, `C76_wavelengths_of_the_source`, `C76_order`, `C76_bare_numbers_are_um`, `C76_mixed_fails`, `C76_other_units_refuted`, `C77_amount`, `C77_proportional`, `C77_positive`, `C77_always_without_map`, `C77_failed_fit`, `C77_other_failures`, `C78_sky_filter`, `C78_complete_tables_suffice`, `C78_rows_in_any_order`, `C78_units`, `C78_failures`, `C78_bare_range`, `C79_missing_custom_map`, `C80_last_wins`, `C80_all_foregrounds_count_refuted`, `C81_as_if_alone`, `C82_fails_as_one_alone`, `C82_same_error`, `C83_foreground_columns_refuted`, `C83_history_free`, `C83_channels_kept`, `C84_no_foregrounds_refuted`, `C84_order`, `C85_what_the_table_holds`, `C85_light_of_the_star`, `C85_header`, `C85_header_of_the_star`, `C86_noise_follows_from_the_table`, `C86_brightest_pixel`, `C87_an_observation_succeeds`, `C89_complete_descriptions_observe`, `C89_working_channels_observe`, `C90_built_channels_are_instruments`, `C90_rows_are_bins`, `C90_bins`, `C91_one_by_one`, `C91_single_channel`, `C91_missing`, `C92_class_decides`, `C92_unknown_class`, `C92_case_does_not_matter`, `C93_path`, `C93_no_photometer_behind_a_slit`, `C93_which_slit`, `C94_range_unit_ignored`, `C94_transmission_column`, `C94_other_units_refuted`, `C94_warm_needs_overlap`, `C94_warm_optics_in_other_units_refuted`, `C95_built_twice`, `C96_photometer_builds`, `C96_spectrometer_builds`, `C96_complete_payload_builds`, `C97_build_then_observe`, `C98_from_the_description`, `C98_photometer`, `C98_spectrometer`, `C98_quantum_efficiency`, `C99_emission`, `C104_parallel_and_sequential_alike`, `C104_each_target_as_if_alone`, `C104_every_complete_target_is_observed`, `C105_from_descriptions_to_results`, `C110_every_complete_target_has_its_image`, `C110_every_observed_target_is_drawn`, `C110_one_band_per_channel`, `C110_plots_change_no_result`, `C114_itemising_leaves_the_noise`, `C114_itemising_a_payload`, `C115_brightness`, `C115_distance`, `C115_radius`, `C117_area`, `C118_brighter_foreground`, `C119_grey_filter`, `C120_automatic_frame_times`, `C120_noisier_detectors`, `C121_lower_quantum_efficiency`, `C123_warmer_optics`, `C125_automatic_frame_times`, `C125_noise_where_light_is_counted`, `C126_distance`, `C126_radius`, `C126_area`, `C126_grey_filter`, `C126_quantum_efficiency`, `C126_warmer_optics`, `C126_brighter_foreground`.

{"id": "C01", "title": "A task call with an undeclared keyword fails before doing anything", "statement": "Calling any task with a keyword that was not declared with addTaskParam raises ValueError; the task body is not executed, and the output available from get_output is the one left by earlier calls.", "quantifier": "every task (any set of declared parameters, any body), every keyword set, every history of earlier calls on the same instance", "why_tests_cant": "The keyword set, the declared set and the call history are unbounded; a test can only try a few misspelt keywords.", "anchors": ["exorad/tasks/task.py: Task.__call__, _validate_input_params"]}
{"id": "C02", "title": "A task body sees exactly the passed keywords overlaid on the declared defaults, and nothing from earlier calls", "statement": "During the body of a task call each declared parameter has the value passed in that call, or its declared default (the last addTaskParam wins) if it was not passed; no value passed in an earlier call is visible, and no other parameter exists.", "quantifier": "every declaration sequence, every call history, every keyword assignment", "why_tests_cant": "Leaks between calls only show on particular histories of calls on a shared instance (exorad.py keeps module-level task instances).", "anchors": ["exorad/tasks/task.py: Task.__call__, _populate_empty_param, get_task_param, addTaskParam", "exorad/exorad.py: standard_pipeline"]}
{"id": "C03", "title": "What a task call returns over a history of calls", "statement": "A call returns the product set by set_output during that call; if the body of that call never sets an output it returns the product of the most recent call that did (None if none did) - also when intermediate calls raised. A task that declares no parameter cannot be called successfully at all.", "quantifier": "every history of calls (succeeding, failing, silent) on one instance", "why_tests_cant": "Stale outputs appear only for particular call histories.", "anchors": ["exorad/tasks/task.py: Task.get_output, set_output, __call__"]}
{"id": "C04", "title": "XML options: each element becomes one dictionary entry with attributes, children and a typed value", "statement": "For a document without repeated sibling tags, LoadOptions returns a dictionary with one key per child tag, in document order; each entry holds the child entries, the element's attributes (which override children of the same name) and, when the text is non-blank, a 'value' entry typed as: integer if the text is a Python integer literal, else float, else True/False, else the text; with a unit attribute a number is multiplied by that unit ('dimensionless' meaning no unit). Blank text yields no 'value'; a childless element written <a/> makes the load fail with AttributeError.", "quantifier": "every XML tree of any depth and width", "why_tests_cant": "Recursive structure with unbounded depth, width and text; tests cover the few example payloads.", "anchors": ["exorad/tasks/loadOptions.py: LoadOptions.__parser__, compactString"]}
{"id": "C05", "title": "Repeated sibling tags are all kept, in document order, exactly when their values are distinct", "statement": "When a tag occurs several times among siblings (channel, opticalElement, customNoise...), the dictionary holds for that tag an ordered mapping value -> entry listing every occurrence in document order provided their values are pairwise different; occurrences with equal values overwrite each other (so two customNoise entries of the same level lose one), and an occurrence list whose first element has no value makes the load fail with KeyError.", "quantifier": "any number of repetitions of a tag with any values", "why_tests_cant": "The number of repetitions and the coincidences of values are unbounded.", "anchors": ["exorad/tasks/loadOptions.py: LoadOptions.__parser__ (root_dict handling of repeated tags)"]}
{"id": "C06", "title": "__ConfigPath__ placeholders are resolved with the configuration path in force", "statement": "In every string value the placeholder __ConfigPath__ is replaced by the path given by the last preceding ConfigPath element (document post-order), or by the caller's config_path once any valued element has been processed; a placeholder met with no path in force makes the load fail with TypeError; the path in force at the end of one load is the one in force at the start of the next load on the same instance.", "quantifier": "every document, every history of loads on the same LoadOptions instance", "why_tests_cant": "Order-dependent state threaded through a recursive traversal and across calls.", "anchors": ["exorad/tasks/loadOptions.py: LoadOptions.__parser__, configPath"]}
{"id": "C07", "title": "The working resolution is process-global state shared by successive payloads", "statement": "The working resolution used after a sequence of payload loads is the value of the last working_R element among all documents loaded so far in the process, or the built-in default if none had one: a payload that does not mention working_R inherits the previous payload's value.", "quantifier": "every sequence of payload documents", "why_tests_cant": "Only visible over histories of loads in one process.", "anchors": ["exorad/tasks/loadOptions.py: LoadOptions.__parser__ (working_R)", "exorad/utils/passVal.py: PassVal"]}
{"id": "C08", "title": "Stacking tables keeps every row and every cell, filling only missing columns", "statement": "vstack_tables of non-empty tables returns a table whose rows are the rows of the inputs in order, whose columns are the union of the columns in order of first appearance, in which every cell present in an input is unchanged, and every cell of a column absent from an input is zero (NaN when the first value of that column is not finite). It succeeds whenever text columns are common to all tables. An empty list gives False; tables with no rows before the first non-empty one are dropped. The input tables are modified: they gain the missing columns as constants, and nothing else.", "quantifier": "every list of tables of any sizes and column sets", "why_tests_cant": "Unbounded number of tables, columns and rows; column-set combinations.", "anchors": ["exorad/utils/util.py: vstack_tables"]}
{"id": "C09", "title": "Updating the target table replaces exactly the recomputed columns", "statement": "UpdateTargetTable returns a target whose table has every column of the new table with the new values, every other previous column unchanged, no duplicates, the columns of the new table last and in order; applying the same update twice is the same as once. The table object the target had before loses the replaced columns.", "quantifier": "every pair of tables with equal numbers of rows", "why_tests_cant": "Arbitrary overlap between column sets.", "anchors": ["exorad/tasks/targetHandler.py: UpdateTargetTable"]}
{"id": "C10", "title": "Maximum signal in pixel is the sum of all per-source maxima, once", "statement": "EstimateMaxSignal adds a MaxSignal_inPixel column that equals, row by row, the sum of the columns whose name contains 'Max', and leaves the other columns alone. Estimating it again counts the previous total as one more source: after k estimations the column is k times the sum of the sources.", "quantifier": "every table, every number of sources, repeated application", "why_tests_cant": "Depends on the history of applications and on arbitrary user-chosen element names.", "anchors": ["exorad/tasks/targetHandler.py: EstimateMaxSignal"]}
{"id": "C11", "title": "The target table has one block of rows per channel, in channel order", "statement": "MergeChannelsOutput/PrepareTarget produce a table that consists of each channel's rows, contiguous and in the order of the channel dictionary, each row labelled with its channel name.", "quantifier": "every dictionary of built channels", "why_tests_cant": "Unbounded number of channels and rows.", "anchors": ["exorad/tasks/instrumentHandler.py: MergeChannelsOutput", "exorad/tasks/targetHandler.py: PrepareTarget"]}
{"id": "C12", "title": "No pixel exceeds the allowed well fraction within the automatic frame time", "statement": "When the channel gives no fixed frame_time, the frame time is the same for all rows of the channel and during it no pixel of the channel collects more than f_well_depth * well_depth counts, with equality for the brightest pixel. With a fixed frame_time, that value is used unchanged and no such bound holds.", "quantifier": "every set of maximum pixel signals, well depths and fractions", "why_tests_cant": "Real-valued inputs and arbitrary numbers of spectral bins.", "anchors": ["exorad/models/noise.py: frame_time"]}
{"id": "C13", "title": "MULTIACCUM gains stay in their physical range", "statement": "For every frame time and read frequency, at least two reads are assumed; the read gain is positive, at most 2/M and decreases with the number of reads from two reads on; the shot gain lies between 1 and 6/5, equals 1 at two or three reads, and does not depend on M.", "quantifier": "every frame time > 0, frequency, and M >= 1", "why_tests_cant": "Continuous inputs; extremal cases at floor boundaries.", "anchors": ["exorad/models/noise.py: multiaccum"]}
{"id": "C14", "title": "Total noise is the quadrature sum of its contributions relative to the star signal", "statement": "For a row with positive star signal, total noise without custom noise is sqrt(dark^2 + (1+NoiseX) * sum of squared photon noises + read^2) / star signal; it is at least each contribution divided by the star signal and is monotone in NoiseX, dark current, read noise and every source signal. Each photon noise is sqrt(gain*S/3600) for a signal S.", "quantifier": "every table of non-negative signals, any number of sources, any detector parameters", "why_tests_cant": "Real inputs and arbitrary number of signal columns.", "anchors": ["exorad/models/noise.py: photon_noise, photon_noise_variance", "exorad/tasks/noiseHandler.py: EstimateNoiseInChannel"]}
{"id": "C15", "title": "Rows without star signal have undefined noise, all other rows finite", "statement": "If all signals, window sizes and detector parameters are finite and non-negative and at least one pixel of the channel receives light, the total noise of a row is NaN exactly when the star signal in aperture of that row is zero; custom noise does not change that.", "quantifier": "every channel table", "why_tests_cant": "Needs reasoning on NaN/infinity propagation for all inputs.", "anchors": ["exorad/tasks/noiseHandler.py: EstimateNoiseInChannel"]}
{"id": "C16", "title": "Custom noise adds in quadrature, in any order", "statement": "Adding custom noise contributions of n ppm turns the total noise t into sqrt(t^2 + sum (n*1e-6)^2) whatever the order or nesting (single entry, several entries, common then channel section), and never decreases it. An entry without name or value silently discards itself and all entries after it in its section, while those before it remain applied.", "quantifier": "every list of contributions", "why_tests_cant": "Unbounded number of entries; error swallowing depends on position.", "anchors": ["exorad/models/noise.py: add_custom_noise", "exorad/tasks/noiseHandler.py: EstimateNoiseInChannel"]}
{"id": "C17", "title": "Each noise row describes the spectral bin of the same row", "statement": "EstimateNoise attaches to every row of the target table the noise computed from that row of that channel, provided the channels are given in the order used to build the table: row i of the noise columns depends on row i's channel and signals.", "quantifier": "every set of channels with any number of rows", "why_tests_cant": "Alignment errors need particular combinations of channels and row counts.", "anchors": ["exorad/tasks/noiseHandler.py: EstimateNoise, EstimateNoiseInChannel", "exorad/utils/util.py: vstack_tables"]}
{"id": "C18", "title": "Asking for full contributions does not change the noise", "statement": "Replacing the instrument_signal column by the per-element signal columns (full_contrib) leaves photon noise variance and total noise unchanged.", "quantifier": "every optical path with any number of emitting elements", "why_tests_cant": "Quantifies over all payloads; needs the algebra of sums of squares of square roots.", "anchors": ["exorad/exorad.py: standard_pipeline (full_contrib)", "exorad/models/noise.py: photon_noise, photon_noise_variance", "exorad/models/optics/opticalPath.py: compute_signal"]}
{"id": "C19", "title": "Re-estimating noise on an already processed target", "statement": "Running EstimateNoise a second time on a target is not idempotent: maximum signal doubles, so the automatic frame time halves, and the previously computed photon noise columns are treated as additional signals.", "quantifier": "every processed target", "why_tests_cant": "Depends on the history of task applications.", "anchors": ["exorad/tasks/noiseHandler.py: EstimateNoise", "exorad/models/noise.py: photon_noise", "exorad/tasks/targetHandler.py: EstimateMaxSignal"]}
{"id": "C20", "title": "A Signal never has inconsistent shapes", "statement": "A Signal object can only be built when its data has as many entries along its first axis as wavelengths and, when it depends on time, as many along the second as times; otherwise construction raises; quantities are converted to the class units and bare numbers are taken as already in these units.", "quantifier": "every wavelength grid, data array and time grid", "why_tests_cant": "Shape and unit combinations are unbounded.", "anchors": ["exorad/models/signal.py: Signal.check_sizes, check_quantities"]}
{"id": "C21", "title": "Rebinning never invents flux", "statement": "Every value returned by rebin is 0, NaN (empty edge bin) or lies between the smallest and the largest source sample; in particular non-negative input gives non-negative output and a transmission in [0,1] stays in [0,1].", "quantifier": "every strictly increasing target grid and every source grid and samples", "why_tests_cant": "Continuous data, arbitrary grid sizes and the binning/interpolation switch.", "anchors": ["exorad/utils/exolib.py: rebin"]}
{"id": "C22", "title": "Rebinning returns one value per distinct target wavelength", "statement": "rebin returns the target grid, or the target grid without one of its repeated entries, together with one value per returned grid point; a target grid with consecutive duplicates gives a result shorter than the request.", "quantifier": "every target grid", "why_tests_cant": "Depends on number and position of duplicates.", "anchors": ["exorad/utils/exolib.py: rebin", "exorad/models/signal.py: Signal.spectral_rebin"]}
{"id": "C23", "title": "Rebinning reproduces samples, constants and linear interpolation", "statement": "In interpolation mode the value at a target wavelength which is also a source wavelength is the source sample, between two neighbouring source wavelengths it is the linear interpolation, outside the sources it is zero; in binning mode it is the mean of the source samples in the bin around the target wavelength, and NaN when the bin holds none. Rebinning a non-negative signal gives values between 0 and its maximum, and rebinning is linear in the samples.", "quantifier": "every pair of strictly increasing grids", "why_tests_cant": "Continuous data and unbounded sizes.", "anchors": ["exorad/utils/exolib.py: rebin"]}
{"id": "C24", "title": "Total transmission is the product of the element transmissions", "statement": "The total column of the transmission table is, wavelength by wavelength, the product of the transmissions of all elements in the path; it stays in [0,1] if every element's does, does not increase when an element is added, and does not depend on the order of elements.", "quantifier": "every optical path", "why_tests_cant": "Unbounded numbers of elements and wavelengths.", "anchors": ["exorad/models/optics/opticalPath.py: build_transmission_table", "exorad/models/optics/opticalElement.py: _get_transmission"]}
{"id": "C25", "title": "Self-emission is attenuated by exactly the elements that follow", "statement": "The radiance of each emitting element is its emissivity times the black body at its temperature times the product of the transmissions of the elements after it in the path - its own and the preceding elements' transmissions play no role; elements without temperature emit nothing but still attenuate.", "quantifier": "every optical path", "why_tests_cant": "Unbounded path length; positional off-by-one errors.", "anchors": ["exorad/models/optics/opticalPath.py: chain, surface_radiance"]}
{"id": "C26", "title": "Common optics precede channel optics, and all elements are kept when names differ", "statement": "In a channel's path the common elements come first in their order, then the channel's in theirs, with all elements present exactly when their names are distinct; a channel element with the name of a common one takes the common one's place and the common one disappears. Where a description gives no element, one that lets everything pass and is not a slit stands for them.", "quantifier": "every pair of element lists", "why_tests_cant": "Name coincidences are unbounded.", "anchors": ["exorad/models/optics/opticalPath.py: prepend_optical_elements, _prepare_elements"]}
{"id": "C27", "title": "Solid angle by position of the emitting element", "statement": "Light of the detector box reaches a pixel from pi sr, light of an optics box from pi minus the pixel solid angle, light of every other element from the pixel solid angle; without a slit the signal of an element is the trapezium integral of its attenuated radiance x QE x photons per joule x pixel area x that angle, times the window size. A solid_angle given in an element description has no effect at all.", "quantifier": "every element description", "why_tests_cant": "Universally quantified over descriptions.", "anchors": ["exorad/models/optics/opticalPath.py: compute_signal, chain", "exorad/models/optics/opticalElement.py: _get_angle, _get_position"]}
{"id": "C28", "title": "Instrument signal is the sum of the element signals", "statement": "instrument_signal and instrument_MaxSignal_inPixel are the sums over emitting elements of the per-element signal tables; the table of an element does not depend on the other elements; all are non-negative, and zero when nothing emits.", "quantifier": "every optical path", "why_tests_cant": "Unbounded number of elements.", "anchors": ["exorad/models/optics/opticalPath.py: compute_signal"]}
{"id": "C29", "title": "Sky transmission is the product of the foreground filters", "statement": "Estimating foregrounds on a target without sky transmission gives it, at every one of the working_R wavelengths, the product of what the tables of all its sky filters say there; without sky filters it gets none; the order of the foregrounds does not matter, and zodiacal light never changes it.", "quantifier": "every list of foregrounds, every target", "why_tests_cant": "Unbounded number of foregrounds.", "anchors": ["exorad/tasks/foregroundHandler.py: EstimateForegrounds, EstimateForeground"]}
{"id": "C30", "title": "Foregrounds do not influence each other", "statement": "On a common wavelength grid each foreground's signal is the one it would have alone: radiance x instrument transmission x QE x photons per joule, integrated, times pixel solid angle, area and window size. The documented attenuation of a foreground by the filters in front of it never happens: the transmissions of foregrounds have no effect on any foreground signal. A target without foreground attribute makes propagation fail.", "quantifier": "every list of foregrounds", "why_tests_cant": "Universally quantified over lists of foregrounds.", "anchors": ["exorad/models/instruments/instrument.py: propagate_diffuse_foreground"]}
{"id": "C31", "title": "Observing a target twice", "statement": "Estimating foregrounds again on a target that already went through it multiplies its sky transmission by the filters again, so that after n estimates it is the n-th power, while the foregrounds themselves stay as they were; an estimate over another wavelength range is multiplied in index by index without changing the wavelengths, one with another working_R fails with ValueError.", "quantifier": "every number of repetitions, every list of foregrounds", "why_tests_cant": "History dependent.", "anchors": ["exorad/tasks/foregroundHandler.py: EstimateForegrounds"]}
{"id": "C32", "title": "Photometer bin is the channel band", "statement": "A photometer yields exactly one spectral bin, whose edges are the channel's wl_min and wl_max, whose centre is the mid point and whose width is the difference.", "quantifier": "every photometer channel description", "why_tests_cant": "Continuous inputs.", "anchors": ["exorad/models/instruments/photometer.py"]}
{"id": "C33", "title": "Fixed-resolution spectral bins tile the channel band", "statement": "With a constant target resolution R the spectral bins are contiguous, non-empty and non-overlapping, start at wl_min, the last one reaches at least wl_max, every bin starts below wl_max, and each has centre/width equal to R + 1/2.", "quantifier": "every wl_min < wl_max and R > 0", "why_tests_cant": "Continuous parameters; number of bins unbounded.", "anchors": ["exorad/models/instruments/spectrometer.py: _wavelength_table"]}
{"id": "C34", "title": "Binning over contiguous bins conserves photons", "statement": "For diffuse light and for the star the sum over the spectral bins of the binned signal equals the integral over the union of the bins: no photon is lost or counted twice at bin borders.", "quantifier": "every grid, signal and contiguous bin sequence", "why_tests_cant": "Continuous data and arbitrary bin numbers.", "anchors": ["exorad/models/instruments/instrument.py: _window_function", "exorad/models/instruments/spectrometer.py: propagate_target", "exorad/utils/diffuse_light_propagation.py: convolve_with_slit"]}
{"id": "C35", "title": "Variable-resolution binning: termination and tiling", "statement": "With a resolution table whose wl_min is a multiple of 0.0001 um the bins are contiguous and non-empty from wl_min on, each edge is the previous one plus one resolution element rounded to four decimals, except that a last bin smaller than half the previous one is merged into it; the construction ends exactly when no edge below wl_max is its own successor, fails with fewer than three edges, and off the 0.0001 um grid the first bin can have negative width.", "quantifier": "every resolution table", "why_tests_cant": "Termination and continuous inputs.", "anchors": ["exorad/models/instruments/spectrometer.py: _wavelength_table"]}
{"id": "C36", "title": "Window sizes and their precedence", "statement": "Every spectrometer window is the bin's extent along the spectrum (prescribed pixels, else distance of its edges on the detector) times its extent across (prescribed pixels, else the scaled aperture diameter from encircled-energy radii or 1.22); windows are positive, spectral extents add up to the band; a photometer's window follows its radius, else the radius found for its encircled energy, and fails with neither.", "quantifier": "every channel description, wavelength solution and bin list", "why_tests_cant": "Combinations of optional keys.", "anchors": ["exorad/models/instruments/photometer.py", "exorad/models/instruments/spectrometer.py"]}
{"id": "C37", "title": "One failing target does not affect the others", "statement": "Observing a target list returns, for every target whose observation succeeds, the result of observing that target, under its name and in list order (the last one wins for repeated names); failing targets are represented by a single entry without name.", "quantifier": "every target list with any pattern of failures", "why_tests_cant": "Patterns of failures and repeated names are unbounded.", "anchors": ["exorad/tasks/targetHandler.py: pipeline_to_dict, ObserveTargetlist"]}
{"id": "C38", "title": "Parallel and sequential observation agree", "statement": "With n_thread > 1 every schedule of the pool ends, without blocking, with the same result dictionary, equal (keys, order, values) to the sequential one when the outcome of an observation does not depend on what earlier observations did to the shared channels; since observing does modify the channel tables (column 'sky TR'), the tables of later targets do differ between the two modes.", "quantifier": "every schedule of the worker pool, every target list", "why_tests_cant": "Schedules are exponentially many.", "anchors": ["exorad/tasks/targetHandler.py: ObserveTargetlist.execute"]}
{"id": "C39", "title": "Saved file after a crash or a failing target", "statement": "Targets are written one at a time in dictionary order, each in its own open/close: a failure while saving leaves the targets before it complete in the file; in particular, if any target of the list failed to be observed, saving stops at the first failed one with an AttributeError and no target coming after it is saved.", "quantifier": "every target list, every failure position", "why_tests_cant": "Crash points and failure patterns.", "anchors": ["exorad/exorad.py: standard_pipeline"]}
{"id": "C40", "title": "Logging level after observing", "statement": "After any target has been observed in the process - successfully or not - logging is enabled at INFO level whatever the level before, so that a requested debug level is lost after the first target.", "quantifier": "every sequence of logging and observation events", "why_tests_cant": "History dependent.", "anchors": ["exorad/log/__init__.py", "exorad/tasks/targetHandler.py: pipeline_to_dict"]}
{"id": "C41", "title": "Output replacement", "statement": "With replace=True the previous output is discarded and the new file holds only this run; with replace=False a rerun keeps previous content but fails when writing a target that is already there, without altering existing content.", "quantifier": "every previous content of the output file", "why_tests_cant": "Arbitrary file contents.", "anchors": ["exorad/exorad.py: standard_pipeline", "exorad/output/hdf5/hdf5.py"]}
{"id": "C42", "title": "One target per row, fields from that row", "statement": "Loading a target table (csv, MRS csv, xlsx or QTable) gives exactly one target per row in row order, whose index is the row number and whose star and planet fields are the cells of that row (the last column giving a field wins), in the declared units; a target has no planet only if the table has no planet column or its planet columns cannot be read (in which case all of them are silently dropped); tables with readable headers, units and a name column do load.", "quantifier": "every table", "why_tests_cant": "Unbounded rows and columns.", "anchors": ["exorad/models/targetlist.py"]}
{"id": "C43", "title": "Target list format dispatch", "statement": "LoadTargetList reads .xlsx as spreadsheet, .csv as the native list and, if that finds no target, as the MRS format; other extensions raise OSError, a KeyError inside a reader is reported as OSError and a TypeError as AttributeError; a non-path is treated as a QTable; a non-empty native list is never reinterpreted as MRS.", "quantifier": "every input", "why_tests_cant": "Case analysis on all inputs and reader outcomes.", "anchors": ["exorad/tasks/targetHandler.py: LoadTargetList"]}
{"id": "C44", "title": "Range expressions denote the listed integers", "statement": "parse_range returns, for a comma separated list of integers and inclusive ranges a-b of non-negative integers, the concatenation of the listed integers and ranges, in order; 'all' is every index below the given count and 'none' is empty; malformed input yields None.", "quantifier": "every list of ranges of any length", "why_tests_cant": "Unbounded syntax.", "anchors": ["exorad/utils/util.py: parse_range"]}
{"id": "C45", "title": "Chunking loses and reorders nothing", "statement": "chunks(l, n) for n >= 1 yields consecutive non-empty slices of at most n elements, all but the last of exactly n, whose concatenation is l; n = 0 raises.", "quantifier": "every list and chunk size", "why_tests_cant": "Unbounded sizes.", "anchors": ["exorad/utils/util.py: chunks"]}
{"id": "C46", "title": "Object serialisation exports exactly the public data", "statement": "to_dict of an object exports recursively every attribute except callables, names starting with underscore and 'name', represents quantities by value and unit, and leaves other values unchanged; it is idempotent on plain data.", "quantifier": "every object graph (finite tree)", "why_tests_cant": "Recursive structure.", "anchors": ["exorad/utils/util.py: to_dict"]}
{"id": "C47", "title": "Saved dictionaries are read back", "statement": "Storing a nested dictionary of numbers, lists of numbers, strings, arrays, quantities, tables and dictionaries in a fresh group and loading the group gives back the same dictionary, up to the documented changes (strings come back as bytes, quantities as value/unit pairs with value re-multiplied, keys as strings in sorted order, tables with their rows and header). A list which is not an array of numbers or strings is stored item by item under its name followed by 0, 1, 2, ... and read back so.", "quantifier": "every nested dictionary with distinct keys", "why_tests_cant": "Recursive structure of arbitrary depth.", "anchors": ["exorad/output/hdf5/util.py: recursively_save_dict_contents_to_output, store_thing, hdf5_group_to_dict, recursively_read_dict_contents", "exorad/output/hdf5/hdf5.py"]}
{"id": "C48", "title": "Nothing already stored is overwritten", "statement": "Storing into an existing group adds entries and never modifies or removes existing datasets: a name clash raises and leaves previously existing data as they were; existing groups are merged.", "quantifier": "every file content and every dictionary", "why_tests_cant": "Arbitrary content.", "anchors": ["exorad/output/hdf5/hdf5.py: create_group, write_*", "exorad/output/hdf5/util.py"]}
{"id": "C49", "title": "File open modes", "statement": "Opening an output without append discards previous content; with append it keeps all of it; in both cases the file has an info group afterwards, written at most once.", "quantifier": "every sequence of opens and writes", "why_tests_cant": "Histories.", "anchors": ["exorad/output/hdf5/hdf5.py: HDF5Output._openFile"]}
{"id": "C50", "title": "Stellar flux follows the inverse square law", "statement": "Moving the target k times as far away divides the source spectrum by k^2 at every wavelength, for every kind of source, and changes neither luminosity nor chosen model; a black body or custom star k times as large has k^2 times flux and luminosity; the luminosity is 4 pi D^2 times the integral of the flux at the observer; fluxes are never negative.", "quantifier": "every target, source description, directory and file contents, every k > 0", "why_tests_cant": "Continuous inputs, arbitrary spectra.", "anchors": ["exorad/models/source.py", "exorad/tasks/loadSource.py", "exorad/utils/exolib.py: planck"]}
{"id": "C51", "title": "Source type dispatch", "statement": "LoadSource selects custom, phoenix or planck by the case-insensitive source name; every other name is a black body; names and dictionaries are equivalent; targets lacking distance or radius (and, unless custom, temperature or mass) fail with AttributeError; the results are recorded in the header of the target table and nothing else in it changes.", "quantifier": "every source description, target and environment", "why_tests_cant": "Case analysis over all strings and environments.", "anchors": ["exorad/tasks/loadSource.py", "exorad/models/source.py", "exorad/models/target.py"]}
{"id": "C52", "title": "Nearest stellar model is selected", "statement": "The phoenix file used minimises |T/100 rounded - T'| + |log g - g'| + |Z - Z'| over the available files, the first of several; the choice succeeds exactly when the rounded temperature is within the range of the files, whose names are read as xxxT-g-Z.", "quantifier": "every set of available files and star parameters", "why_tests_cant": "Unbounded directories.", "anchors": ["exorad/models/source.py: __get_phonix_model_filename"]}
{"id": "C53", "title": "Planck function", "statement": "The black body radiance is positive, strictly increasing in temperature, has a single peak at a wavelength inversely proportional to it (Wien), obeys the Rayleigh-Jeans and Wien bounds and agrees with Planck's law with SI constants up to 2e-7 below and (1+2e-6) exp(2e-6 x) above.", "quantifier": "all positive wavelengths and temperatures", "why_tests_cant": "Continuous inputs.", "anchors": ["exorad/utils/exolib.py: planck"]}
{"id": "C54", "title": "Pixel response kernel has unit-pixel weight", "statement": "The fractional pixel kernel used to bin a PSF counts whole samples fully, splits the fraction over both ends of each axis, has all weights in [0,1] and total weight k_x*k_y; times the sample size it is the area of the pixel.", "quantifier": "all non-negative k_x, k_y; all positive pixel sizes, f-numbers and wavelengths", "why_tests_cant": "Continuous inputs and variable kernel size.", "anchors": ["exorad/utils/exolib.py: binnedPSF, paosPSF, load_standard_psf"]}
{"id": "C55", "title": "Pixel solid angle", "statement": "OmegaPix(Fx, Fy) is the solid angle (the area on the unit sphere) of the cone of light over an ellipse with semi-axes 1/(2 Fx), 1/(2 Fy) at unit distance. Hence it is symmetric in the two f-numbers, the circular formula 2 pi (1 - 1/sqrt(1 + 1/(4 F^2))) when the second is missing or 0, strictly decreasing in each f-number, positive, below 2 pi and below pi/(4 Fx Fy).", "quantifier": "all positive f-numbers", "why_tests_cant": "Continuous inputs.", "anchors": ["exorad/utils/exolib.py: OmegaPix"]}
{"id": "C56", "title": "Diffuse light integration", "statement": "Integrating diffuse light gives signals linear in the radiance, non-negative for non-negative light; without slit the signal is the per-pixel signal times the window size; with a slit of n whole pixels, each pixel receives exactly the light of the n pixels around it, bins collect the pixels in ]left, right], and constant light is multiplied by n away from the borders; failures happen exactly when a bin holds no pixel or the slit is less than one pixel or more than the whole detector wide.", "quantifier": "all radiances and grids", "why_tests_cant": "Continuous data.", "anchors": ["exorad/utils/diffuse_light_propagation.py"]}
{"id": "C57", "title": "What the update check reports", "statement": "Given the lines of the published change log, an update is reported exactly when the first release heading (first line containing '## [' other than Unreleased) does not carry the running version between brackets - whether older or newer; the reported version is the text between the brackets of that heading, the reported changes are the heading and the non-empty lines up to the first one mentioning the running version, and force raises VersionError exactly when something is reported.", "quantifier": "every change log and every running version", "why_tests_cant": "Unbounded strings.", "anchors": ["exorad/utils/version_control.py"]}
{"id": "C58", "title": "Searching a target list", "statement": "searchTarget returns, in list order, exactly the targets whose star name or planet name matches the query (ignoring case, blanks and dashes); it succeeds whenever every target has names to compare, and raises on any list with a target without planet whose star does not match.", "quantifier": "all target lists, all queries, all matching relations", "why_tests_cant": "ranges over all lists and queries", "anchors": ["exorad/models/targetlist.py: BaseTargetList.searchTarget"]}
{"id": "C59", "title": "What an optical element description means", "statement": "A single constant transmission or reflectivity applies inside the band [wl_min, wl_max] and is zero outside; with neither the element is transparent; with both, the one named by 'use' applies at all wavelengths whatever the band, and without 'use' building fails. Emissivity is the given constant, else 1 for a detector box and 0 otherwise. With a data file, values stay between 0 and the largest one of the columns; naming the wavelength column of the file always fails.", "quantifier": "every element description and wavelength grid", "why_tests_cant": "ranges over all descriptions, all bands and all wavelength grids; examples cover a handful of combinations of keys", "anchors": ["exorad/models/optics/opticalElement.py:OpticalElement._get_transmission", "exorad/models/optics/opticalElement.py:OpticalElement._get_emissivity", "exorad/models/utils.py:get_wl_col_name"]}
{"id": "C60", "title": "Binned transmission and quantum efficiency", "statement": "The TR and QE columns hold, for bins that tile, the curve at each bin centre (0 outside the tabulated range and, when the channel edges are forced, outside the channel band), never NaN; in general the average over the centres lying in the bin and NaN only when there is none; values stay in [0,1] for curves in [0,1]; a constant QE holds exactly between the detector wl_min and cut-off.", "quantifier": "every bin list, curve and band", "why_tests_cant": "continuous data and unbounded bin lists", "anchors": ["exorad/models/instruments/instrument.py: _bin_signal, _get_transmission, _get_qe"]}
{"id": "C61", "title": "Rebinning onto the own grid changes nothing", "statement": "Rebinning a signal onto its own wavelength grid returns it unchanged, and rebinning twice onto the same grid equals rebinning once, for every strictly increasing grid.", "quantifier": "every signal and grid", "why_tests_cant": "continuous data, unbounded grids", "anchors": ["exorad/models/signal.py:Signal.spectral_rebin", "exorad/utils/exolib.py:rebin"]}
{"id": "C62", "title": "Native bins", "statement": "Without target resolution a spectrometer has exactly one bin per pixel, ordered by wavelength, centred on the pixel wavelength and as wide as the pixel; they tile when the wavelength solution is linear and can overlap when it is not.", "quantifier": "every strictly monotone wavelength solution, band and pixel size", "why_tests_cant": "continuous inputs, unbounded number of pixels", "anchors": ["exorad/models/instruments/spectrometer.py: _wavelength_table"]}
{"id": "C63", "title": "Pixels of a spectrometer", "statement": "Wavelength and position on the detector determine each other everywhere for a strictly monotone wavelength solution in any row order; the pixels stand one pixel size apart, begin at one end of the band, lie inside the band and leave no wavelength of the band further than one pixel away.", "quantifier": "every strictly monotone wavelength solution, band and pixel size", "why_tests_cant": "continuous inputs, unbounded number of pixels", "anchors": ["exorad/models/instruments/spectrometer.py: builder"]}
{"id": "C64", "title": "Star signal of a photometer", "statement": "A photometer reports the trapezium integral of the source flux and, times telescope area, of source x photons per joule x QE x transmission x sky transmission over all wavelengths of the source (only those of the band when channel edges are forced); both are non-negative, at most what reaches the telescope, and together with the aperture signal and the brightest pixel linear in the source.", "quantifier": "every channel, source, sky transmission", "why_tests_cant": "continuous inputs and unbounded grids", "anchors": ["exorad/models/instruments/photometer.py: propagate_target", "exorad/models/instruments/instrument.py: _get_efficiency"]}
{"id": "C65", "title": "Star signal of spectrometer bins", "statement": "Each spectrometer bin reports the trapezium integrals restricted to sampled wavelengths in [left,right[, and as brightest pixel the greatest of density x pixel width x gain among pixels strictly inside the bin; all are non-negative for physical inputs and scale with the brightness of the source.", "quantifier": "every channel, source, sky transmission, bin and pixel list", "why_tests_cant": "continuous inputs and unbounded grids", "anchors": ["exorad/models/instruments/spectrometer.py: propagate_target"]}
{"id": "C66", "title": "Fraction of the star in the aperture", "statement": "The photometer signal in the aperture is the star signal times apertureCorrection if given, else times the encircled energy if given, else the full signal; without aperture section the propagation fails.", "quantifier": "every combination of optional keys", "why_tests_cant": "combinations of optional keys for every source", "anchors": ["exorad/models/instruments/photometer.py: propagate_target"]}
{"id": "C67", "title": "Sky transmission and the history of a channel", "statement": "A sky transmission on the wavelengths of the source acts exactly like a source dimmed by it, except that the reported flux is the undimmed one; flux, signal, aperture signal and brightest pixel do not depend on targets observed before, but the reported foreground transmission does: a target without sky transmission repeats the one of its predecessor.", "quantifier": "every sequence of targets", "why_tests_cant": "history dependent, unbounded sequences", "anchors": ["exorad/models/instruments/instrument.py: _get_efficiency", "exorad/models/instruments/photometer.py", "exorad/models/instruments/spectrometer.py"]}
{"id": "C68", "title": "The brightest pixel needs a pixel", "statement": "Propagating a source through a spectrometer succeeds only if every bin has a pixel centre strictly inside; native bins always have one.", "quantifier": "every bin and pixel list", "why_tests_cant": "continuous inputs, unbounded lists", "anchors": ["exorad/models/instruments/spectrometer.py: propagate_target"]}
{"id": "C69", "title": "Binning an image to pixels", "statement": "The pixel response function has the shape of the PSF image, every value is between 0 and all of the light of the PSF, its total is at most k_x*k_y times that light, a single bright sample turns into the kernel around it, and the operation is linear in the image.", "quantifier": "every image of any shape, every pixel size", "why_tests_cant": "images of unbounded size, continuous inputs", "anchors": ["exorad/utils/exolib.py: binnedPSF"]}
{"id": "C70", "title": "Gain of a spectrometer", "statement": "The gain at a wavelength is the brightest column of the pixel response over the brightest column of the kernel times the Strehl ratio exp(-(2 pi WFE/lambda)^2); it lies between 0 and the light of the PSF (1 when normalised). It is tabulated at ten evenly spaced wavelengths spanning exactly the pixels.", "quantifier": "every image, pixel size, wavefront error and wavelength", "why_tests_cant": "images of unbounded size, continuous inputs", "anchors": ["exorad/models/instruments/spectrometer.py: builder"]}
{"id": "C71", "title": "PSF of the nearest wavelength", "statement": "From a directory of PSF files the one whose WAVELEN is nearest to the wavelength is used, the first of several equally near; an empty directory is an error.", "quantifier": "every list of files and wavelength", "why_tests_cant": "unbounded directories", "anchors": ["exorad/utils/exolib.py: binnedPSF, pixel_based_psf"]}
{"id": "C72", "title": "Interpolated PAOS PSFs", "statement": "Between (or beyond) the wavelengths of a PAOS file the two neighbouring (last two) groups are used and every sample, the light, sample sizes and f-number lie on the straight line through theirs; files with one wavelength fail, and so does the greatest wavelength of the file itself when its text is not a key.", "quantifier": "every increasing list of wavelengths and every wavelength", "why_tests_cant": "unbounded files, continuous inputs", "anchors": ["exorad/utils/exolib.py: interpolate_paos_psf, paosPSF"]}
{"id": "C73", "title": "Aperture for an encircled energy", "statement": "The search for the aperture radius ends iff some whole radius holds the requested energy plus 2%: a request above 98% never ends. The radius found is where the energy, read linearly between whole radii, is the requested one; when the first aperture already holds more the search fails.", "quantifier": "every encircled energy curve and request", "why_tests_cant": "unbounded loop, continuous inputs", "anchors": ["exorad/utils/exolib.py: find_aperture_radius"]}
{"id": "C74", "title": "Stellar models lose their last sample", "statement": "Of the samples of a phoenix file at equal neighbouring wavelengths the last one is used, and the last wavelength of the file is always dropped (\"remove duplicates\").", "quantifier": "every file", "why_tests_cant": "Unbounded files.", "anchors": ["exorad/models/source.py: __read_phenix_spectrum"]}
{"id": "C75", "title": "Silent black bodies", "statement": "When the temperature is outside the range of the stellar models, or the name of one single file in the directory cannot be read (as those of metal rich models), every affected star becomes exactly the black body that \"planck\" gives, without an error; metal poor models are read with positive metallicity.", "quantifier": "every directory, target and wavelength range", "why_tests_cant": "Quantifies over directories and strings.", "anchors": ["exorad/models/source.py", "exorad/tasks/loadSource.py"]}
{"id": "C76", "title": "Wavelength grid of the source", "statement": "The source spectrum is given at working_R wavelengths evenly spaced in logarithm from the lesser to the greater of the two given in um; their order is irrelevant, bare numbers are um, mixing bare numbers and quantities fails; with other units the greater one fails and the lesser one is misread.", "quantifier": "every wavelength range and every working_R >= 2", "why_tests_cant": "Continuous inputs, unbounded grid.", "anchors": ["exorad/tasks/loadSource.py"]}
{"id": "C77", "title": "Amount of zodiacal light", "statement": "The zodiacal light stored for a target is the factor times two black bodies (5500 K, 270 K) at working_R wavelengths; the factor is that of the description, or the coefficient of the map if a map is asked for and the star has coordinates, or 0 without any; it is proportional to the factor and positive. A map that cannot be read or lacks a column raises UnboundLocalError even if the description has a factor; without a map nothing fails but bare wavelengths and a missing declination.", "quantifier": "every target, description, map and wavelength range", "why_tests_cant": "Continuous inputs and arbitrary file contents.", "anchors": ["exorad/tasks/foregroundHandler.py: EstimateZodi", "exorad/models/foregrounds/zodiacalForeground.py"]}
{"id": "C78", "title": "Sky filters", "statement": "Radiance and transmission of a sky filter lie on the straight lines through its table, are 0 and 1 outside of it, stay within the bounds of the table, and do not depend on the units of the table or the order of its rows; tables with the three columns suffice, and each missing part has its own error; bare wavelength ranges are refused.", "quantifier": "every table, wavelength range and target", "why_tests_cant": "Arbitrary tables.", "anchors": ["exorad/tasks/foregroundHandler.py: EstimateForeground", "exorad/models/foregrounds/skyForegrounds.py"]}
{"id": "C79", "title": "Map of zodiacal light", "statement": "The coefficient used is that of the first map point minimising (ra - ra0)^2 + (dec - dec0)^2. This is the nearest on the sky for points of one parallel no more than 180 degrees away in the numbers, but not in general: right ascensions 359 and 1 count as far apart. A custom map that does not exist is silently replaced by the one of the package.", "quantifier": "every map and direction", "why_tests_cant": "Unbounded maps, continuous directions.", "anchors": ["exorad/models/foregrounds/zodiacalForeground.py: zodiacal_fit_direction"]}
{"id": "C80", "title": "Names of foregrounds", "statement": "Every foreground is stored as it would be alone, under its value (\"zodi\" for zodiacal light); of several with one name only the last radiance remains although all their transmissions count; what a target had before stays unless its name is used again.", "quantifier": "every list of foregrounds, every target", "why_tests_cant": "Unbounded number of foregrounds, history dependent.", "anchors": ["exorad/tasks/foregroundHandler.py"]}
{"id": "C81", "title": "Each channel shows what it shows alone", "statement": "Observing a target with several channels gives, in the rows of each channel, the same numbers as observing it with that channel alone: in every column the one-channel observation has (except transmission columns left over from earlier observations), and a column it has not is filled with zeros or NaN.", "quantifier": "all instruments with any number of channels, all targets and payloads, all histories of earlier observations with either set of channels; a foreground's columns must not bear the name of a channel's own column when there is one channel only", "why_tests_cant": "It ranges over every instrument, target, history of earlier observations and content of the data files; channels are shared between observations, so a test only sees one order of events.", "anchors": ["exorad/tasks/targetHandler.py: ObserveTarget", "exorad/tasks/propagateLight.py", "exorad/utils/util.py: vstack_tables"]}
{"id": "C82", "title": "An observation fails exactly if one of its channels fails alone", "statement": "Observing with several channels succeeds if and only if observing with each of them alone succeeds; when it fails, some single channel fails alone with the same exception.", "quantifier": "all instruments, targets, payloads and histories", "why_tests_cant": "It ranges over every instrument, target, history of earlier observations and content of the data files; channels are shared between observations, so a test only sees one order of events.", "anchors": ["exorad/tasks/targetHandler.py: ObserveTarget", "exorad/tasks/propagateLight.py", "exorad/tasks/noiseHandler.py"]}
{"id": "C83", "title": "Earlier observations do not matter", "statement": "Observing a target gives the same outcome whatever was observed before with the same channels: the same exception, or the same source, sky and columns, except for the transmission columns which earlier observations leave behind; the channels keep their own columns. With a single channel this fails if a foreground's column has the name of a column of the channel (e.g. a foreground called instrument): the channel then loses its column for good.", "quantifier": "all pairs of histories of observations, successful or failing, of any targets with the same channels", "why_tests_cant": "It ranges over every instrument, target, history of earlier observations and content of the data files; channels are shared between observations, so a test only sees one order of events.", "anchors": ["exorad/tasks/targetHandler.py: ObserveTarget", "exorad/tasks/targetHandler.py: UpdateTargetTable", "exorad/tasks/instrumentHandler.py: MergeChannelsOutput", "exorad/models/instruments/instrument.py: _get_efficiency"]}
{"id": "C84", "title": "How observations fail", "statement": "Without channels an observation fails with AttributeError; without a foreground section (and foregrounds of the target) it fails with AttributeError for every instrument although nothing else is wrong; a failure of the foregrounds comes before one of the source, and one of the first failing channel before those of the others.", "quantifier": "all instruments, targets, payloads and histories", "why_tests_cant": "It ranges over every instrument, target, history of earlier observations and content of the data files; channels are shared between observations, so a test only sees one order of events.", "anchors": ["exorad/tasks/targetHandler.py: ObserveTarget", "exorad/tasks/propagateLight.py: PropagateForegroundLight"]}
{"id": "C85", "title": "What the table of an observed target holds", "statement": "After an observation the rows of each channel hold the star's flux, signal, signal in the aperture and brightest pixel as computed for that channel, source and sky, the signals of each foreground as computed for that channel, and the channel's own columns; source and sky are sampled at the same wavelengths. The header of the table names the target, the version of the program and the star with its mass, temperature, radius, distance, luminosity, model and, if it has one, magnitude; anything else in it comes from the channels.", "quantifier": "all successful observations with any instrument after any history", "why_tests_cant": "It ranges over every instrument, target, history of earlier observations and content of the data files; channels are shared between observations, so a test only sees one order of events.", "anchors": ["exorad/tasks/targetHandler.py: ObserveTarget", "exorad/tasks/propagateLight.py"]}
{"id": "C86", "title": "Noise and brightest pixel follow from the table", "statement": "In the table of an observed target the noise columns of each channel are those which follow from its detector and the signals the table shows in its rows, and MaxSignal_inPixel is the sum of all the columns of maxima in each row.", "quantifier": "all successful observations with any instrument after any history", "why_tests_cant": "It ranges over every instrument, target, history of earlier observations and content of the data files; channels are shared between observations, so a test only sees one order of events.", "anchors": ["exorad/tasks/targetHandler.py: ObserveTarget", "exorad/tasks/targetHandler.py: EstimateMaxSignal", "exorad/tasks/noiseHandler.py: EstimateNoise"]}
{"id": "C87", "title": "An observation succeeds whenever its parts do", "statement": "If foregrounds and source can be loaded and in every channel light of both can be propagated, giving non-negative numbers and a frame time, the observation succeeds.", "quantifier": "all instruments, targets, payloads and histories", "why_tests_cant": "It ranges over every instrument, target, history of earlier observations and content of the data files; channels are shared between observations, so a test only sees one order of events.", "anchors": ["exorad/tasks/targetHandler.py: ObserveTarget"]}
{"id": "C88", "title": "When light goes through a channel", "statement": "A photometer, a spectrometer and the diffuse light of foregrounds are propagated without error exactly if the curves of the channel overlap with the wavelengths of the source in at least two points within 10% and the other needed data are there (an aperture or a PSF, a pixel in each bin, a slit that fits on the detector); otherwise it fails.", "quantifier": "all channels, all sources and skies on any grid", "why_tests_cant": "It ranges over every instrument, target, history of earlier observations and content of the data files; channels are shared between observations, so a test only sees one order of events.", "anchors": ["exorad/models/instruments/photometer.py: propagate_target", "exorad/models/instruments/spectrometer.py: propagate_target", "exorad/models/instruments/instrument.py: propagate_diffuse_foreground", "exorad/models/signal.py: rebin"]}
{"id": "C89", "title": "Working channels can observe every star that is completely described", "statement": "If channels work at the wavelengths of a run, every completely described star that is a black body can be observed through any sensible foregrounds: the run does not fail.", "quantifier": "all instruments with working channels, all ranges of wavelengths, resolutions, stars, foreground tables and zodiacal factors, all histories of earlier observations", "why_tests_cant": "It ranges over every instrument, target, history of earlier observations and content of the data files; channels are shared between observations, so a test only sees one order of events.", "anchors": ["exorad/tasks/targetHandler.py: ObserveTarget", "exorad/tasks/loadSource.py", "exorad/tasks/foregroundHandler.py"]}
{"id": "C90", "title": "Built channels can be observed with", "statement": "BuildChannels gives one instrument per channel of the payload, under the same names and in the same order; each has a table with one row per spectral bin, whose wavelengths, widths and edges are those of the bins, one row for a photometer (its band) and the bins of the wavelength solution for a spectrometer; all have the same columns, in particular those an observation needs.", "quantifier": "all payloads with any number of named channels, all optics and data files, all outcomes of the external point spread functions", "why_tests_cant": "It ranges over every payload description, number of channels, optical path and content of the data files, and every behaviour of the external routines; a test only sees a few payloads.", "anchors": ["exorad/tasks/instrumentHandler.py: BuildChannels", "exorad/models/instruments/instrument.py: Instrument.build, build_optical_path", "exorad/models/instruments/photometer.py: builder", "exorad/models/instruments/spectrometer.py: builder"]}
{"id": "C91", "title": "Channels are built one by one", "statement": "Building several channels gives what building each of them alone gives, in order; it fails, with the same exception, exactly if the first channel to fail alone does; a single channel is built as a payload with one channel of that name; a missing channel section, class or name is a KeyError.", "quantifier": "all payloads with any number of channels", "why_tests_cant": "It ranges over every payload description, number of channels, optical path and content of the data files, and every behaviour of the external routines; a test only sees a few payloads.", "anchors": ["exorad/tasks/instrumentHandler.py: BuildChannels"]}
{"id": "C92", "title": "The class decides", "statement": "A channel built from a description is a photometer or a spectrometer as its channelClass says, in upper or lower case; any other class is a ValueError; an instrument loaded from a file cannot be built, with ValueError.", "quantifier": "all payloads, channels and classes", "why_tests_cant": "It ranges over every payload description, number of channels, optical path and content of the data files, and every behaviour of the external routines; a test only sees a few payloads.", "anchors": ["exorad/tasks/instrumentHandler.py: BuildChannels", "exorad/tasks/instrumentHandler.py: BuildInstrument", "exorad/models/instruments/instrument.py: Instrument.build, build_optical_path"]}
{"id": "C93", "title": "Which slit a channel has", "statement": "The light of a built channel passes through the common optics and then the channel's own. Its slit is the last slit of this sequence which has anything warm in front of it; a slit with nothing warm before it is ignored, for the foregrounds too. A photometer with a slit behind something warm cannot be built.", "quantifier": "all payloads and optical paths of any length", "why_tests_cant": "It ranges over every payload description, number of channels, optical path and content of the data files, and every behaviour of the external routines; a test only sees a few payloads.", "anchors": ["exorad/models/instruments/instrument.py: Instrument.build, build_optical_path", "exorad/models/optics/opticalPath.py: chain, compute_signal"]}
{"id": "C94", "title": "Units of the detector's range are ignored by the optics", "statement": "The optical path of a built channel is sampled from wl_min to cut_off of the detector as numbers of micrometres, whatever their unit, while a constant quantum efficiency is sampled on the range converted to micrometres. The TR column is the product of all transmissions, read at the bins' centres, zeroed outside the band if the payload says so. So with a range in nanometres the transmission is 0 everywhere, and with anything warm in front of the detector the channel cannot be built.", "quantifier": "all payloads, detector ranges and units", "why_tests_cant": "It ranges over every payload description, number of channels, optical path and content of the data files, and every behaviour of the external routines; a test only sees a few payloads.", "anchors": ["exorad/models/instruments/instrument.py: Instrument.build, build_optical_path", "exorad/models/instruments/instrument.py: _get_qe, _get_transmission"]}
{"id": "C95", "title": "Building twice", "statement": "Building an instrument a second time gives the same instrument, except that its table then holds the emission of the instrument twice, under names ending in _1 and _2, and no longer under the name an observation needs.", "quantifier": "all instruments that can be built", "why_tests_cant": "It ranges over every payload description, number of channels, optical path and content of the data files, and every behaviour of the external routines; a test only sees a few payloads.", "anchors": ["exorad/models/instruments/instrument.py: Instrument.build, build_optical_path"]}
{"id": "C96", "title": "Complete descriptions can be built", "statement": "If the description of every channel of a payload is complete and sensible (ranges in micrometres, optical elements with numbers or tables that make sense, quantum efficiency, focal ratios, detector; aperture and point spread function for a photometer; wavelength solution, bins with pixels, gains and slits that fit for a spectrometer), all channels are built and work at every range of wavelengths overlapping theirs.", "quantifier": "all payloads with any number of complete channels", "why_tests_cant": "It ranges over every payload description, number of channels, optical path and content of the data files, and every behaviour of the external routines; a test only sees a few payloads.", "anchors": ["exorad/tasks/instrumentHandler.py: BuildChannels", "exorad/models/instruments/instrument.py: Instrument.build, build_optical_path", "exorad/models/instruments/photometer.py: builder", "exorad/models/instruments/spectrometer.py: builder"]}
{"id": "C97", "title": "From complete descriptions to an observation", "statement": "If the channels of a payload are completely described, every completely described star that is a black body can be observed with them through any sensible foregrounds, after any earlier observations: neither the building nor the observation fails.", "quantifier": "all payloads with any number of complete channels, all stars, foregrounds, ranges of wavelengths in reach of the channels, and histories of earlier observations", "why_tests_cant": "It ranges over every payload description, number of channels, optical path and content of the data files, and every behaviour of the external routines; a test only sees a few payloads.", "anchors": ["exorad/tasks/instrumentHandler.py: BuildChannels", "exorad/models/instruments/instrument.py: Instrument.build, build_optical_path", "exorad/tasks/targetHandler.py: ObserveTarget"]}
{"id": "C98", "title": "What a built channel is made of", "statement": "A built channel has the detector, customNoise, collecting area, band, pixel size and solid angle of its own description and of the payload; a photometer has the image of its point spread function at the centre of the band and the window its aperture prescribes; a spectrometer has pixels along its wavelength solution, windows bin by bin, and gains interpolated from ten equally spaced wavelengths between its extreme pixels; the QE column is the quantum efficiency at the centres of the bins.", "quantifier": "all payloads with any number of channels, all formats of point spread functions, apertures, wavelength solutions and quantum efficiencies", "why_tests_cant": "It ranges over every payload description, optical path, content of the data files and behaviour of the external routines; a test only sees a few payloads.", "anchors": ["exorad/tasks/instrumentHandler.py: BuildChannels", "exorad/models/instruments/instrument.py: Instrument.build, build_optical_path, _get_qe", "exorad/models/instruments/photometer.py: builder, _windows_size", "exorad/models/instruments/spectrometer.py: builder"]}
{"id": "C99", "title": "The emission of the instrument", "statement": "The columns instrument_signal and instrument_MaxSignal_inPixel of a built channel are, bin by bin, the sums over all warm elements in front of the detector, common ones first, of the thermal emission of the element, times the transmission of everything behind it, collected from the solid angle that belongs to its position, spread by the slit if one follows.", "quantifier": "all payloads and optical paths of any length with distinct names of elements", "why_tests_cant": "It ranges over every payload description, optical path, content of the data files and behaviour of the external routines; a test only sees a few payloads.", "anchors": ["exorad/models/instruments/instrument.py: Instrument.build, build_optical_path, _get_qe", "exorad/models/optics/opticalPath.py: chain, compute_signal"]}
{"id": "C100", "title": "Lists of channels of a class", "statement": "GetChannelList returns the names of exactly the channels whose class is the one asked for, whatever the case of the letters, in the order of the payload; a payload with a single channel, or with a channel without class, makes it fail.", "quantifier": "all payload descriptions with any number of channels, all class names", "why_tests_cant": "It ranges over every payload and every class name; a test sees a few.", "anchors": ["exorad/tasks/instrumentHandler.py: GetChannelList"]}
{"id": "C101", "title": "Payloads written to a file are loaded", "statement": "After BuildChannels has written a payload of any number of channels, LoadPayload returns the payload description and every channel with its class, description, table and processed data; the channels come back in alphabetical order, not in the order of the payload. A channel of unknown class is a KeyError.", "quantifier": "all payload descriptions, all numbers and names of channels, all storable nested contents", "why_tests_cant": "It quantifies over nested dictionaries of any depth and any set of names.", "anchors": ["exorad/tasks/instrumentHandler.py: BuildChannels, LoadPayload", "exorad/models/instruments/instrument.py: Instrument.load", "exorad/output/hdf5/util.py"]}
{"id": "C102", "title": "Channels loaded from a file cannot observe", "statement": "A channel loaded from a file can neither be built again (ValueError) nor propagate a target or a diffuse foreground: the wavelength grids of its processed data come back with their unit and are multiplied by that unit a second time, which is a UnitConversionError; the same data in memory are accepted.", "quantifier": "all payloads that can be written and loaded, all units of length, all sources and foregrounds", "why_tests_cant": "It holds for every payload, unit and source; the existing tests never observe with a loaded channel.", "anchors": ["exorad/tasks/instrumentHandler.py: LoadPayload", "exorad/models/instruments/instrument.py: load, build, _get_efficiency", "exorad/utils/diffuse_light_propagation.py: prepare"]}
{"id": "C103", "title": "What may be passed as payload", "statement": "PreparePayload refuses with an OSError, before anything is read or written, everything but a dictionary or a path ending in .xml, .h5 or .hdf5 in small letters; an .xml file is treated as the dictionary it contains; a dictionary is built, into the output file if one is named, which is kept if it exists; an .h5 file is loaded and nothing built or written; the wavelength range is looked up last, so a payload without range fails after it has been built.", "quantifier": "all arguments, file names, states of the file system and behaviours of the tasks called", "why_tests_cant": "It ranges over all file names and all states of the file system.", "anchors": ["exorad/tasks/instrumentHandler.py: PreparePayload"]}
{"id": "C104", "title": "A list of targets is observed as if each were alone", "statement": "ObserveTargetlist, run one after the other or by any number of workers under any schedule, gives the same names in the same order with observations that are alike (same columns but the leftover sky ones), each alike to observing that target alone; a target that fails alone has no entry under its name. With a complete payload and complete targets of distinct names every target is observed.", "quantifier": "all lists of targets, payloads, settings, numbers of workers and schedules", "why_tests_cant": "It ranges over every list of targets, every history of the shared channels and every schedule of the pool of workers.", "anchors": ["exorad/tasks/targetHandler.py: ObserveTargetlist, ObserveTarget, pipeline_to_dict", "exorad/models/instruments/instrument.py"]}
{"id": "C105", "title": "A run leaves a file from which everything can be read back", "statement": "standard_pipeline with an output file of its own, a payload that can be stored and targets with distinct names ends without error whatever the file held before; the file then holds exactly the information, the payload and the targets; LoadPayload finds the payload and all its channels in it, and every target is read back under its name, in the order of the list. Starting from complete descriptions of payload and targets nothing can fail on the way.", "quantifier": "all payloads, channels, lists of targets, previous contents of the output file", "why_tests_cant": "It composes building, observing any number of targets, and saving and loading nested data of any size.", "anchors": ["exorad/exorad.py: standard_pipeline", "exorad/tasks/instrumentHandler.py: BuildChannels, LoadPayload", "exorad/tasks/targetHandler.py: ObserveTargetlist", "exorad/models/target.py: write", "exorad/output/hdf5/hdf5.py"]}
{"id": "C106", "title": "What the figure of a table shows", "statement": "Plotter.plot_table draws, for every table, one signal curve per column whose name contains 'signal' but not 'noise' and one noise curve per column whose name contains 'noise' or 'custom', each against the wavelengths: the total noise and columns in hr^0.5 as they are, every other noise divided by star_signal_inAperture. Behind both panels there is one band per channel, from the lowest lower to the highest upper bin edge of its rows. A figure is made exactly if the table has a name, channels, bin edges, wavelengths and numbers in the drawn columns. Apart from the order of the bands it does not depend on how the set of channels is enumerated - except for the labels of the wavelength axis: all lower edges but only one upper edge are labelled, and which one depends on the enumeration (so 'every edge is labelled' is refuted).", "quantifier": "all tables, column names, units, channels and orders of enumeration of a set", "why_tests_cant": "Names, columns, channels and the order of a Python set (randomised per process) are unbounded.", "anchors": ["exorad/utils/plotter.py: Plotter.plot_table, plot_signal, plot_noise, plot_bands"]}
{"id": "C107", "title": "The plot command draws the chosen targets of a file, each into its own image", "statement": "exorad-plot without options makes one image <out>/<target>.png per target of the file, in alphabetical order, each from the table of that target; with -n the targets with these numbers (from 0, alphabetical); with -t that target alone, and nothing (without error) if it is not in the file. A number beyond the last target is an IndexError, both options together a ValueError, an expression that is not a list of numbers or ranges a TypeError; nothing is drawn then. The first target that cannot be drawn ends the command; the images made before it stay. After a run of the pipeline every target of the run is drawn.", "quantifier": "all files, target names, range expressions, tables", "why_tests_cant": "Files hold any number of targets of any names, in any order of writing, and a failure may come at any of them.", "anchors": ["exorad/utils/plotter.py: main", "exorad/utils/util.py: parse_range", "exorad/exorad.py: standard_pipeline"]}
{"id": "C108", "title": "Plots asked for while observing", "statement": "With plot=True and a directory, targets whose tables can be drawn are returned exactly as without plots, each with an image <dir>/<name>.png; a target whose table cannot be drawn is lost (None) although it was observed. With plot=True and no directory (out_dir=None) every target is lost, in sequence and in parallel, under every schedule.", "quantifier": "all target lists, observations, schedules and numbers of workers", "why_tests_cant": "It ranges over every list, every outcome of observing and every schedule.", "anchors": ["exorad/tasks/targetHandler.py: pipeline_to_dict, ObserveTargetlist", "exorad/utils/plotter.py: Plotter.plot_table, save_fig"]}
{"id": "C109", "title": "The efficiency figure shows transmission, quantum efficiency and their product for every channel", "statement": "plot_efficiency draws for every channel of the payload, in its order, the transmission, the quantum efficiency and their product on the wavelengths of the transmission, the quantum efficiency being rebinned on these. Without channels there is neither figure nor image nor error. Channels loaded from an output file have no efficiency figure: their wavelengths cannot be converted (UnitConversionError). The figure is saved as efficiency.png in the output directory.", "quantifier": "all payloads, channels, grids and data", "why_tests_cant": "Any number of channels with arbitrary data.", "anchors": ["exorad/utils/plotter.py: Plotter.plot_efficiency, save_fig", "exorad/exorad.py: efficiency_plot"]}
{"id": "C110", "title": "Every observed target can be drawn", "statement": "Whatever was observed before with the same channels, the table of every observed target can be drawn: the figure is titled with the target's name, has a curve for the signal of the star, of every foreground and for the total noise, and one band per channel from the lowest to the highest edge of its bins. So asking for plots in a directory changes nothing of the results of a list of targets; with a payload of complete descriptions, every complete target is observed and exactly one image <dir>/<name>.png is written for it.", "quantifier": "all payloads of complete descriptions, targets, histories of observations, units of the columns, orders of enumeration of a set", "why_tests_cant": "Tables result from unbounded histories, channels and foregrounds; the drawing must not fail for any of them, since a failure loses the target.", "anchors": ["exorad/utils/plotter.py: Plotter.plot_table", "exorad/tasks/targetHandler.py: ObserveTarget, pipeline_to_dict, ObserveTargetlist", "exorad/tasks/instrumentHandler.py: BuildChannels"]}
{"id": "C111", "title": "Files a run may touch", "statement": "standard_pipeline with an output file changes nothing in the file system but that file, one copy of each input beside it and, if plots are asked for, images in the same directory; missing directories are made, nothing else is created, changed or deleted, whether the run succeeds or fails. With plots a successful run leaves one image per target drawn, and the efficiency figure unless a target is called 'efficiency'. Without output nothing is written at all.", "quantifier": "all file systems, inputs, payloads, target lists, failures at any step", "why_tests_cant": "File systems and points of failure are unbounded; tests only look at the files they expect.", "anchors": ["exorad/exorad.py: standard_pipeline, efficiency_plot", "exorad/tasks/instrumentHandler.py: PreparePayload", "exorad/tasks/targetHandler.py: pipeline_to_dict"]}
{"id": "C112", "title": "What a run does to its inputs", "statement": "If the payload file and the target list have names differing from each other's and from the output's, both are left as they were and copied exactly beside the output, wherever they lie and even if the run fails. Otherwise not: inputs of the same name leave only one copy, and overwrite a payload lying in the output directory; an input that is the output is deleted and the run fails; a file standing where the output directory should be is overwritten.", "quantifier": "all file systems, locations and names of inputs and output", "why_tests_cant": "Collisions of paths are relations between arbitrary strings; a test samples a few.", "anchors": ["exorad/exorad.py: standard_pipeline"]}
{"id": "C113", "title": "The output of the command and the results it held before", "statement": "The command always replaces its output: nothing of a run depends on what was there. It is deleted first, so a run whose payload file does not exist fails and still destroys the former results. With replace=False an archive at the output only grows, even if the run fails. Anything else standing there is left alone, and the run of a payload description fails. A run whose payload can be stored and whose targets are observed ends without error and leaves at the output's path an archive from which payload, channels and targets are read back.", "quantifier": "all file systems, former outputs, payloads, target lists", "why_tests_cant": "Depends on arbitrary former contents and on failures at any step.", "anchors": ["exorad/exorad.py: standard_pipeline, main", "exorad/output/hdf5/hdf5.py: HDF5Output"]}
{"id": "C114", "title": "Itemising the instrument's light does not change the noise", "statement": "With full_contrib, the signal of each warm optical element is reported in its own column instead of the sum instrument_signal. For every channel this changes neither the pixel maximum, the frame time, the total noise, the sky nor the source found for a target, nor any other column, whatever was observed before through a clear sky; the element columns show each element's light, and zeros for elements only other channels have. Provided element names do not mention 'Max' and no foreground is named 'instrument'.", "quantifier": "all payloads (any number of channels, each with its own elements), settings, targets and histories of observations without an atmosphere", "why_tests_cant": "The tables of channels with different elements are stacked and masked entries filled; equality of the derived noise holds only for all emission values and all sets of elements.", "anchors": ["exorad/exorad.py: standard_pipeline", "exorad/models/optics/opticalPath.py: compute_signal", "exorad/tasks/targetHandler.py: ObserveTarget, EstimateMaxSignal"]}
{"id": "C115", "title": "A fainter star: its own columns scale, nothing else improves", "statement": "If the spectrum of a star is multiplied by q (same sky), the estimate succeeds for both stars and in every row of every channel the star columns (starFlux, starSignal, star_signal_inAperture, star_MaxSignal_inPixel) are multiplied by q, while all columns not about the star or the noise are the same, whatever was observed before. A fainter star (q <= 1) never has a larger MaxSignal_inPixel nor a shorter frame time, and with a fixed frame time never a smaller relative noise. In particular moving the target to k times its distance divides its columns by k^2, and k times the radius multiplies them by k^2, for every complete payload and black-body source.", "quantifier": "all channel sets, settings, targets, scale factors q > 0 (distances, radii) and histories of earlier observations on both sides", "why_tests_cant": "A unit test compares two literal stars; linearity and monotonicity must hold through convolution of all channel tables, bin sums, maxima, frame times and noise for every spectrum and payload.", "anchors": ["exorad/tasks/propagateLight.py: PropagateTargetLight", "exorad/models/instruments/photometer.py: propagate_target", "exorad/models/instruments/spectrometer.py: propagate_target", "exorad/tasks/loadSource.py: LoadSource", "exorad/tasks/noiseHandler.py: EstimateNoise"]}
{"id": "C116", "title": "Where messages go: log files and console over the runs of a process", "statement": "A run with log=True (file exorad.log) or log=<name> writes every message of its steps at level DEBUG or above to that file, in order, whatever level the console is set to meanwhile (also while observing quietly) and whatever the MPI rank; in the first run of a process each message exactly once, the banner not at all. In later runs of the same process each message is written once for every run so far that asked for that file, even if the present run asks for none. The console shows the messages at or above the level set last (INFO at first, DEBUG from a run with debug on), on processes of rank other than 0 only errors, whatever the log files. A log file that cannot be opened stops the run.", "quantifier": "all sequences of runs in one process, messages, levels and settings of the level during each, ranks, and log file names, including different names of one file", "why_tests_cant": "Handlers accumulate in a module-global logger, so the effect of a call depends on the whole history of calls.", "anchors": ["exorad/log/__init__.py: setLogLevel, addLogFile", "exorad/log/logger.py: ExoRadHandler", "exorad/exorad.py: standard_pipeline"]}
{"id": "C117", "title": "The telescope's area scales the star, and the star only", "statement": "Take a complete payload with fixed frame times and a target it can observe. The same payload with k times the telescope's area builds and observes the same target too, and in every channel: starSignal, star_signal_inAperture and star_MaxSignal_inPixel are k times as large in every bin; no other column that is not computed from these (windows, transmissions, foreground and instrument signals, the flux at the telescope, sky transmission) changes; and the total relative noise of a smaller telescope is nowhere better than that of the larger one. Previous observations with either telescope make no difference.", "quantifier": "all complete payloads, targets, foregrounds and settings, all factors k > 0, all earlier observations with each telescope", "why_tests_cant": "Needs the whole chain, from the payload description to the noise, for two payloads at once, in every bin of every channel and any number of foregrounds.", "anchors": ["exorad/models/instruments/photometer.py: propagate_target", "exorad/models/instruments/spectrometer.py: propagate_target", "exorad/models/instruments/instrument.py: build_optical_path", "exorad/tasks/noiseHandler.py: EstimateNoise"]}
{"id": "C118", "title": "A brighter foreground scales its own columns only and never helps", "statement": "Take a complete payload with fixed frame times and a target it can observe, and make one of its foregrounds, called name (\"zodi\" for zodiacal light; not \"star\"), k times as bright, by its factor or by the radiances of its table, k >= 0. The observation still succeeds, and in every channel, bin by bin, <name>_signal and <name>_MaxSignal_inPixel are k times as large; no other column that is not computed from these changes, in particular not the star's, the sky transmission, nor any other foreground's, before or after it; and the total noise is nowhere better if k >= 1, nowhere worse if k <= 1. Previous observations make no difference.", "quantifier": "all complete payloads with any number of foregrounds, targets, settings, factors k >= 0, channels with and without slit, all earlier observations", "why_tests_cant": "Needs linearity of the whole chain of resampling, attenuation, slit convolution and integration, for any number of foregrounds and bins, and monotonicity of the noise in all of them.", "anchors": ["exorad/tasks/foregroundHandler.py: EstimateForegrounds", "exorad/models/foregrounds/zodiacalForeground.py: ZodiacalFrg", "exorad/models/foregrounds/skyForegrounds.py: SkyForeground", "exorad/models/instruments/instrument.py: propagate_diffuse_foreground", "exorad/utils/diffuse_light_propagation.py: convolve_with_slit", "exorad/tasks/noiseHandler.py: EstimateNoise"]}
{"id": "C119", "title": "A grey filter in front of the optics scales all light by its transmission and never helps", "statement": "Take a complete payload with fixed frame times and a target it can observe, and put before its common optics one more element, under a new name: no slit, with a constant transmission k, 0 < k <= 1, and no temperature. The payload still builds, with the same channels, and the observation still succeeds. In every channel, bin by bin, the star's signals and maxima and the signals and maxima of every foreground are k times as large, and so is the column TR (a bin without transmission stays without); no other column that is not computed from these changes, in particular not the instrument's own emission, the star's flux at the telescope, QE, the windows and the sky's transmission; and the total noise is nowhere better. Previous observations make no difference.", "quantifier": "all complete payloads, grey elements with transmission 0 < k <= 1, channels with and without slit and with own optics, targets, settings, foregrounds, earlier observations", "why_tests_cant": "Needs that the product of transmissions, interpolation, binning, forced edges, propagation of star and foregrounds and slit convolution commute with a constant factor, for all grids and numbers of elements, and monotonicity of the noise.", "anchors": ["exorad/models/optics/opticalPath.py: build_transmission_table, chain, prepend_optical_elements", "exorad/models/optics/opticalElement.py: OpticalElement", "exorad/models/instruments/instrument.py: build_optical_path, _get_transmission, _get_efficiency, propagate_diffuse_foreground", "exorad/models/instruments/photometer.py: propagate_target", "exorad/models/instruments/spectrometer.py: propagate_target", "exorad/tasks/noiseHandler.py: EstimateNoise"]}
{"id": "C120", "title": "Noisier detectors change nothing but the noise, and never improve it", "statement": "Take a complete payload with fixed frame times and a target it can observe, and give its channels noisier detectors: dark current, read noise and excess noise (NoiseX) no smaller, no more averages (MultiaccumM), custom noise entries no smaller, or further ones, in the channels or in the common section; frame times and read frequencies the same, well depths any. The payload still builds and the observation still succeeds; in every channel every column other than noise columns and saturation times is the same, the frame times and the summed maxima included; and the total noise is nowhere better, bin by bin. Previous observations make no difference. The same holds with automatic frame times where the well depth and the fraction of it to fill are kept: the frame times stay the same.", "quantifier": "all complete payloads and noisier versions of them, any number of channels and custom noise entries, targets, settings, foregrounds, earlier observations", "why_tests_cant": "Monotonicity of the whole noise budget in all of its parameters at once, for every channel, bin, signal and history; and independence of everything else from them.", "anchors": ["exorad/tasks/noiseHandler.py: EstimateNoiseInChannel, EstimateNoise", "exorad/models/noise.py: multiaccum, photon_noise, photon_noise_variance, add_custom_noise", "exorad/models/instruments/instrument.py: build_optical_path", "exorad/tasks/propagateLight.py: PropagateTargetLight"]}
{"id": "C121", "title": "A detector of lower quantum efficiency counts all light in proportion and is never less noisy", "statement": "Take a complete payload with fixed frame times and a target it can observe, and multiply the quantum efficiency of each channel, given by a number or by the channel's column of a file, by a factor of its own above 0 and at most 1. The payload still builds and the observation still succeeds; in every channel the QE column, the signals and maxima of the star, of every foreground and of the instrument itself, and MaxSignal_inPixel are exactly that factor times what they were; every other column but noise and saturation time is the same, the star's flux, the transmissions and the frame times included; and the total noise is nowhere better, bin by bin. Previous observations make no difference.", "quantifier": "all complete payloads, factors per channel, targets, settings, foregrounds, earlier observations", "why_tests_cant": "Linearity of three separate propagation chains (star, foregrounds with and without slit, emission of the optics) in the same input through rebinning, interpolation, integration, convolution and building, for every channel, curve and history.", "anchors": ["exorad/models/instruments/instrument.py: _get_qe, _get_efficiency, propagate_diffuse_foreground, build_optical_path", "exorad/models/optics/opticalPath.py: compute_signal", "exorad/utils/diffuse_light_propagation.py: convolve_with_slit, integrate_light", "exorad/models/instruments/photometer.py: propagate_target", "exorad/models/instruments/spectrometer.py: propagate_target", "exorad/tasks/noiseHandler.py: EstimateNoiseInChannel"]}
{"id": "C122", "title": "Files named in an options document are read under the path in force and put in their place", "statement": "LoadOptions reads the table named by a datafile element, under the configuration path in force, and stores it under 'data' beside the other entries of that section; a datadict element stores the contents of a pickle file there, and a config_dict element makes the section equal to the contents of its pickle file plus the file name. Everything else in the document is represented as without files. A document whose elements and files can be read loads; it fails when a file anywhere in it cannot be read, when a section has two of the same kind, when the table type is not ecsv, when a dictionary is in any other file than a pickle (HDF5 included), or when a dictionary is named while no configuration path is known, even if its name has no placeholder. The other elements of a section with a config_dict are lost.", "quantifier": "all documents, paths, file contents and load histories", "why_tests_cant": "Documents and the places where files are named are unbounded, and the path in force depends on the traversal.", "anchors": ["exorad/tasks/loadOptions.py: LoadOptions.__parser__, __read_datatable__, __read_datadict__"]}
{"id": "C123", "title": "Warmer or more emissive optics never help", "statement": "Two payloads that differ only in the temperatures and emissivities (a number, or the column of a data file) of their optical elements, in the second nowhere lower than in the first, both build and both estimate the same target, whatever was observed before. In every row the light of the instrument, its peak per pixel and the total peak per pixel of the second are no smaller than those of the first, the total noise is no smaller, and every other column, the frame time included, is the same.", "quantifier": "all complete payloads with fixed frame times, all pairs of optics of which the second is warmer or more emissive, all targets, foregrounds, settings and histories of previous observations", "why_tests_cant": "The comparison is between any two configurations; tests sample single configurations.", "anchors": ["exorad/models/optics/opticalPath.py: OpticalPath.chain, compute_signal", "exorad/models/optics/opticalElement.py: OpticalElement", "exorad/models/instruments/instrument.py: Instrument.build_optical_path", "exorad/utils/exolib.py: planck", "exorad/tasks/noise.py: EstimateNoise"]}
{"id": "C124", "title": "The rebinning that conserves the area", "statement": "rebin_ refuses differing units, fails (with a ValueError) on the same arguments as rebin, and gives the same values as rebin wherever the sources are not everywhere finer than the targets. Where they are finer it gives one value per target; the value of every bin that lies between the second and the last visible source is between the smallest and the largest sample (so constants are reproduced there), and on an even grid whose outer borders are sources the values times the step add up to the area under the samples. Refuted: at the ends constants are not reproduced, and positive samples can give negative values.", "quantifier": "all increasing target grids and sources of increasing wavelength", "why_tests_cant": "Real-valued grids and samples of any length.", "anchors": ["exorad/utils/exolib.py: rebin_"]}
{"id": "C125", "title": "Where light is counted there are numbers: automatic frame times and noise", "statement": "Take a completely described payload that observes a known star as a black body, in which every channel either has a fixed frame time or has clear optics and sees the star (its image gets light, its quantum efficiency is positive around some wavelength of the star inside its band and range; for a spectrometer, in a pixel inside a bin). Then the observation succeeds, however often the payload was used before, and every channel gets one positive frame time in all its rows: the fixed one, or else the longest with which no pixel exceeds the allowed fraction of its well - the fullest pixel reaches it exactly. And in every bin in which light is counted the total noise is a non-negative number, not NaN or infinity.", "quantifier": "all such payloads (any number and kind of channels), stars, settings and histories of observations", "why_tests_cant": "The condition that light reaches the detector passes through source, sky, optics, efficiency, point spread function, rebinning and binning, all real-valued and of any length.", "anchors": ["exorad/models/noise.py: frame_time", "exorad/models/instruments/photometer.py: propagate_target", "exorad/models/instruments/spectrometer.py: propagate_target", "exorad/tasks/propagateLight.py: PropagateTargetLight", "exorad/tasks/noiseHandler.py: EstimateNoise"]}
{"id": "C126", "title": "Stars, foregrounds, larger telescopes, filters, warm optics and worse detectors with automatic frame times", "statement": "Under the conditions of C125: if a star is at k times its distance (or has k times its radius, or the telescope has k times its area), all columns counting its light are those of the first observation times q = 1/k^2 (k^2, k), the other columns are the same, and in every channel the fullest pixels and the inverse of the frame time change by a factor between 1 and q. A fixed frame time does not change, and with it a fainter star has no less noise. Behind a grey filter that passes the fraction k all columns of light that came through it, and the transmission, are k times the others, and a frame time is no shorter and at most 1/k times as long; with k times the quantum efficiency in a channel all columns of counted light, the fullest pixels included, are k times the others and an automatic frame time is exactly 1/k times as long. With a foreground k times as bright its columns are k times the others, the other columns the same, the fullest pixels and the inverse of a frame time change by a factor between 1 and k, and with a fixed frame time more foreground means no less noise. With warmer or more emissive optics there is no less light of the instrument and the fullest pixels are no emptier, a frame time is no longer, every other column of light the same, and with a fixed frame time there is no less noise. Refuted: with an automatic frame time a fainter star can have less noise than a brighter one, because the longer frame holds one more read.", "quantifier": "all such payloads, stars, settings, factors k > 0 (0 < k <= 1 for filters and efficiencies) and histories of observations", "why_tests_cant": "It relates two runs of the whole program, over all real parameters.", "anchors": ["exorad/models/noise.py: frame_time", "exorad/tasks/noiseHandler.py: EstimateNoise", "exorad/models/instruments/photometer.py: propagate_target", "exorad/models/instruments/spectrometer.py: propagate_target", "exorad/tasks/loadSource.py: LoadSource"]}
{"id": "C127", "title": "The command line is read as it is written", "statement": "The command exorad calls the pipeline with exactly what its arguments say: -p/--payload, -t/--targetList, -o/--output and -n/--nThreads with the value given last (as the next word, after an =, or joined to the letter), -c, -d, -l and -P true when they are there, one thread, no output and false otherwise, and an old output replaced. Long names may be cut short as long as they are those of one option. The order and the spelling do not matter. Without a payload or a target list, or with a number of threads that is no integer, it leaves with status 2 and runs nothing; with -h/--help it leaves with status 0. Whenever the pipeline is called every word of the command line was read as an option, a flag or a value: nothing is passed over.", "quantifier": "all command lines (lists of words of any length)", "why_tests_cant": "There are infinitely many command lines: spellings, orders, repetitions and abbreviations combine.", "anchors": ["exorad/exorad.py: main"]}
{"id": "C128", "title": "What the command does to the files", "statement": "A command line that is refused (status 2) and one that asks for help (status 0) touch no file. Without -o/--output a run changes no file (but the log files). With it only the output file, the copies of the two input files beside it and, with -P, the images in its directory change or disappear; directories on the way to it are made. What is run is exactly what the words name, and the status is 0 if and only if the run ends well, 1 otherwise. That a command that fails leaves the former results alone is refuted: when the payload file is not there, the old output is gone already.", "quantifier": "all command lines, all file systems, all pipelines that fail or end well on them", "why_tests_cant": "Every combination of words and every state of the file system is a case of its own.", "anchors": ["exorad/exorad.py: main, standard_pipeline"]}
{"id": "C129", "title": "Scattering and gathering over processes", "statement": "In a run over n MPI processes, when every process calls scatter with a list of at least n items and the root with exactly n, process r gets the item r of the root's list, whatever the lists of the others hold, and gathering the items at any process gives that process the list again, in order, the others None. The call comes back in all processes only then: fewer than n items, or None, are refused in the process that passes them (ValueError, TypeError), and any other number than n is refused at the root. Without mpi4py there is one process, the first, and both functions raise. Refuted: that only the root need have the data, as with mpi4py itself; that any list of at least n items can be scattered.", "quantifier": "all numbers of processes, roots, lists of items in every process", "why_tests_cant": "It quantifies over the number of processes and the data of each of them.", "anchors": ["exorad/utils/mpi.py: nprocs, get_rank, scatter, gather"]}

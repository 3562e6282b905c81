{
 "P_Task": {
  "model": "M_Task",
  "how": "Task as a state machine with an arbitrary body; induction over histories of calls."
 },
 "P_Options": {
  "model": "M_Options",
  "how": "XML trees to dictionaries, global variables threaded; induction on trees and documents."
 },
 "P_Table": {
  "model": "M_Table",
  "how": "Tables as ordered columns; induction over lists of tables, extensional description of every cell."
 },
 "P_Noise": {
  "model": "M_Noise, M_Table",
  "how": "Noise of a channel as a function over the extended reals; algebra, induction over rows and contributions."
 },
 "P_Signal": {
  "model": "M_Signal",
  "how": "Signal shapes by case analysis; rebin by order arguments on sorted lists and convexity of linear interpolation."
 },
 "P_Optics": {
  "model": "M_Optics",
  "how": "Elements, transmission table and emission chain as folds; induction over the list of elements."
 },
 "P_Light": {
  "model": "M_Light, M_Optics",
  "how": "Diffuse light through slit, pixels and windows; trapezoidal sums, linearity, induction over elements."
 },
 "P_Bins": {
  "model": "M_Bins",
  "how": "Bins and pixels; geometric series for fixed resolution, fuel and a progress measure for variable resolution."
 },
 "P_Windows": {
  "model": "M_Bins",
  "how": "Window sizes by case analysis of the description; binned columns by the rebin lemmas."
 },
 "P_Star": {
  "model": "M_Star",
  "how": "Propagation of the star for photometers and spectrometers; sums over half-open windows."
 },
 "P_Psf": {
  "model": "M_Psf",
  "how": "Images as lists of rows; sums over pixels, nearest-index characterisation, fuelled search for the aperture."
 },
 "P_Omega": {
  "model": "M_Omega",
  "how": "The elliptic integral as a Riemann integral (Coquelicot); evaluation by antiderivatives and substitution."
 },
 "P_Planck": {
  "model": "M_Source",
  "how": "Monotonicity and limits by derivatives (Coquelicot and the standard library)."
 },
 "P_Source": {
  "model": "M_Source",
  "how": "Source dispatch, nearest stellar model, flux scaling; algebra over R and case analysis."
 },
 "P_Foreground": {
  "model": "M_Foreground",
  "how": "Foregrounds as a fold over the description; products of filters, characterisation of success and failure."
 },
 "P_Pipeline": {
  "model": "M_Pipeline",
  "how": "Pool of workers as an arbitrary schedule, files as histories of writes; refinement to a map."
 },
 "P_TargetList": {
  "model": "M_TargetList",
  "how": "Rows to targets; induction over rows, case analysis over formats."
 },
 "P_Util": {
  "model": "M_Util",
  "how": "Induction over strings and lists."
 },
 "P_Hdf5": {
  "model": "M_Hdf5",
  "how": "Round trip by induction on trees."
 },
 "P_Version": {
  "model": "M_Version",
  "how": "String reasoning."
 },
 "P_Observe": {
  "model": "M_Observe",
  "how": "The observation of one target as a composition of stages over shared channels; invariants over histories of observations."
 },
 "P_Outcome": {
  "model": "M_Observe, M_Noise",
  "how": "What success of the parts implies for the whole observation."
 },
 "P_Success": {
  "model": "M_Light, M_Star",
  "how": "Necessary and sufficient conditions for light to go through a channel."
 },
 "P_Works": {
  "model": "M_Observe",
  "how": "Composition of the success conditions."
 },
 "P_Complete": {
  "model": "M_Observe, M_Foreground, M_Source",
  "how": "Success conditions for descriptions of stars and foregrounds."
 },
 "P_Instance": {
  "model": "M_Observe",
  "how": "A concrete instrument meeting the hypotheses of C81-C89, and counterexamples."
 },
 "P_Build": {
  "model": "M_Build",
  "how": "Inversion of the building functions; induction over the channels; the optics and bins theorems (C24, C25, C60-C63) applied to what is built."
 },
 "P_Ready": {
  "model": "M_Build",
  "how": "Forward reasoning: every stage of the building succeeds under the conditions of S_Ready, by the success lemmas of L_Ready."
 },
 "P_Mission": {
  "model": "M_Build, M_Observe",
  "how": "C96 composed with C89."
 },
 "P_Telescope": {
  "model": "M_Build, M_Observe",
  "how": "A concrete payload meeting the hypotheses of C90-C97, and one with its range in nanometres."
 },
 "P_Parts": {
  "model": "M_Build, M_Psf, M_Bins",
  "how": "Inversion of the building functions, and the theorems on windows, gains and quantum efficiency (C36, C60, C70)."
 },
 "P_Emission": {
  "model": "M_Build, M_Optics, M_Light",
  "how": "Induction along the optical path pairs warm elements with radiances; C25, C27, C56 give the light of each."
 },
 "P_Payload": {
  "model": "M_Payload, M_Hdf5, M_Pipeline, M_Options",
  "how": "Induction over the list of channels with the round trip of C47; case analysis of the argument and of the units."
 },
 "P_Run": {
  "model": "M_Pipeline, M_Payload, M_Hdf5",
  "how": "Induction over the list of saved targets with the round trips of C47 and C101."
 },
 "P_Campaign": {
  "model": "M_Pipeline, M_Observe, M_Build",
  "how": "The abstract observation of C37-C38 is instantiated by observe_target; C83 makes it independent of history; C97 and C105 compose."
 },
 "P_Plot": {
  "model": "M_Plot",
  "how": "Folds for the smallest and largest edge, mapM over the selected names, permutations for the order of the set."
 },
 "P_PlotCommand": {
  "model": "M_Plot, M_Util, M_Payload, M_Hdf5, M_Pipeline",
  "how": "C44 for the range expressions, sorting of the names, C39 and C105 for what a run leaves in the file."
 },
 "P_PlotObserve": {
  "model": "M_Plot, M_Pipeline, M_Payload",
  "how": "The plotting step of C37-C38 is instantiated; C102 for the processed data of loaded channels."
 },
 "P_PlotTarget": {
  "model": "M_Plot, M_Observe, M_Pipeline",
  "how": "Texts occur only in chName: preserved by stacking, replacing and summing columns; names only grow; C85 gives the edges, C106 the figure."
 },
 "P_PlotMission": {
  "model": "M_Plot, M_Observe, M_Build, M_Pipeline",
  "how": "C96/C97/C104 for the run, C90 for the edges of built channels."
 },
 "P_Command": {
  "model": "M_Command (on M_Pipeline, M_Hdf5)",
  "how": "Every step changes the file system within a set of paths; sets are composed along the run. The steps before reading are computed exactly when no names collide."
 },
 "P_CommandRun": {
  "model": "M_Command, M_Pipeline, M_Payload",
  "how": "C113 refines the run to M_Pipeline.standard_pipeline, then C105."
 },
 "P_Full": {
  "model": "M_Full (on M_Observe, M_Table)",
  "how": "The channels with itemised tables behave like channels that all have the union of the columns, zeros where an element is absent (observe_unified, by induction over the history); of those, maxima, signal sums and noise are compared column by column."
 },
 "P_FullMission": {
  "model": "M_Full, M_Build",
  "how": "C96 gives the channels, C28 the sum of the element signals, then C114."
 },
 "P_Bright": {
  "model": "M_Observe (with M_Star, M_Source, M_Noise)",
  "how": "The propagated star table of a scaled spectrum is the scaled table (L_Bright, equality of programs); block_view and noise_of_rows of C114 carry it to the final table; the noise inequality is real arithmetic on the closed form of C86."
 },
 "P_BrightMission": {
  "model": "M_Build, M_Observe",
  "how": "C96 gives the channels, C50 the scaling of the source with distance and radius, then C115_brightness in both directions."
 },
 "P_Log": {
  "model": "M_Log",
  "how": "Invariant over the runs: the handlers of the logger are the console and one per log file asked for; by induction over runs and over the messages of a run."
 },
 "P_Area": {
  "model": "M_Build, M_Star, M_Observe, M_Noise",
  "how": "Building with another area gives the same channels but for the area (by cases on the builder); the own columns of such channels differ in the three star columns; two observations are compared bin by bin (L_Compare)."
 },
 "P_Glow": {
  "model": "M_Foreground, M_Light, M_Observe, M_Noise",
  "how": "Every step of the propagation commutes with scaling (L_Glow); the estimated foregrounds are those before with one of them scaled, by induction over the descriptions; two observations are compared bin by bin (L_Compare)."
 },
 "P_Filter": {
  "model": "M_Optics, M_Build, M_Star, M_Light, M_Observe, M_Noise",
  "how": "The table of transmissions with one grey element in front is the one without, times k, and the chain of emissions is the same (L_Filter); for the star a filter is a smaller telescope (P_Area), for foregrounds every step commutes with scaling (L_Glow); two observations are compared bin by bin (L_Compare)."
 },
 "P_Worse": {
  "model": "M_Build, M_Observe, M_Noise",
  "how": "Building with other detectors gives the same channels but for the detectors, by cases on the builder; the own columns of such channels are the same; the rows of two observations are compared bin by bin (L_Compare), each contribution being monotone."
 },
 "P_Faded": {
  "model": "M_Build, M_Bins, M_Light, M_Star, M_Observe, M_Noise",
  "how": "Every step from the quantum efficiency to the columns is linear in it (L_Faded), by unfolding and induction over elements and foregrounds; as for the star, the factor acts like the telescope area of C117; the rows of two observations are compared bin by bin (L_Compare)."
 },
 "P_Files": {
  "model": "M_Options",
  "how": "Induction over the document: each level is the result of the loop over the children (the invariant of C04) followed by the three file steps, each inverted into its specification; success by the same induction with the path as invariant."
 },
 "P_Warm": {
  "model": "M_Build",
  "how": "A relation \"no smaller, and not negative\" between lists is preserved by every stage: black body radiance (C53), products, resampling and interpolation (linearity applied to the difference), convolution with the slit, selection, maxima, integration and sums; then the rows are compared as in C120 and C121."
 },
 "P_Rebin": {
  "model": "M_Rebin",
  "how": "The growth of a piecewise linear function between two points is bounded by its slopes (induction over the segments); the accumulated area has the samples' means as slopes; on an even grid the differences telescope."
 },
 "P_Seen": {
  "model": "M_Build",
  "how": "A curve rebinned to a grid is positive at a point between positive neighbours that the curve reaches; the integral over a bin containing such a point is positive; so the largest pixel signal is, which is all the frame time needs. Composition with C96, C97 (payload to table)."
 },
 "P_Auto": {
  "model": "M_Build",
  "how": "Two observations compared row by row (L_Compare): the columns of the star are scaled, the others equal, so the maxima are between; an automatic frame time is the inverse of the largest. The refutation computes both noises from C12 and C14."
 },
 "P_Args": {
  "model": "M_Args",
  "how": "argparse as an algorithm on words (classification, then consumption from the left). Words in the usual spelling are classified as what they say (the finitely many abbreviations by cases), and the loop folds them (induction on the spelling). Conversely a run that ends in a call consumed every word (induction on the number of words), and each consumed word inverts to a reading."
 },
 "P_Shell": {
  "model": "M_Shell",
  "how": "the argument reader of M_Args followed by the files as the command leaves them (M_Command); the theorems compose those of P_Args and P_Command, and the refuted claim is an example evaluated in the model."
 },
 "P_Framed": {
  "model": "M_Build",
  "how": "As P_Auto, for the comparisons of P_Filter and P_Faded: the maxima behind a filter lie between the k-fold and the whole; with a lower quantum efficiency every column that counts is the k-fold, so the maxima are, and the inverse of the largest fixes the frame time."
 },
 "P_Wells": {
  "model": "M_Build",
  "how": "As P_Auto, for the comparison of P_Worse: an automatic frame time depends on the fullest pixels, the well depth and the fraction to fill only, so it is the same, and the rows compare as with a fixed one."
 },
 "P_Skies": {
  "model": "M_Build",
  "how": "As P_Auto, for the comparison of P_Glow: the columns of the foreground are scaled, the others equal, so the maxima are between."
 },
 "P_Hot": {
  "model": "M_Build",
  "how": "As P_Auto, for the comparison of P_Warm: the maxima are no smaller, so the inverse of the largest is no larger; warmth changes no transmission, so what was seen is seen still."
 },
 "P_Mpi": {
  "model": "M_Mpi",
  "how": "All processes run the same call; the exchange takes place when none of them has raised. Induction over the processes; the refuted claims are examples with two processes."
 }
}
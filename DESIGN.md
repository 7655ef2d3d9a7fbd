# Formal model of eteq/astropysics in Rocq (Coq 8.16.1)

## Method

The code is Python 2.  It is modelled function by function as shallow, total Gallina functions;
Python exceptions are values (`Raise e`), mutation is state passing, Python list/deque
index rules (negative indices, clamping `insert`) are modelled explicitly in `PyBase.v`.

* `theories/*Model.v`  – the model: definitions only, each citing `/repo` file and lines.
* `theories/*Spec.v` (or a header section of the Props file) – the small independent specification.
* `theories/*Proofs.v` – lemmas.
* `theories/*Props.v` – only property theorems, each `exact lemma`, followed by `Print Assumptions`,
  and non-vacuity `Example`s.

Naming: `_partial` = only part of the English property; `_refuted` = the documented statement is false
of the faithful model (a defect of the code), with a witness.

## Trusted base

* Coq's kernel (coqc 8.16.1, incl. `vm_compute`).
* Faithfulness of the model to the Python code (read as text; never executed).
* Floating point numbers are modelled by mathematical reals (`R`), rationals or integers; rounding is not
  modelled except where a property is about rounding, and then explicitly.
* Axioms, as printed by `Print Assumptions` under each property theorem:
  * theorems over the reals: the standard library's `ClassicalDedekindReals.sig_forall_dec`,
    `ClassicalDedekindReals.sig_not_dec`, `FunctionalExtensionality.functional_extensionality_dep`
    (and `Classical_Prop.classic` where trigonometric library lemmas use it);
  * all others: "Closed under the global context".
  `coqchk` additionally lists the `Coq.ssr.ssrunder.Under_rel.*` module-type fields of the standard library's
  ssreflect plugin files, loaded through std++, and the opaque module fields `Coq.Reals.Rdefinitions.RbaseSymbolsImpl.*` and `RinvImpl.*`
  (definitions sealed by a module type inside the standard library's Reals).

## Plan per property (first wave)

| id | model | proof |
|---|---|---|
| C01 | Pipeline as three lists + element heap; all API calls | invariant by induction over call sequences |
| C02 | same, elements as Mealy machines | refinement: every stage's consumed/produced streams agree with the stream semantics, invariant over schedules |
| C03 | exceptions as values in processStage | case analysis |
| C04 | messages with identity, counters, targets | induction on pipeline / streams |
| C05 | accumulator stack in element state | induction on naccum |
| C06, C07 | fuelled loops of processSingle / processToStage | induction on queue lengths |
| C08 | addElement/removeElement with Python insert/pop/extend/rotate | list lemmas |
| C09 | two linked dictionaries with the `setting` flag | invariant over histories |
| C10–C12 | node heap (parent, children) | forest invariant, structural induction |
| C13, C14 | Field value list | invariant over histories |
| C15, C16 | integer day arithmetic of calendar_to_jd / jd_to_calendar | Z arithmetic |
| C17 | the table and lookup | finite sweep + monotonicity |
| C18 | affine maps over Q/R | field |
| C19–C22 | reals | Coq Reals |
| C23 | 3×3 matrices over R | ring / trig identities |
| C24 | association list registry, cache, path search | invariant; graph search correctness |
| C25–C27 | lists over Z/Q | induction |
| C28 | reals with atan2 model | trig |
| C29 | lists | induction |
| C37 | reals with Python modulo | floor arithmetic |
| C38 | reals: spherical rotation, floor arithmetic | trig identities |
| C39, C40 | heap of cosmology instances, module variables as a partial map, registry | invariant over histories |
| C41, C42 | reals, Riemann integrals (Coquelicot `RInt`), root finder as a parameter | derivatives, mean value theorem, induction on the iterations |
| C43, C44, C45, C46 | reals; dictionaries as partial maps; complex roots as a list of pairs | logarithms, monotonicity, case analysis on the keys, continuity (simple roots), induction on interpolation tables |
| C47 | field contents, links, notifier lists, validity flags and caches as functions on identities; evaluation and invalidation with explicit cycle stacks | invariant: every valid cache is the fresh value (mutual induction), reachability for invalidation, fuel from the length of the duplicate-free stack; completeness by induction on the depth of recomputation |
| C48 | reals | induction on the loop over arguments |
| C49 | reals, unit names as strings | case analysis, derivatives (Coquelicot), substitution rule for the integral |
| C50 | spectrum as a record of lists; histories as folds | induction on the history; invariant "expressed in the selected unit" |
| C51 | FunctionSpectrum with its history list and the units its bound methods see | induction on operations |
| C52 | np.interp on lists | induction on segments, uniqueness of the interpolant |
| C53 | element-wise functions | Bernstein coefficients for the polynomial bounds, derivative signs |
| C54 | np.roll by index arithmetic | case analysis, powers |
| C55 | lists with an arbitrary set iteration order | induction over the duplicate search and the deletions |
| C56 | features as records, searchsorted, convolve | induction on histories; telescoping sums |
| C57 | regular expressions as functions on character lists; recursive parser with fuel = length | induction on fuel; every stage conserves the text; forbidden substrings as hypotheses |
| C58 | file loading with comment placeholders | the relation "some tags replaced by their comments" is kept by the tree walk |
| C59 | tree of nodes, list iteration with removal | nested induction on nodes |
| C60 | argument lists, figures | induction on lists; injectivity of decimal numerals |
| C61 | reals, cgs constants for Wien's law only | derivative of y^k/(e^y-1), Taylor bounds of exp |
| C62 | improper Riemann integrals (Coquelicot is_RInt_gen) of the densities | antiderivatives and their limits |
| C63 | halo record (rho0, rc, saved concentration); virial radius = solution of the defining equation | monotonicity by derivatives, intermediate value theorem |
| C64 | reals | powers |
| C65 | incomplete gamma function by its defining properties | antiderivatives, limits |
| C66 | reals; class cache of b_n as a state machine | derivatives; invariant of the cache over all histories |
| C67 | bands as numbers, dictionaries as association lists | invariants of the two passes over the entries |
| C68 | analyzer record with cached offsets; operations as a transition system; reals, NaN as None | cache invariant over all histories; minimum over the fiducial points |
| C69 | the same record | well-formedness invariant; permutations |
| C70 | ephemeris record (jd, kept value, range), operations as transitions; coordinates and conversion arbitrary | invariant over histories; induction on the dates |
| C71 | reals | algebra |
| C72 | elements as functions; recursive properties with fuel; fsolve arbitrary with a residual bound | intermediate values and monotonicity of Kepler's equation; mean value bounds |
| C73 | reals, Coquelicot derivatives | trigonometry; implicit differentiation of Kepler's equation |
| C74 | triples of reals | Cauchy-Schwarz and its equality case |
| C75 | series as lists of coefficient triples | term-by-term differentiation |
| C76 | disk as two maps; a request is a list of disk effects (truncate, append a character, remember); a crash is a prefix | refinement to a log of downloads; frame of any prefix |
| C77 | text as character lists, columns as an association list | invariant over histories; Python slices |
| C78 | printer of definition lines | parse after print |
| C79 | file as characters, pickling abstract with an inverse | induction on the writes |
| C80 | image as a function on pixels with Python slices | case analysis of the edges |
| C81 | state machine of an image object: pixels, selected region, view or copy, scaling, caches | invariants over all histories |
| C82 | scalings and inverses as real functions | inverse pairs of exp/ln, sinh/arcsinh, powers |
| C83-C84 | masks, averages | counting; Chebyshev's inequality |
| C85, C88, C90 | stages as functions on arrays | shift and scale invariance of the averages |
| C86-C87 | one list of values per pixel | permutations; majority of a sorted list; Samuelson's inequality |
| C89 | scene as a function on integer positions | refinement of shifted reads |
| C91 | the two regular expressions as syntax trees with a backtracking matcher (continuations, captures); numerals with exact values | the matcher is sound and complete for a declarative semantics; inversion of the grammar; uniqueness of splits |
| C92 | texts of the printed fields of C20 | reading theorem of C91 at the printed text, rounding bound of C20 |
| C93 | lists of reals, percentiles by linear interpolation in the sorted list (scipy), erfinv(1/2) a positive parameter | order statistics under affine maps; counting arguments |
| C94 | arrays of any dimension: a shape and a function of multi-indices | sums over multi-indices, induction on the shape |
| C95 | numpy.histogram's ten bins over the range | uniqueness of the bin of a value; double counting |
| C96 | a table of points; numpy's eig and inv are parameters with stated contracts; the cache of the eigensystem is part of the state | finite sums exchanged; permutation of columns by the sort; induction on histories |
| C97 | dictionaries as association lists, objects with identity, type and optional name; recursive lookup with fuel | dictionary laws; invariant over histories |
| C98 | the same; strings as character lists | splitting and stripping laws; induction on the request |
| C99 | header numbers and the list of values, of any type; the specification is a writer of the format | slices of concatenations |
| C100 | the stream of pulldom events (expanded nodes with their content); numpy types and conversions are parameters; the specification is a document tree and its events | the reader is run through the events of the tree; unbound variables are None |
| C101 | the same | invariants over any stream |
| C102 | lists of source names per object; numpy.unique, argsort and choose as functions on lists | codes are indices, so injective; argsort of a permutation is its inverse |
| C103 | columns of values with formats as a parameter; texts as lists of characters | split of join, the cut of the last row mark |
| C104 | reals | Rpower and ln |
| C105 | the regular expressions of configobj as syntax with a backtracking matcher; reading and writing of flat files as functions on characters | the matcher on every written text: what it takes at first, and that shorter tries fail; induction over the lines |
| C106 | file system as a function from paths to files and directories; every call yields all states of the disk | frame relation between the states, case analysis, C105 |
| C107 | a list of calls | induction with the invariant of C105 |
| C108 | Hermite polynomials by their recurrence (scipy contract), quad as the improper Riemann integral | integration by parts with the limits of the boundary terms, induction on both orders, change of variable |
| C109 | arrays with shapes, rows sorted by x | permutation and order of the insertion sort |
| C110 | HDUs with optional header values and data | characterisation of the files that load, in both directions; strict order determines the rows |
| C111 | HDUs with names and tables, name dictionary | both sides, one side, none; induction over the deletions from the end |
| C112 | scipy filters as correlations with reflected ends | averages; symmetric weights: sum over a period of the reflected array |
| C113 | matrices as functions, numpy.linalg.inv and pinv arguments with contracts (an implementation of both is proved to meet them) | normal equations imply least squares; positive weights and residual 0 imply equality |
| C114 | reals, lists | sums of deviations bounded by the standard deviation (Cauchy-Schwarz), induction over the list of spectra |
| C115 | reals, lists of features; broadcasting of arrays | pixel ranges from searchsorted, sums; nearest by induction over the list |
| C116 | texts, dictionaries, a file system as a list of names and contents | inductive description of the dump; lines of joined texts; words; induction over lines |
| C117 | reals; a state of three arrays, function and kinds of closures; samples as arguments | invariant over histories of assignments |
| C118 | registry of functions that raise or not, files as a map, interactive flag, order of dictionaries as an argument | induction over plots and extensions |
| C119 | text of a file; codes, conversions and expressions as arguments | induction over lines, fields and expressions |
| C120 | rectangular and angular coordinates with unit, epoch, distance over the reals; Earth position as argument | case analysis, trigonometry of atan2/asin, induction over assignments |
| C121 | the eleven angular systems, their matrices and paths over the reals; nutation, CIO locator, Earth rotation, polar motion as arguments | orthogonality, induction over the path, explicit axes |
| C122 | transformToEpoch of every class | orthogonality, polynomial identities of the precession angles |
| C123 | extinction laws as real functions, objects as law, A0, Rv; spectra as in C50 | real arithmetic on the published polynomials, logarithms, unit round trip of C50 |
| C124 | masks, projection, rounding, pixel access; files and map_coordinates as arguments | induction over the positions, trigonometry |
| C125 | tables of reals, sorting, Simpson's rule written out, unit changes of C49/C50 | induction over tables and histories, real arithmetic |
| C126 | HDUs as optional arrays of reals with five header entries, views and copies of the data as in C80 | invariant over all histories (shapes preserved, pending HDU changes fail), slices |
| C127 | measurement objects and isophotal ellipses as state machines; model fluxes and scipy's solver as arguments | invariants over all histories, trigonometry of the ellipse |
| C128 | living objects, weak dictionary of singletons, ADS cache; network answers as arguments | invariant (dictionary = image of the heap, no repeated names), split/join of strings |
| C129 | world of nodes and Field objects over the Field model of C13/C14 | invariant over all histories, induction over the names |
| C130 | the loops of arrayToNodes and arrayToCatalog over the nodes of C129; matcher, filter, converters and errors as functions | last row written to each node, by induction over the rows with repeated targets; observations (names, values by name) instead of worlds |
| C131 | StructuredFieldNode over the nodes of C129; a class is a list of Fields with type and default | invariant of histories: unaltered nodes have names and types of their class; last call decides alteredstruct |
| C132 | SEDField over the Fields of C13; masks as a list of integers, overlap and computation as functions | positions shown by induction over the values; histories by induction from the right |
| C133 | extraction, searches and setToSourceAtNode over the trees of C12 and the nodes of C129; an exception of the visited function is kept in the state | C12_visit gives the visited list; then induction over that list; setToSource by idempotence |
| C134 | lists over any totally ordered type, insertion sort for numpy's sort; the loop of square_subplot_dims | sorted lists split at a position; filters over neighbouring ranges as permutations; loop invariant |
| C135 | flat lists in C order; numpy's repeat, reshape and transpose by an order of axes | position of an index by mixed radix; the order of axes inverted on a split index; induction over the vectors |
| C136 | values by what isinstance, dtype and len answer; a loop over the types | induction over the sequence; the first entry decides |
| C137 | bytes; the two regular expressions as a scan and a three-state copier | the copier equals a description line by line (induction over the text, all states at once) |
| C30 | reals | trig monotonicity |

## What is modelled, and what is not

| file in /repo | modelled | not modelled |
|---|---|---|
| `astropysics/pipeline.py` | `Pipeline` (all of feed, feedMany, extract, clear, addElement, removeElement, processStage, process, processToStage, processSingle), `PipelineElement` defaults, `PipelineMessage`/`AccumulateMessage`/`CallMethodMessage` | saving pipelines to files, the concrete elements' image arithmetic |
| `astropysics/utils/gen.py` | `SymmetricMapping`, `DataObjectRegistry` (string keys; attribute access left out) | introspection helpers |
| `astropysics/objcat.py` | `CatalogNode` tree, `Catalog.mergeNode/insertInto/__contains__`, `ActionNode.__init__`; `Field` as a mutable mapping/sequence of values (getitem, setitem, delitem, insert, append, pop, reverse, currentobj); `DerivedValue`, `DependentSource`, notifications, error propagation; `TextTableAction` | pickling, plotting, web and GUI code |
| `astropysics/obstools.py` | `jd_to_calendar`, `calendar_to_jd` (exact day arithmetic; times on the binary64 grid 2^-31 days of JDs in [2^21,2^22)), `jd_to_epoch`, `epoch_to_jd`, `delta_AT` (rational arithmetic); `Site`: `localSiderialTime`, `localTime`, `equatorialToHorizontal` (without errors), `riseSetTransit`, `nextRiseSetTransit`, `onSky` (exact reals, constant UTC offset) | time zone lookup, array shapes, string formatting of epochs |
| `astropysics/coords/coordsys.py` | `AngularCoordinate` (constructor from numbers, tuples, texts and copies, all setters/getters, `_checkRange`, `_setRange`, string fields of getDmsStr/getHmsStr, arithmetic), `AngularSeparation`, `LatLongCoordinates` (constructor, setters, `__eq__`, `__sub__`, `matrixRotate`, `_smatrix`), `RectangularCoordinates`, the transformation registry of `CoordinateSystem` with its caches, `convert` (both classes; user functions arbitrary, networkx.shortest_path specified by the hypothesis `sp_ok`), epochs, distances, `RectangularICRSCoordinates`/`RectangularGCRSCoordinates` and their transforms, all registered matrix transformations between the angular classes and every `transformToEpoch` | separators given as one string, inclzero, seconds formats other than fixed width |
| `astropysics/coords/funcs.py` | cartesian/polar/spherical/cylindrical and latitude conversions, sizes (usez=False), geocentric latitude, `earth_rotation_angle`, `greenwich_sidereal_time` and the equations derived from it (polynomial and nutation as parameters), `match_coords` in all modes, `match_nearest_coords` on D x N arrays (KDTree as a parameter), `cosmo_z_to_dist`, `cosmo_dist_to_z`, `cosmo_z_to_H` on scalars (exact integral; z=None except for the angular distance) | nutation series, `objects_to_coords`, sequences of coordinate objects in match_nearest_coords |
| `astropysics/constants.py` | `Cosmology` export/remove/`__setattr__`, the registry and `choose_cosmology`, `FRWCosmology`, flux conversions | getParamWithError, the numbers of the built-in cosmologies |
| `astropysics/phot.py` | Pogson magnitudes, luminosities, distance moduli, surface brightness, UBVRI/ugriz transformations, colours and temperatures, 1-d `PhotObservation` | bands as functions of wavelength, spectra, CMD analysis, extinction, photometry of images |
| `astropysics/spec.py` | units, `Spectrum` (construction, arrays, units, smoothing, continuum operations, x0, photon fluxes, linear resampling), `FunctionSpectrum`, air/vacuum, `lag_to_z`, `zfind`, `align_spectra`, noise of `ModelSpectrum`, features (without fitting), `load_line_list`, feature units and fit-free line flux | fitting, plotting, resampling in zfind, spline resampling |
| `astropysics/publication.py` | the regular expressions, `text_to_nodes`, nodes and their text, `TeXFile` loading/saving with comments, `Preamble` class options, `visit`, comment stripping, `Figure.filenames`, ApJ figure names | `flatteninputs`, copying files, tar files, abstract length check, deluxetable/epsscale edits |
| `astropysics/models.py` | the functions of all models except the ones listed at right, blackbody properties, NFW integrals/virial/scalings/creators, Schechter derivatives and integrals, Sersic cache | plotting methods, cosmology lookups (parameters of the model), the pymodelfit base classes (outside the code base) |
| `astropysics/ccd.py` | CCDImage/ArrayImage (regions, scalings, edits, clipping, offsets, statistics), bias, combining, flats, noise limits and CCDNoise | plotting, interactive fits, masked or non-finite pixels, fractional shifts, integer pixel types, callable combining methods |
| `astropysics/utils/stats.py` | moments (natural orders, scalar background), binned_weights (linear), robust statistics, Pca | numpy.linalg.eig and inv (contracts), plots, log binning, integer arrays, one-dimensional Pca |
| `astropysics/utils/io.py` | get_data with its cache, fpickle/funpickle, loadtxt_text_fields (numpy.loadtxt as documented), FixedColumnDataParser (text columns, parsing, column definitions), load_tipsy_format, VOTableReader, load_wcs_spectrum, load_deimos_spectrum, load_all_deimos_spectra | numpy formats of columns, `writeFile`, the XML parser, pyfits, `loadtxt_text_fields`, progress reports; the shelf is taken to be written through |
| `astropysics/coords/ephems.py` | EphemerisObject, ProperMotionObject, KeplerianObject (elements, anomalies, place, phase), ecliptic to ICRS, registry access, Earth series with position and velocity | the numbers of the elements and series (read from data), fsolve (any function), Moon's series, `_ecl_to_gcrs`, `set_solar_system_ephem_method`, epoch0 attributes |
| `astropysics/obstools.py` extinction | all laws, photometry, colours, fluxes, spectra, line ratios, the deprecated function | `extinction_from_flux_ratio` (scipy.optimize), A0 arrays, zero wavelengths for the array laws |
| `astropysics/obstools.py` dust maps | `get_SFD_dust` | spline interpolation (an argument), `get_dust_radec` |
| `astropysics/phot.py` Band, ArrayBand | constructor, moments, normalisation, units, comparisons, computeFlux (arrays, spectra), computeMag, computeZptFromSpectrum | GaussianBand, spline interpolation, repeated x, FunctionSpectrum arguments, plotting |
| `astropysics/ccd.py` FitsImage | constructor, regions, HDU changes, headers read, edits, applyChanges, save | pyfits itself (a file is its list of HDUs), header conversion, log and sb scalings, closing, memory shared with a constructor array |
| `astropysics/phot.py` photometry of images | PhotometryBase, GaussianPointSpreadFunction (width), ModelPhotometry (total flux, magnitude), IsophotalEllipse (setters, fit logic, points) | leastsq and pymodelfit (arguments), simulate, getDiff, PSF convolution and fits, plotting |
| `astropysics/objcat.py` Source | construction, singletons, bibcodes, pickling text, ADS record cache | how a location becomes a URL, BibTeX entries, fields of a record, warnings |
| `astropysics/objcat.py` FieldNode | addField, delField, item access, values, setToSource | extractField, fielddict, comparison, pickling, StructuredFieldNode |
| `astropysics/objcat.py` arrayToNodes, arrayToCatalog | everything but what follows | structured arrays, traversal of a CatalogNode, matchers that read what the call writes |
| `astropysics/objcat.py` StructuredFieldNode | __init__, revert, addField, delField, alteredstruct | derived values of the class, pickling and checkonload, units and descriptions |
| `astropysics/objcat.py` SEDField | specs, phots and sources, masks, specunits, getBand | getFullSED, plotSED, defaults, pickling |
| `astropysics/objcat.py` extraction and searches | extractFieldAtNode, extractField, getFieldValueNodesAtNode, locateName, getFieldNames, setToSourceAtNode | filter values that are not callable, missing='masked', errors, asrec, numpy's conversion of mixed values, siblings |
| `astropysics/plotting.py` | data of cumulative_plot and split_histograms, square_subplot_dims | everything drawn, all other functions, integer arrays, roundoff of ceil(sqrt(n)) |
| `astropysics/utils/alg.py` nd_grid | everything (numpy's ravel and common type of the vectors aside) | |
| `astropysics/utils/gen.py` check_type | everything but the texts of the errors | |
| `astropysics/utils/gen.py` change_indentation | everything but escapes (backslashes) in the indentation | |
| `astropysics/phot.py` SExtractor | reading sex -dd and -dp, configuration files, names, command line | running the program, its result code and output |
| `astropysics/phot.py` CMDAnalyzer | band and colour dictionaries, fiducial and data access, offsets and all settings | plotting, `setData` with a structured array, band objects in `getData` (only their names), data in no band of the fiducials |
| `astropysics/utils/alg.py` | `rotation_matrix`, `angle_axis`, `rotation_matrix_xy`, ellipticities, `nearestsorted` (numpy.searchsorted as the first index not below), `crossmask`, `sigma_clip`, `estimate_background` (numpy mean/var/median as exact real functions, NaN for empty), `lin_to_log_rescale` | interpolation, centroiding, NaN in the data, integer overflow |
| `astropysics/config.py` | get_config, get_projects, add_project, del_project | setup and installation of packages, home directories |
| `astropysics/data/project_template.py` | plotfunc, make_plots, main's choice of plots and variables | drawing, tweakbbox, argparse |
| `astropysics/external/configobj.py` | reading and writing of flat files: keyword, value, list and comment expressions, quotes, setting and deleting | sections, values over several lines, byte order marks, interpolation, validation, unrepr |

## Findings (theorems named `_refuted`)

Places where the documented behaviour is false of the code; each has a witness theorem.

* `C04_callmethod_refuted`, `C05_nested_accumulate_refuted`, `C06_limit_and_removefailed_refuted`,
  `C06_skips_queue_refuted`, `C07_swallowing_element_refuted`, `C08_negative_stage_refuted`, `C08_negative_remove_refuted`
  (pipeline; see the comments above each theorem in `PipelineProps.v`).
* `C09_*_refuted`: overwriting a present key, `None` values and `clear`/`pop` on a linked mapping break the bijection.
* `C10_negative_reorder_refuted`: `reorderChildren([0,-2])` duplicates a child.
* `C11_removeChild_fieldnode_refuted`, `C11_removeChild_equal_refuted`, `C11_insertInto_refuted`: removeChild of a
  FieldNode always raises; removeChild by value equality removes from another parent; insertInto always raises.
* `C12_level_noself_refuted`, `C12_float_refuted`, `C12_idstr_refuted`.
* `C13_insert_source_refuted` (insert at a Source key duplicates the source), `C13_currentobj_type_refuted` (currentobj
  assignment does not check the type), `C14_two_character_name_refuted`, `C14_index_assignment_refuted`,
  `C14_assign_other_source_refuted`, `C14_reverse_refuted` (reverse of two or more values raises), `C14_derived_lost_refuted`.
* `C15_gregorian_none_refuted` (gregorian=None tests year, month, day independently), `C15_microseconds_refuted`,
  `C15_overwrites_arguments_refuted`, `C15_early_years_refuted`; `C16_default_round_trip_refuted` (08:00:00 comes back as
  08:00:01 with the default rounding), `C16_early_gregorian_refuted`, `C16_defaults_differ_refuted`, `C16_fracarray_refuted`.
* `C17_month_of_change_refuted` (a leap second is applied one month late), `C17_usett_refuted` (sign of TT-TAI),
  `C17_drift_refuted` (fraction of day counted twice); `C18_string_array_mjd_refuted`, `C18_overwrites_argument_refuted`.
* `C19_dms_sign_refuted` (degminsec applies the sign after the range check), `C19_zero_width_refuted`, `C19_copy_range_refuted`;
  `C20_small_negative_refuted` (sign lost between -1 and 0 degrees), `C20_negative_carry_refuted` (-5d59'59.999" printed as
  -4d0'0.00"), `C20_negative_hms_refuted`; `C32_truediv_refuted` (`/` is floor division under `division`),
  `C32_separation_constructor_refuted` (radians taken for degrees).
* `C21_over_the_pole_refuted` (latitude 100 becomes 80 on the same meridian), `C22_errors_refuted` (any rotation of a coordinate
  with a nonzero error raises ValueError: shapes 3x3 and 1x3), `C22_unitarycheck_refuted` (tests normality, the zero matrix
  passes), `C23_opposite_angle_refuted`, `C23_sense_refuted`, `C23_zero_division_refuted`, `C23_angle_axis_refuted`,
  `C23_rotation_matrix_xy_refuted` (undefined name), `C34_round_trip_refuted` (missing square).
* `C24_no_path_exception_refuted` (networkx's exception instead of the documented NotImplementedError),
  `C24_self_conversion_refuted`, `C24_redefined_type_refuted` (closures share loop variables), `C24_stale_cache_refuted`,
  `C24_mixed_path_refuted` (the combined matrix is not reset, so it is applied again after a plain transformation).
  `transweight` has no effect: the path search passes weight=True, an attribute no edge has.
* `C25_unsorted_refuted`, `C26_alternation_refuted`, `C27_convergence_refuted` (iters=None compares only the number kept),
  `C27_termination_refuted` (may loop for ever with a callable centre), `C35_constant_refuted`.
* `C28_cylindrical_degrees_refuted` (`degrees` ignored), `C28_negative_size_refuted`, `C29_match2D_refuted` (transposed),
  `C29_nearest_self_refuted`, `C37_equinoxes_refuted`.
* `C30_utc_date_refuted` (UTC time of day combined with the local date; onSky and nextRiseSetTransit inherit this),
  `C30_grazing_refuted`, `C30_second_transit_refuted`, `C38_apparent_refuted`, `C38_datetime_refuted`. Read but not formalised:
  equatorialToHorizontal passes the azimuth error as `alterr` and the altitude error as `azerr`; riseSetTransit(timeobj=True, utc=False)
  attaches the machine's zone instead of the site's; the cached pressure of apparentCoordinates grows with altitude and is never used.
* `C39_neither_refuted` (an argument that is neither a name nor a Cosmology ends in UnboundLocalError after autoupdate was switched off),
  `C39_unreadable_refuted` (bare except: the unreadable cosmology is returned as chosen, the old one stays current), `C40_case_refuted`.
* `C41_rho_refuted` (rho(z) uses today's omega), `C42_etherington_refuted` (luminosity distance ignores curvature while the angular distance
  does not), `C42_angular_refuted` (cosmo_dist_to_z raises for ordinary angular distances), `C42_intkwargs_refuted`. Read but not
  formalised: the z=None loop for angular distances tests `abs(res-upper) < inttol`, so it always stops at z=5.
* `C43_asinh_refuted` (the asinh system cannot be constructed), `C43_flux_observation_refuted` (undefined name), `C43_fluxerr_refuted`
  (magnitudes passed where fluxes are expected), `C44_default_refuted` (`np.any(z) > 0.1` is true for every z that is not 0),
  `C44_redshift_refuted` (Mpc used as pc), `C44_errors_refuted`, `C45_there_and_back_refuted`, `C45_needs_z_refuted`. Read but not
  formalised: ML_ratio_from_color always raises TypeError (np.array called with three lists); the GaussianBand constructor fails;
  ArrayBand.normalized assigns to the read-only property S; transform_dict raises TypeError, not the documented ValueError, for an
  empty dictionary (`C45_outcome`).
* `C47_pop_refuted` (`pop()` on a field with one value leaves the derived value valid), `C47_insert_negative_refuted`,
  `C47_set_node_refuted` (joining a node forgets links to Field objects, then TypeError), `C47_set_node_string_refuted`,
  `C47_ignore_refuted`, `C48_symmetric_refuted`, `C48_correlated_refuted`. Read but not formalised: registerNotifier(checkargs=True)
  rejects exactly the functions with two arguments that it should accept; DerivedValue.field = None sets an unrelated attribute;
  the message for a CycleError joins the locator strings and fails (TypeError) when a link is a Field object.
* spec.py: `C49_reported_name_refuted` (the reported names of THz and eV are not accepted; joules are unreachable), `C50_getUnitFlux_refuted`,
  `C50_nflux_refuted` (reading nflux leaves the spectrum in Hz), `C51_refuted`, `C53_accuracy_refuted`, `C53_gap_refuted`, `C54_zero_refuted`,
  `C55_tolerance_refuted`, `C55_last_refuted`, `C56_center_error_refuted`, `C56_getUnitLoc_refuted`, `C56_ends_refuted`. Read but not formalised:
  integer arrays are truncated by the in-place conversion; giving both err and ivar does not raise; `_setFeatures` deletes from a tuple;
  removeSpectralFeature by name calls str.index; KnownFeature ignores strength; one-column line lists use ls[1]; ModelSpectrum with a noise
  function fails; computeFlux uses an undefined `phot`; the spline error of resample is built from the flux; after a change between wavelength
  and frequency x descends, which np.interp does not support; align_spectra always raises IndexError; FunctionSpectrum has no flux setter, so
  its continuum operations raise AttributeError; air_to_vacuum of a scalar returns an array.
* publication.py: `C57_display_refuted` (`$$x$` loses text), `C57_declaration_refuted` (commands inside declarations are duplicated),
  `C57_left_refuted` (IndexError for `\left\langle`), `C57_right_refuted`, `C57_brackets_refuted`, `C58_argument_refuted` (comments inside
  arguments are lost), `C58_first_line_refuted`, `C58_no_document_refuted`, `C58_class_refuted`, `C59_adjacent_refuted` (pruning while
  iterating skips the next sibling), `C59_paragraph_refuted`, `C60_plotfiddle_refuted`, `C60_twice_refuted`. Read but not formalised: the
  string constructor of EnclosedDeclaration calls Command with three arguments; Comment with a trailing newline calls Newline() without its
  parent; in prep_for_apj_pub `bibcp` is unbound when the .bib file is missing (`bibcl` is assigned instead) and `bblcp` is never set;
  without a newline the deluxetable insertion index is the number of newlines (0); a debugging print is left in; the arXiv abstract check
  does not count the last line.
* models.py: `C61_energy_refuted`, `C61_wien_thz_refuted` (scale applied the wrong way: factor 1e24), `C61_wien_energy_refuted` (k_B
  missing), `C62_shell_refuted` (a shell's mass drops 4 pi r^2), `C63_density_units_refuted` (1e9), `C63_stale_c_refuted`,
  `C63_create_vmax_refuted`, `C64_create_Cvir_refuted` (NameError, whatever the input), `C64_vmax_radius_refuted`,
  `C64_virial_velocity_refuted`, `C65_mag_derivative_refuted`, `C65_mag_integral_refuted`, `C66_sersic_index_refuted`, `C66_king2d`
  (positive beyond the tidal radius). Read but not formalised: BlackbodyModel has no attribute `_enscale` (instance Stefan-Boltzmann
  law raises AttributeError); DeVaucouleursModel has no `n` (AttributeError); King3DrModel fails on scalars (`res[r>=rt]`).
* CMDAnalyzer: `C67_same_refuted`, `C68_locations_refuted`, `C68_center_refuted`, `C68_weights_refuted` (stale offsets), `C68_color_only_refuted`
  (NaN), `C69_groups_refuted`, `C69_sequences_refuted` (numpy broadcasting hides the check for one point), `C69_pair_refuted`,
  `C69_weights_refuted`.
* ephems.py: `C71_distance_refuted`, `C72_missing_refuted`, `C73_P_refuted`. Seen in the text, not modelled: the default of `Etol` is the
  obliquity 23.43928 (documented None), there is no 'Sun' in the registry so the default `getPhase` of planets raises KeyError, the
  corrections of outer planets are looked up under a name that never matches (and use degrees as radians), `_ecl_to_gcrs` subtracts the
  barycentric Earth from heliocentric planets, the error path of `set_solar_system_ephem_method` uses an undefined name.
* utils/io.py: `C76_crash_refresh_refuted`, `C76_collision_refuted`, `C76_title_refuted`, `C76_localfn_refuted`, `C77_newline_refuted`,
  `C78_mark_refuted`, `C78_limit_refuted`, `C79_negative_refuted`. Seen in the text: `FixedColumnDataParser.writeFile` unpacks the columns
  (4 entries) into 3 names and so always raises ValueError.
* ccd.py: the theorems `C80_*_refuted` ... `C90_*_refuted` (range of the constructor ignored, negative radius, wrong inverse after a change of
  scaling, applyChanges and statistics dead after setScaling because of `_fstatd=None`, stage results lost, refused logarithm installed,
  no inverse of the logarithm, identity power scaling, median replacement, offset to -1, stale statistics, trimming to the overscan,
  transposition, one-sided rejection, ignored rejection with weights, swapped and unsigned trimming, gain). Seen in the text and not modelled: clip methods
  return counts per column; a callable combinemethod gets the whole image instead of the bias region; UniformNoise.var ignores frac; the
  zeropoint setter returns a ValueError instead of raising it; FitsImage: `_applyArray` with a range does not transpose the data back, a
  scaling given to the constructor raises AttributeError, the list constructor uses `fitsfile` before assignment, `_updateToHeader` changes
  a copy only.
* Angle texts: `C91_*_refuted`, `C92_*_refuted`. The default separator of getDmsStr is U+00B0, modelled as character 176. Seen in the text and
  not modelled: a separator given as one string 'dms' becomes a nested tuple (TypeError); `d is not '0'` compares identity.
* utils/stats.py: `C93_centre_refuted`, `C94_std_refuted`, `C95_bins_refuted`, `C96_threshold_refuted`, `C96_sigclip_refuted`,
  `C96_subtract_refuted`. Seen in the text and not modelled: integer arrays make `moments` divide in place and `binned_weights` return
  integer zeros; axes given as lists have no `reshape`; subtractPC with other values still subtracts the components of its own data.
* utils/gen.py DataObjectRegistry: `C97_own_name_refuted`, `C98_generated_refuted`, `C98_group_in_list_refuted`, and
  `C97_delete_refuted` (`del registry[name]` and `removeGroup` always raise TypeError). Seen in the text and not modelled: keys that are not
  strings are stored as strings but listed raw in groups; a unicode group name is taken apart into characters.
* utils/io.py load_tipsy_format: `C99_dark_refuted` (slices `[ngas:ndark]` should be `[ngas:ngas+ndark]`). Headers with
  ngas + nstar > ntotal are not modelled.
* utils/io.py VOTableReader: the `_refuted` theorems of C101, and getTableParams and getTableParamExtras return None (no return
  statement), so that the parameters of C100 can only be seen in `_pars`. The index of a table among several depends on the order of a
  dictionary.
* objcat.py TextTableAction: the `_refuted` theorems of C102-C104. Also: `reorder` is ignored; sorting with a source column takes the
  column by the number of the sources and does not reorder the errors; a source whose name begins with "dependent" is dropped; the
  letters of deluxetable notes go past z after 26 columns. Errors beside a source column in ascii are not modelled.
* external/configobj.py and config.py: the `_refuted` theorems of C105-C106. Also: `get_config` returns None for a file with exactly one
  error (it looks for "Parsing failed", which is the text for several), so the documented ConfigObjError becomes a TypeError;
  `get_projects` returns lists and not tuples once the file was read; `tdquot` and `tsquot` are exchanged. Not modelled: sections, values over
  several lines, byte order marks, interpolation (get_projects copies the raw values), other line ends than one newline when writing,
  locating the home directory, symbolic links. config.py, not modelled: `reqstr` is undefined for any version request, `pkgname` and `BuildError` in install.
* models.py GaussHermiteModel: the `_refuted` theorems of C108: gaussHermiteMoment integrates its norm between the bounds for v although it
  is a function of (v-v0)/sig; without h the sum has the wrong shape.
* spec.py smooth and utils/io.py load_wcs_spectrum, load_deimos_spectrum: the `_refuted` theorems of C110-C112. `type == 'uniform'` compares
  the builtin; only the flux is reduced from a table of one row; the sky is attached after the pixels were sorted; `bd`, `rd` are unbound for one side.
* spec.py zfind: the `_refuted` theorems of C113; rchi2 is not weighted even if the fit is, and its degrees of freedom ignore the number of templates.
* spec.py isXMatched ignores a constant shift; align_spectra: 'super' selects the coarsest axis too, units are not compared, spectra of different lengths fail half way (C114).
* spec.py features: the `_refuted` theorems of C115; the centre is weighted with the flux including the continuum; with a reversed extent a pair of continuum values is not exchanged (they belong to the lower and upper end); addFeatureLocation with negative smooth imports a name that does not exist, without continuum it indexes `trans` with ranks (neither modelled).
* phot.py SExtractor: the `_refuted` theorems of C116 (`if l > -1` compares a text with a number, always true in Python 2, so that a line without comment loses its last character; `_getSexDefaults` never stores the last option).
* spec.py ModelSpectrum: the `_refuted` theorems of C117.
* project_template.py: globals of the script (numpy's names if imported) hide the variables of on_run; patterns with * are not anchored at the end; conversion to eps overwrites with overwrite off and is forgotten if another extension follows png; save='' is the root directory; a type that merely contains 'mpl' is accepted and cannot be saved (C118).
* io.py loadtxt_text_fields: derived columns cannot use derived ones (NameError); with delimiter= the code of the last field keeps the newline; a line number after the end is an UnboundLocalError (C119).
* coordsys.py rectangular ICRS/GCRS: `__getstate__` omits `_unit`, so copies and sums have none; GCRS `transformToEpoch` forgets self (TypeError); `distanceau>1000` compares a tuple with a number; ICRS->GCRS and GCRS->ICRS both subtract the Earth; convert() restores the old distance; auperpc differs from cmperpc/cmperau (C120).
* coordsys.py conversions: later steps of a conversion are evaluated at the default epoch of the class in between (GCRS->ITRS turns the Earth of J2000); FK4->FK5 gives J2000 directions labelled 1950; galactic, supergalactic and ecliptic coordinates lose their distance (C121).
* coordsys.py epochs: `_precessionMatrixJ` has the signs of Lieske's 0.000344 and 0.000066 exchanged, so precession is not undone by precession back (with the right signs it is, exactly); the equinox class multiplies N and P transposed instead of the inverse; the ecliptic classes assign `_laterr._decval` of None after moving the object; `_TIOLocator` returns radians used as degrees (C122).
* obstools.py extinction: the `_refuted` theorems of C123; also computeA0FromFluxRatio keeps an array as A0 where its docstring promises the mean.
* obstools.py dust maps: `ns` is unbound for a single file, where the code sets `n`; the two printed warnings have the signs of the latitude exchanged (C124).
* phot.py bands: the `_refuted` theorems of C125; also Band.alignBand with an array leaves `units` unbound, and GaussianBand's constructor always fails with AttributeError (it reads _unittrans before it is set).
* ccd.py FitsImage: the `_refuted` theorems of C126.
* phot.py PhotometryBase, ModelPhotometry, IsophotalEllipse: the `_refuted` theorems of C127.
* objcat.py Source: the `_refuted` theorems of C128.
* objcat.py FieldNode: the `_refuted` theorems of C129.
* objcat.py arrayToNodes, arrayToCatalog: the `_refuted` theorems of C130; a filter whose last row is rejected gives wrong data in the last node.
* objcat.py 2844: `hasattr(self,k) is hasattr(self.__class__,k)` compares two booleans and is always true, so revert makes all Fields anew and loses their values; a refused addField marks the node as altered.
* objcat.py SEDField: the `_refuted` theorems of C132; assigning specunits changes the units of no object (the loop looks at FieldValues, which have no attribute unit).
* objcat.py extractFieldAtNode: the mask of missing='mask' is True where the Field is present, not where it is missing; the `_refuted` theorems of C133. FieldNode.getFieldValueNodes always raises NameError (FieldName, 784).
* plotting.py cumulative_plot: data below the lower edge are counted though documented as ignored; with Nlt=False the upper edge is inserted and then removed, and a single edge puts None into the array; without data between the edges the final count is 1 (the `_refuted` theorems of C134).
* C136 (utils/gen.py 86): `'Value %s not a numpy array'%val` with a tuple `val` of a length other than one raises TypeError itself, so `check_type((np.dtype(float),tuple),(1,2))` rejects a value that `check_type((tuple,np.dtype(float)),(1,2))` accepts.
* C137 (utils/gen.py change_indentation): documented to set the starting indentation, but a text that starts flush is returned unchanged (also the further lines of an ordinary docstring, whose first line is flush), and the first line never gets the indentation (`C137_sets_indentation_refuted`, `C137_second_call`).

{"id": "C01", "title": "Pipeline shape and stage alignment", "statement": "After any sequence of Pipeline calls (addElement/removeElement, feed, feedMany, processStage, process, processToStage, processSingle, extract, clear), including calls that raise, there is exactly one input queue and one cycle counter per element plus one output queue. For stage numbers in range (0..number of elements for addElement, 0..number-1 for removeElement) the queue waiting in front of every surviving element is the queue it had before.", "quantifier": "every history of Pipeline calls, every element behaviour, every data type", "why_tests_cant": "the histories are unbounded and the alignment of three parallel lists only breaks after particular interleavings", "anchors": ["astropysics/pipeline.py: Pipeline.__init__, addElement, removeElement, feed, feedMany, extract, processStage, processToStage, processSingle, clear"]}
{"id": "C02", "title": "Pipelines are FIFO and schedule independent", "statement": "For a pipeline of distinct elements whose elements may keep state and emit at most one output per input, any order in which processStage is called on the stages, interleaved with feeds and extracts, yields the same extracted sequence: the composition of the per-stage stream functions applied to the fed sequence, with nothing lost, duplicated or reordered.", "quantifier": "all schedules of processStage/feed/extract calls, all element transition functions, all input streams", "why_tests_cant": "the number of schedules is unbounded; a test explores one interleaving", "anchors": ["astropysics/pipeline.py: Pipeline.feed, processStage, extract; PipelineElement.plProcess"]}
{"id": "C03", "title": "A failing element loses no data", "statement": "If plProcess or plInteract raises, the datum being processed is back at the front of the same stage's queue, every other queue and every cycle counter is as before, and the exception propagates; if the declared input type rejects the datum, exactly that datum is dropped.", "quantifier": "all pipeline states, stages, data and element behaviours that raise at any point", "why_tests_cant": "every possible crash point of user code would have to be exercised", "anchors": ["astropysics/pipeline.py: Pipeline.processStage"]}
{"id": "C04", "title": "Message delivery", "statement": "A message addressed to an element object is delivered exactly once, to that element, and goes no further; a message addressed to a class is delivered once to every element of exactly that class in pipeline order; messages do not overtake data nor are overtaken by it; a message that reaches the last stage undelivered makes processing raise PipelineError.", "quantifier": "all pipelines, targets, positions of the message in the feed, all schedules", "why_tests_cant": "ordering must hold in all schedules, positions and element lists", "anchors": ["astropysics/pipeline.py: PipelineMessage.isTarget, __call__; Pipeline.processStage; SetAttributeMessage"]}
{"id": "C05", "title": "Accumulation", "statement": "After an AccumulateMessage with naccum=n>=1 reaches its target, the next n data items are collected in order, the element's own processing is not run on them, and then the (filtered) list is the next input of the element (or is stored in the named attribute), after which the element behaves as before.", "quantifier": "all n, all element behaviours, all following data", "why_tests_cant": "n and the element's behaviour are arbitrary", "anchors": ["astropysics/pipeline.py: _Accumulator, AccumulateMessage, PipelineElement.resaveData"]}
{"id": "C06", "title": "processSingle", "statement": "When no data is waiting in the later stages or in the output, processSingle(x) returns the value obtained by passing x through all elements in order, data waiting in the first stage is left untouched; a stage that does not complete is retried at most processinglimit times and then PipelineError is raised.", "quantifier": "all pipelines, inputs, contents of the first queue, limits", "why_tests_cant": "all retry histories and queue contents", "anchors": ["astropysics/pipeline.py: Pipeline.processSingle"]}
{"id": "C07", "title": "process(repeat=True) drains", "statement": "If every element completes each datum it is given, processToStage(k,True) terminates with queues 0..k empty and queue k+1 extended, in order, by the images of everything that was waiting upstream.", "quantifier": "all pipelines and queue contents", "why_tests_cant": "unbounded number of queued items", "anchors": ["astropysics/pipeline.py: Pipeline.process, processToStage, extract"]}
{"id": "C08", "title": "Adding and removing stages keeps waiting data", "statement": "addElement at an in-range stage gives the new stage an empty queue and moves later stages with their data; removeElement(i,keepdata=True) puts the waiting data of the removed stage behind the data already waiting in the next stage, so overall order of pending data is preserved; keepdata=False drops exactly the removed stage's data.", "quantifier": "all pipelines and positions", "why_tests_cant": "all queue contents and positions", "anchors": ["astropysics/pipeline.py: Pipeline.addElement, removeElement"]}
{"id": "C09", "title": "SymmetricMapping is a bijection", "statement": "Starting from an empty mapping, after any sequence of item assignments of keys that are not currently present, deletions, clears and rejected (KeyError) assignments through either direction, forward and backward are mutually inverse; a rejected assignment leaves both directions unchanged.", "quantifier": "all operation histories on forward and backward", "why_tests_cant": "histories are unbounded; the two dictionaries update each other recursively", "anchors": ["astropysics/utils/gen.py: _LinkedDict, SymmetricMapping"]}
{"id": "C10", "title": "The catalog is always a forest with consistent links", "statement": "After any sequence of node creations (also ones whose constructor fails), parent assignments, addChild, removeChild, reorderChildren (with a sort, 'reverse' or non-negative indices), mergeNode and insertInto calls, including the rejected ones, a node is in exactly its parent's children, exactly once, and no node is its own ancestor.", "quantifier": "all histories of tree operations over any number of nodes", "why_tests_cant": "unbounded histories; cycles appear only after particular sequences", "anchors": ["astropysics/objcat.py: CatalogNode._cycleCheck, parent, addChild, removeChild, reorderChildren; Catalog.mergeNode, insertInto; ActionNode.__init__"]}
{"id": "C11", "title": "Moving nodes is atomic and exact", "statement": "Assigning a parent that is the node itself or a descendant of it raises CycleError and changes nothing; an ActionNode as parent raises AttributeError and changes nothing; every other assignment succeeds, puts the node with its whole subtree last among its new siblings and changes nothing else. addChild does the same for FieldNodes and rejects other nodes; Catalog.removeChild orphans exactly a child (ValueError otherwise, provided no other child compares equal); reorderChildren with a permutation permutes exactly that way; mergeNode moves exactly the children that pass the tests, in order, and returns their number.", "quantifier": "all reachable forests, all nodes, all test functions", "why_tests_cant": "all tree shapes", "anchors": ["astropysics/objcat.py: CatalogNode._setParent, addChild, removeChild, reorderChildren, __init__; Catalog.mergeNode"]}
{"id": "C12", "title": "Visiting covers the subtree exactly once", "statement": "For preorder, postorder, an integer position, level order (including the node itself) and None, visit applies the function to every node of the subtree (minus the node itself if includeself is False) exactly once, in that order, and returns the results in that order; a callable filter restricts the calls to the selected nodes and drops None results, any other filter value drops the results identical to it. nnodes is the number of nodes of the subtree.", "quantifier": "all reachable trees, functions (with side effects), filters, positions", "why_tests_cant": "all tree shapes and depths", "anchors": ["astropysics/objcat.py: CatalogNode.visit, nnodes"]}
{"id": "C13", "title": "Field keeps one value per source", "statement": "After any history of Field item assignment, deletion, insertion at an index or source name, append, pop, reverse and assignment to currentobj (including calls that raise), the values have pairwise distinct sources; and if currentobj is only ever assigned values of the field's type, all values have the field's type. (insert at a Source object, and unchecked currentobj assignment, are exceptions, refuted separately.)", "quantifier": "all histories of Field operations, all field types and values", "why_tests_cant": "unbounded histories", "anchors": ["astropysics/objcat.py: Field.__setitem__, __delitem__, insert, currentobj, _checkConvInVal"]}
{"id": "C14", "title": "Field current value", "statement": "On a Field reached by any such history: a call that raises changes no value; reading by source (Source object, source name of other than two characters, or None for the default) gives the one value of that source or KeyError; currentobj is the first value; assigning currentobj a key moves that value to the front and assigning it a new value puts it in front, replacing the value of the same source, the order of the others being kept; assigning by source replaces exactly that source's value in place or appends, and the stored value is read back; deletion removes exactly one value; insertion puts it where list.insert would.", "quantifier": "all reachable field states, keys and values", "why_tests_cant": "all histories", "anchors": ["astropysics/objcat.py: Field._setCurr, __getitem__, __setitem__"]}
{"id": "C15", "title": "Calendar date to Julian Date is the true day count", "statement": "For every Gregorian calendar date from year -4715 on, calendar_to_jd(gregorian=True) maps consecutive days to consecutive Julian Dates, anchored at 2000-01-01 12:00 = JD 2451545; likewise for Julian calendar dates with gregorian=False, anchored at -4712-01-01 12:00 = JD 0. An hour, minute and second are added with an error of at most 61 microseconds for JDs between 2^21 and 2^22.", "quantifier": "every valid date and time of day", "why_tests_cant": "all dates, including leap years, centuries and month boundaries", "anchors": ["astropysics/obstools.py: calendar_to_jd"]}
{"id": "C16", "title": "JD and calendar conversions are inverse", "statement": "jd_to_calendar and calendar_to_jd are inverse day by day: date to day to date (Gregorian from 300-03-01, Julian from -4715), day to date to day; the default calendar follows the historical one (Julian to 1582-10-04, then 1582-10-15) from JD 0 on; from then on the defaults of both functions agree. For binary64 JDs between 2^21 and 2^22: the time is within rounding of the exact one; date and time round trip to the second for rounding between 100 and 999900 microseconds, and give the same or the next second with the default rounding.", "quantifier": "all valid dates and times, all days, all Julian Dates on the binary64 grid, all rounding settings", "why_tests_cant": "unbounded range with irregular boundaries", "anchors": ["astropysics/obstools.py: jd_to_calendar, calendar_to_jd"]}
{"id": "C17", "title": "TAI-UTC offset table", "statement": "For UTC dates after January 1972 delta_AT returns the offset of the last table entry of an earlier month, warns exactly for years after 2014, and never decreases with time.", "quantifier": "all Julian Dates on the binary64 grid", "why_tests_cant": "all dates vs table boundaries", "anchors": ["astropysics/obstools.py: delta_AT"]}
{"id": "C18", "title": "Epoch conversions", "statement": "epoch_to_jd and jd_to_epoch are mutually inverse for Julian and Besselian epochs, with and without mjd; J2000.0 and B1900.0 and the year lengths are as documented; a leading J or B of a string overrides the julian argument.", "quantifier": "all rational epochs and Julian Dates", "why_tests_cant": "infinitely many epochs", "anchors": ["astropysics/obstools.py: jd_to_epoch, epoch_to_jd"]}
{"id": "C19", "title": "Angle range normalisation", "statement": "After any history of assignments (radians, degrees, hours, d:m:s, h:m:s, range; raising ones included) the value of an AngularCoordinate lies inside the range last set. With a non-cycling range an outside assignment raises ValueError and changes nothing, an inside one is stored as it is; with a cycling range (width 360 or cycle 0) the stored value is in [low,up) and congruent to the assigned one modulo the width; with the triangle cycle of period twice the width the value is folded into [low,up] and inside values are kept. Not covered, and false (see the refuted theorems): d:m:s assignment of negative degrees while a range is set, and cycling ranges of width zero.", "quantifier": "all real angles and ranges, all histories of assignments", "why_tests_cant": "all reals", "anchors": ["astropysics/coords/coordsys.py: AngularCoordinate._checkRange, _setRange, setters"]}
{"id": "C20", "title": "Sexagesimal decomposition", "statement": "The hour/minute/second reading of a non-negative angle has integer hours, minutes in 0..59 and seconds in [0,60) and recomposes to the angle; that of a negative angle is the negation of the opposite angle's. The degree/minute/second reading has minutes 0..59 and seconds [0,60) recomposing to the absolute value, the degrees carrying the sign. Setting then reading returns what was set, reading then setting keeps the angle (d:m:s: for angles >= 0 or <= -1 degree). Printed with n decimals, minutes are below 60 and seconds never show as 60, and the printed angle is right to half a unit of the last digit (negative angles: unless they round up to a whole degree; hours: non-negative angles, modulo 24h).", "quantifier": "all angles and precisions", "why_tests_cant": "all rounding boundaries", "anchors": ["astropysics/coords/coordsys.py: AngularCoordinate._getHrsminsec, _setHrsminsec, _getDegminsec, _setDegminsec, getDmsStr, getHmsStr"]}
{"id": "C21", "title": "Latitude/longitude folding preserves the point", "statement": "Whatever latitudes and longitudes are assigned to a LatLongCoordinates (by the constructor, the lat/long properties, the angle objects they return, or rotations), the latitude stays in [-90,90] degrees and the longitude in the class's range of width 360 ([0,360) without one). The stored latitude has the sine of the assigned one and, if that was within [-90,90], is that value; the stored longitude is the assigned one modulo 360. So the point on the sphere is the one assigned whenever the latitude's cosine is not negative (beyond the pole it is not: refuted theorem). Excluded: replacing the range of the angle objects, and d:m:s assignment of negative degrees to the longitude's angle object.", "quantifier": "all real angles", "why_tests_cant": "all reals", "anchors": ["astropysics/coords/coordsys.py: LatLongCoordinates._setLat, _setLong"]}
{"id": "C22", "title": "Great-circle separation", "statement": "The difference of two coordinates is the angle in [0,180] degrees between their directions (the arc cosine of the scalar product of the unit vectors); it is symmetric, satisfies the triangle inequality and is zero exactly for equal directions, i.e. equal latitude and, off the poles, equal longitude. Rotating coordinates without errors by an orthogonal matrix maps the direction by the matrix, returns the same latitude/longitude it stores, preserves all separations and is undone by the transposed matrix; a matrix transform between coordinate classes yields a well-formed coordinate in the transformed direction.", "quantifier": "all pairs of points and all rotations", "why_tests_cant": "all reals", "anchors": ["astropysics/coords/coordsys.py: LatLongCoordinates.__sub__, matrixRotate"]}
{"id": "C23", "title": "Rotation matrices", "statement": "rotation_matrix returns proper rotations (orthogonal, determinant 1). For axes 'x','y','z' it rotates vectors by minus the angle about the axis, angles add under multiplication and the opposite angle gives the inverse. For an axis vector and angles in (0,360) degrees it is the right-handed rotation about the normalised axis; whenever a matrix is returned the axis is fixed and the trace is 1+2cos(angle). angle_axis recovers angle and unit axis for angles in (0,180) and axes with positive component sum. (Sign of the angle, full turns, angle_axis of other rotations and rotation_matrix_xy: refuted theorems.)", "quantifier": "all angles and axes", "why_tests_cant": "all reals", "anchors": ["astropysics/utils/alg.py: rotation_matrix"]}
{"id": "C24", "title": "Transformation registry", "statement": "The transformation registry is a finite map. registerTransform, when it succeeds, sets the function of its pair of classes and nothing else; it raises, changing nothing, exactly for a non-class, an unknown transformation type or an existing pair with overwrite=False. delTransform removes exactly its pair (KeyError if absent). Lookups and conversions never change the registered functions. After any history the listings and the graph show exactly the registered pairs, once each. Provided networkx.shortest_path is correct: the path between different classes is the registered function if there is one and otherwise a path with the fewest registered steps, found whenever one exists; convert applies the registered functions along such a path and yields an object of the target class. In histories that do not redefine a transformation type, converting with and without optimize agree for directly registered transformations, and along constant orthogonal-matrix transformations both yield an object of the target class in the direction given by the product of the matrices.", "quantifier": "all histories of registrations, deletions, type additions, lookups and conversions; all graphs; all user functions", "why_tests_cant": "all graph shapes and histories", "anchors": ["astropysics/coords/coordsys.py: CoordinateSystem.registerTransform, getTransform, delTransform, listAllTransforms, listTransformsTo, listTransformsFrom, getTransformGraph, getTransformPath, addTransType, convert; LatLongCoordinates.convert"]}
{"id": "C25", "title": "nearestsorted", "statement": "nearestsorted of a nonempty ascending array returns, for each value, an element of the array and its index such that no element is closer to the value; of two equally close elements the larger is returned. An empty array raises IndexError. (For an unsorted array the nearest element can be missed: refuted theorem.)", "quantifier": "all sorted arrays and values", "why_tests_cant": "all arrays", "anchors": ["astropysics/utils/alg.py: nearestsorted"]}
{"id": "C26", "title": "crossmask", "statement": "crossmask returns a mask of the length of the nonempty flattened input, True exactly at the indices k>0 where the data are below the threshold at k-1 and not below it at k (above/not above with belowtoabove=False). Whenever the data are below and later not below, a crossing is marked in between. Falling crossings are the rising ones of the negated data; shifting and positive scaling of data and threshold change nothing. (Rising and falling crossings need not alternate; empty input raises: refuted theorem.)", "quantifier": "all sequences and thresholds", "why_tests_cant": "all arrays", "anchors": ["astropysics/utils/alg.py: crossmask"]}
{"id": "C27", "title": "Sigma clipping", "statement": "sigma_clip with n+1 passes keeps exactly the data whose squared distance from the background of the n-pass result is at most sig^2 times that result's variance; 0 passes keep all; the mask has the data's length and the returned data are those where it is True, in order. iters=None returns the result of the first pass that keeps as many data as the one before, and ends iff there is one (this need not be a fixed point, and with a callable centre need not happen: refuted theorems). The kept data form an interval of the data. With centre median or mean and the variance: something is kept whenever |sig|>=1 and data are not empty, constant data are all kept, and one pass about the mean rejects at most a fraction 1/sig^2. For the named centres the result does not depend on the data's order and follows shifts, scalings and mirrorings of the data.", "quantifier": "all data and iteration counts", "why_tests_cant": "all data", "anchors": ["astropysics/utils/alg.py: sigma_clip"]}
{"id": "C28", "title": "Coordinate conversions round-trip", "statement": "cartesian/polar, cartesian/spherical (in radians and degrees), cartesian/cylindrical (radians) and latitude/colatitude conversions are mutually inverse: forwards and back for all cartesian coordinates, back and forwards for r>0 and angles in the returned ranges. Physical and angular sizes (size>=0, distance>0, below a quarter turn) are mutually inverse and related by the tangent. Geographic and geocentric latitude are mutually inverse between the poles, increasing, odd, and the geocentric one is nearer the equator. (degrees=True of cartesian_to_cylindrical is ignored, and a negative size comes back positive: refuted theorems.)", "quantifier": "all real coordinates in the domain", "why_tests_cant": "all reals", "anchors": ["astropysics/coords/funcs.py: cartesian_to_polar, polar_to_cartesian, cartesian_to_spherical, spherical_to_cartesian, cartesian_to_cylindrical, cylindrical_to_cartesian, latitude_to_colatitude, angular_to_physical_size, physical_to_angular_size"]}
{"id": "C29", "title": "Catalog matching", "statement": "For every pair of coordinate lists and tolerance, match_coords masks ('mask','maskwarn') are True exactly where a partner within eps exists; 'maskexcept' gives the same masks and raises ValueError exactly if some entry has more than one partner; 'count' counts the True values; 'index' lists exactly the close pairs, each once; 'match2D' is the matrix with one row per entry of the second set; exchanging the sets exchanges masks and pairs; 'nearest' gives for each first point a nearest second point, its distance and whether that is within eps, and for a set of different points matched with itself a nearest other point. (match2D is transposed with respect to its documentation, and with equal points one can be matched to itself: refuted theorems.)", "quantifier": "all coordinate lists and tolerances", "why_tests_cant": "all lists", "anchors": ["astropysics/coords/funcs.py: match_coords"]}
{"id": "C30", "title": "Rise/set/transit decisions", "statement": "Away from the poles, with the sidereal clock running at the constant rate the code uses: riseSetTransit reports an object as circumpolar exactly when its altitude is always above the requested one, as never visible exactly when it is always below; otherwise rise and set are x hours before and after the transit (modulo 24 h) where the object is at or above the altitude exactly within x hours of the transit, and the transit is its highest point. utc=True shifts all by the offset. With timeobj=True and an object culminating above the altitude the datetimes are those moments rounded down to microseconds, provided the transit falls on the given date in the result's zone. For a UTC site nextRiseSetTransit returns the earliest pass over all dates that has not set (for circumpolar objects the earliest transit to come), and onSky is True iff the object is circumpolar or the moment lies within some date's rise and set. (Wrong day when the UTC date differs, for grazing objects, and a missed second transit of a date: refuted theorems.)", "quantifier": "all latitudes and declinations off the poles, right ascensions, altitudes, dates and moments", "why_tests_cant": "all reals", "anchors": ["astropysics/obstools.py: Site.riseSetTransit, Site.nextRiseSetTransit, Site.onSky, Site.localTime"]}
{"id": "C31", "title": "feedMany, extract and clear of a Pipeline", "statement": "feedMany appends its items in order to the first queue; extract() returns and removes exactly the first output item, extract(True) all of them in order, and both raise IndexError when the output is empty; with autoprocess, extract(True) returns everything the waiting data produces and leaves all queues empty; clear(stages) empties exactly the named queues (all by default) and changes nothing else, in particular neither elements nor cycle counters.", "quantifier": "all pipeline states and arguments", "why_tests_cant": "the states and element behaviours are unbounded", "anchors": ["astropysics/pipeline.py: Pipeline.feedMany, extract, clear"]}
{"id": "C32", "title": "Angle arithmetic", "statement": "For angles a, b and numbers x: a-b is the exact signed difference and b+(a-b) equals a; a+b=b+a; a*x scales the value and division undoes it, division by zero raising ZeroDivisionError; separation3d of an angular separation is the Euclidean distance of two points at the given distances in directions separated by that angle.", "quantifier": "all real angles, factors and distances", "why_tests_cant": "all reals", "anchors": ["astropysics/coords/coordsys.py: AngularCoordinate.__add__, __sub__, __mul__, __div__, AngularSeparation, separation3d"]}
{"id": "C33", "title": "Cartesian vectors", "statement": "Addition and subtraction of RectangularCoordinates are componentwise and inverse to each other; length is a norm (zero only for the zero vector, triangle inequality); assigning a length rescales the vector to that length without changing its direction, and raises ZeroDivisionError for the zero vector, leaving it unchanged.", "quantifier": "all real vectors and lengths", "why_tests_cant": "all reals", "anchors": ["astropysics/coords/coordsys.py: RectangularCoordinates.__add__, __sub__, length"]}
{"id": "C34", "title": "Projected ellipticity", "statement": "For intrinsic ellipticities in [0,1] and any inclination the observed ellipticity lies between 0 and the intrinsic one, is 0 face on and the intrinsic one edge on, and increases with the intrinsic one. (The inverse function does not invert it: refuted theorem.)", "quantifier": "all ellipticities in [0,1], all inclinations", "why_tests_cant": "all reals", "anchors": ["astropysics/utils/alg.py: intrinsic_to_observed_ellipticity, observed_to_intrinsic_ellipticity"]}
{"id": "C35", "title": "Logarithmic rescaling", "statement": "lin_to_log_rescale of float data that are not all equal, with lower<upper and base>1, maps the minimum to lower, the maximum to upper, everything else strictly in between, strictly preserving the order. (Constant data give NaN: refuted theorem.)", "quantifier": "all real data, limits and bases", "why_tests_cant": "all reals and lengths", "anchors": ["astropysics/utils/alg.py: lin_to_log_rescale"]}
{"id": "C36", "title": "Background estimates", "statement": "For nonempty data each named method of estimate_background gives a number that does not depend on the order of the data and follows shifts, scalings and mirrorings of the data; median and mean lie within the data's range; at most half of the data are below the median and at most half above it.", "quantifier": "all nonempty real data, all affine maps, all permutations", "why_tests_cant": "all reals, lengths and orders", "anchors": ["astropysics/utils/alg.py: estimate_background"]}
{"id": "C37", "title": "Earth rotation angle and sidereal time", "statement": "earth_rotation_angle is in [0,1) turns (or the same angle in degrees/radians) and modulo full turns linear in the Julian date; greenwich_sidereal_time is in [0,24) h and equals, modulo 24 h, rotation angle plus precession polynomial (plus the nutation term when apparent); the equations of the equinoxes and of the origins are those differences modulo 24 h. (The equation of the equinoxes is not reduced and can be almost 24 h: refuted theorem.)", "quantifier": "all real Julian dates, any precession polynomial and nutation term", "why_tests_cant": "all reals", "anchors": ["astropysics/coords/funcs.py: earth_rotation_angle, greenwich_sidereal_time, equation_of_the_equinoxes, equation_of_the_origins"]}
{"id": "C38", "title": "Horizontal coordinates and local times", "statement": "equatorialToHorizontal is the rotation of (hour angle, dec) by the site's latitude: the direction of (alt,az) is the rotated direction, alt in [-90,90], az in [0,360); separations of objects seen at the same time are preserved; 24 sidereal hours change nothing; the altitude is symmetric about the meridian and largest on it, 90-|lat-dec|; the pole stands due north at the latitude. localSiderialTime is Greenwich sidereal time plus longitude/15 in [0,24); its string and datetime fields recompose to it. localTime is the first moment of the day at which the sidereal clock shows the given time. (localTime ignores apparent and the time of a datetime argument: refuted theorems.)", "quantifier": "all latitudes, positions and sidereal times", "why_tests_cant": "all reals", "anchors": ["astropysics/obstools.py: Site.equatorialToHorizontal, Site.localSiderialTime, Site.localTime"]}
{"id": "C39", "title": "The current cosmology and its module variables", "statement": "If every parameter of every cosmology class can be read and none has the name of another module variable, then after any sequence of instance creations, attribute assignments, registrations, choose_cosmology and update_cosmology calls: exactly the current cosmology's parameters are exported to the constants module, earlier ones are gone and other constants untouched; at most the current cosmology autoupdates, and then the module variables equal its attributes. choose_cosmology makes the given (or a new, by name) cosmology current, exports it and sets autoupdate as asked without changing attributes of any cosmology; an unknown name changes nothing. update_cosmology exports current values; assigning an attribute changes that instance only, and the module variables iff it autoupdates. (A choice that is neither, or unreadable parameters: refuted theorems.)", "quantifier": "all classes, instances and call histories", "why_tests_cant": "all histories of calls", "anchors": ["astropysics/constants.py: Cosmology.__setattr__, Cosmology._exportParams, Cosmology._removeParams, choose_cosmology, update_cosmology"]}
{"id": "C40", "title": "Cosmology registry", "statement": "register_cosmology makes the class available under the lower-cased name without 'cosmology' (explicit name, or the class name without its suffix), overriding an earlier class of that name and leaving all other names, the instances, the current cosmology and the module variables alone; choose_cosmology finds it in any capitalisation, get_cosmology by the registered name only. (get_cosmology is case sensitive and class names are rejected: refuted theorem.)", "quantifier": "all registries, classes and names", "why_tests_cant": "all names and registration histories", "anchors": ["astropysics/constants.py: register_cosmology, get_cosmology, choose_cosmology"]}
{"id": "C41", "title": "FRW densities and flux conversions", "statement": "For any FRW cosmology with H0>0 and any redshift above -1 with positive H^2: H(0)=H0, H follows the Friedmann equation, the critical density is 3H^2/8piG and scales as H^2 (the cosmological units are the same density in Msun/Mpc^3, other units raise ValueError), the four density parameters at z add to 1 and times the critical density scale as (1+z)^4, (1+z)^3 and a constant. rho is the mean density if the universe is flat or z=0. deltavir refuses exactly curved universes with a cosmological constant and is 18 pi^2 where matter is critical. cosmo_z_to_H returns the differences of H at z+-zerr to H(z). f_lambda/f_nu conversions are mutually inverse, agree for lambda nu = c and conserve lambda f_lambda = nu f_nu. (rho in a curved universe: refuted theorem.)", "quantifier": "all parameters and redshifts", "why_tests_cant": "all reals", "anchors": ["astropysics/constants.py: FRWCosmology, flambda_to_fnu_l, fnu_to_flambda_l, flambda_to_fnu_n, fnu_to_flambda_n", "astropysics/coords/funcs.py: cosmo_z_to_H"]}
{"id": "C42", "title": "Cosmological distances", "statement": "With exact integrals and H^2>0 at all z>=0: comoving distance and lookback time are 0 at z=0 and grow at the rates c/H(z) and c/((1+z)H(z)); comoving, luminosity distance, lookback time and distance modulus increase strictly; d_L=(1+z)d_C, the modulus is that of d_L in pc, d_A=d_C/(1+z) in a flat universe and the sin/sinh formula in a curved one; normed=z0 divides by the distance at z0, a negative type flips the sign, zerr yields the non-negative differences. z=None ends if there is matter or radiation. cosmo_dist_to_z inverts the increasing distances to the tolerance up to z=1e256, and raises ValueError for negative or too large distances. (Angular distances, Etherington's relation in curved universes, intkwargs with zerr or normed: refuted theorems.)", "quantifier": "all physical FRW parameters, redshifts and distances", "why_tests_cant": "all reals", "anchors": ["astropysics/coords/funcs.py: cosmo_z_to_dist, cosmo_dist_to_z"]}
{"id": "C43", "title": "Magnitudes, fluxes and luminosities", "statement": "Pogson magnitudes and fluxes are mutually inverse (m=-2.5 log10 f), fainter is larger, 5 mag are a factor 100, and errors are propagated by the absolute derivative, hence invertible. mag_to_lum and lum_to_mag are mutually inverse with their errors for every zero point and unit, one unit for the zero point magnitude; for dictionaries band by band with the keys kept; an unknown band raises KeyError (TypeError for dictionaries). color_to_flux_ratio and flux_ratio_to_color are inverse. The spectrum that defines a zero point has magnitude 0, scaling the zero point by s adds 2.5 log10 s to every magnitude. Magnitudes and errors stored in a PhotObservation are read back, its fluxes are zptflux*10^(-0.4 m) with matching errors, wrong lengths raise ValueError and change nothing. (Asinh system, observations given as fluxes, flux errors: refuted theorems.)", "quantifier": "all magnitudes, positive fluxes, errors, zero points, band dictionaries", "why_tests_cant": "all reals and dictionaries", "anchors": ["astropysics/phot.py: PogsonMagnitude, choose_magnitude_system, mag_to_lum, lum_to_mag, color_to_flux_ratio, flux_ratio_to_color, Band.computeMag, Band.computeZptFromSpectrum, PhotObservation"]}
{"id": "C44", "title": "Distance moduli and surface brightness", "statement": "With autocosmo=False (or 'warn') distance_modulus and distance_from_modulus are inverse for distances in pc (10 pc is 0, ten times as far is 5 more), an unknown intype raises ValueError. abs_mag and app_mag are inverse for every input and fail exactly when the modulus does. With the default autocosmo every non-zero input gets the modulus of the luminosity distance at its redshift. Surface brightness times area is the flux, half of it for a half-light radius; the redshift dimming (1+z)^4 is the same in magnitudes and fluxes and composes; intensity and flux factors of a sphere are inverse; Poisson significance scales as the square root of the exposure and falls with background. (z>0.1 limit, redshift without cosmology, error arguments: refuted theorems.)", "quantifier": "all distances, redshifts, cosmologies, magnitudes", "why_tests_cant": "all reals", "anchors": ["astropysics/phot.py: distance_modulus, distance_from_modulus, abs_mag, app_mag, area_to_surface_brightness, rh_to_surface_brightness, cosmo_surface_brightness_correction, intensity_to_flux, flux_to_intensity, intensities_to_sig"]}
{"id": "C45", "title": "UBVRI and ugriz dictionaries", "statement": "transform_dict_ugriz_UBVRI raises ValueError if magnitudes of both systems are present or g,r (B,V) are missing, TypeError if there are none, and then leaves the dictionary unchanged. Otherwise it adds the two main bands, the ultraviolet one if its counterpart is there and the two red ones if both counterparts are there, with the values of the published colour equations, and changes no other key; a second call raises ValueError and changes nothing. The transformations commute with adding a constant to all magnitudes, and U, B, V return to 0.01 mag after the round trip for -0.5<=B-V<=2, -1.5<=U-B<=2. (R after the round trip, i without z: refuted theorems.)", "quantifier": "all dictionaries and magnitudes", "why_tests_cant": "all dictionaries", "anchors": ["astropysics/phot.py: UBVRI_to_ugriz, ugriz_to_UBVRI, transform_dict_ugriz_UBVRI"]}
{"id": "C46", "title": "Colour and effective temperature", "statement": "For g-r: color_to_Teff accepts exactly [-0.2,0.9], is strictly decreasing, teff_to_color inverts it, returns None exactly for temperatures no allowed colour has and never finds two matches. For B-V: the two are inverse between [0.3,1.5] and [3882,7078], decreasing, go through the 13 published points and stay constant outside. Any other colour raises ValueError.", "quantifier": "all colours and temperatures, with exact polynomial roots", "why_tests_cant": "all reals", "anchors": ["astropysics/phot.py: color_to_Teff, teff_to_color"]}
{"id": "C47", "title": "Derived values are never stale", "statement": "After any history of assignments, insertions, deletions, pops and changes of current value on fields (by source, by 'derived' key or by non-negative position), interleaved with reads: reading a DerivedValue returns v exactly when recomputing everything from the values now current in the fields, through the links (Field objects or locator strings), gives v; otherwise (missing value, bad link, cycle, function error) it raises, never hangs and never returns None. Calling a field likewise. The answer depends only on the present contents of the fields, reads change no field, and reading again agrees. (Negative positions such as pop(), moving a DerivedValue to another node, failedvalueaction='ignore': refuted theorems.)", "quantifier": "all numbers of fields and derived values, link graphs including cycles, functions, histories", "why_tests_cant": "all histories and dependency graphs", "anchors": ["astropysics/objcat.py: DerivedValue.value, DerivedValue.invalidate, DependentSource, Field.notifyValueChange, Field.registerNotifier, Field.__setitem__, Field.__delitem__, Field.insert, Field.currentobj"]}
{"id": "C48", "title": "Errors of derived values", "statement": "A derived value is the function of the current values; its upper (lower) error is the square root of the sum over the arguments of the squared change caused by moving that argument alone up (down) by its own upper (lower) error; hence non-negative, at least each single change, zero for exact inputs, sqrt(sum (a_i e_i)^2) for linear functions. A function that returns its own errors is taken at its word. An observed value with one error has it both ways, with none has (0,0). (hasSymmetricErrors, correlated inputs: refuted theorems.)", "quantifier": "all functions of any number of arguments, values and errors", "why_tests_cant": "all functions and reals", "anchors": ["astropysics/objcat.py: DerivedValue.value, DerivedValue.errors, ObservedErroredValue, DependentSource.getDeps"]}
{"id": "C49", "title": "Spectral units", "statement": "Unit names are case-insensitive and are accepted or rejected with ValueError; except for THz and eV the reported unit name is accepted and selects the same unit. Converting a non-zero x between any two units denotes the same photons; the flux density is divided by |dx'/dx|, so the energy between two positions is the same in every unit (integral equality for continuous spectra); conversions compose and going back is the identity; the order of x reverses exactly between wavelength and frequency/energy units.", "quantifier": "all unit names, pairs/triples of units, non-zero positions, flux densities, continuous spectra and intervals", "why_tests_cant": "all reals, functions and strings", "anchors": ["astropysics/spec.py: HasSpecUnits.strToUnit, _setUnit, _getUnit, __convertUnitType, __xtrans, __xftrans"]}
{"id": "C50", "title": "Spectrum objects under unit changes and continuum operations", "statement": "After any sequence of unit assignments (valid or not) a Spectrum holds its original x, flux, err and array continuum expressed in the last valid unit; returning to the first unit restores it. A callable continuum is dropped; while a continuum is subtracted or divided out unit changes raise ValueError and change nothing. Any history of subtract / normalize / revert / unit changes is undone by one revert. getUnitFlux answers in the unit asked for and leaves the spectrum alone (unless its unit is THz or eV). Photon fluxes count the same photons in every unit. Setting x0 scales x by 1+z and reads back. The constructor sorts by x keeping pixels together, takes |err|, and rejects arrays of different length. (nflux leaves the unit in Hz: refuted.)", "quantifier": "all spectra with non-zero x, unit-name sequences, continua, operation histories", "why_tests_cant": "all histories, array lengths and reals", "anchors": ["astropysics/spec.py: Spectrum, _applyUnits, getUnitFlux, getPhotonFlux, nflux, x0, subtractContinuum, normalizeByContinuum, revertContinuum"]}
{"id": "C51", "title": "FunctionSpectrum", "statement": "With at most one effective change of unit, or alternating between a wavelength unit and a frequency/energy unit, the flux and error shown at every assigned x are the defining functions converted to the present unit, however unit and x assignments are interleaved. (Three units, or two of the same kind: refuted.)", "quantifier": "all functions, x arrays, units and interleavings", "why_tests_cant": "all histories and functions", "anchors": ["astropysics/spec.py: FunctionSpectrum._setX, _applyUnits, __init__"]}
{"id": "C52", "title": "Resampling spectra", "statement": "For a spectrum with increasing x, resample(linear) gives at each new x the value on the straight segment between the neighbouring pixels, the end values outside; this determines the result. Own x gives the own flux, values stay between the extremes, straight spectra are reproduced. replacedata assigns the three arrays or raises ValueError on another length, changing nothing. linearize gives x equally spaced between the bounds with constant getDx, logify x equally spaced in log with constant getDlogx.", "quantifier": "all spectra with increasing x, new grids and bounds", "why_tests_cant": "all arrays", "anchors": ["astropysics/spec.py: Spectrum.resample, linearize, logify, getDx, getDlogx"]}
{"id": "C53", "title": "Air and vacuum wavelengths", "statement": "By default wavelengths below 2000 angstrom are unchanged; above, the vacuum wavelength is longer; both conversions are strictly increasing there, and converting one way and back reproduces the wavelength within one part in 10^6. (The two are not inverse within 0.0005 angstrom, and vacuum_to_air has a gap at 2000: refuted.)", "quantifier": "all wavelengths", "why_tests_cant": "all reals", "anchors": ["astropysics/spec.py: air_to_vacuum, vacuum_to_air"]}
{"id": "C54", "title": "Lag to redshift", "statement": "For a non-zero lag, each pixel whose lagged partner lies in the array gets x[i+lag]/x[i]-1, the others the mean of those (avgbad) or 0; on a logarithmic grid with ratio r the answer is r^lag-1 at every pixel. (Lag 0 gives nan: refuted.)", "quantifier": "all arrays, lags with |lag| < length", "why_tests_cant": "all arrays and lags", "anchors": ["astropysics/spec.py: lag_to_z"]}
{"id": "C55", "title": "Line lists", "statement": "load_line_list without two lines within the tolerance returns the lines unchanged up to the requested sort (stable permutation in increasing or decreasing location). With such a pair ondup='raise' raises IndexError, an invalid ondup ValueError, warn/ignore keep every line, and 'remove' keeps no pair within a zero tolerance, drops only lines that have a partner and keeps at least one line of every location. (With a positive tolerance a line whose partners were removed can go too; 'all but last' depends on set order: refuted.)", "quantifier": "all line lists, tolerances, set iteration orders", "why_tests_cant": "all lists and set orders", "anchors": ["astropysics/spec.py: load_line_list"]}
{"id": "C56", "title": "Spectral features", "statement": "After any unit assignments a feature's rest position, centre and extent are the original ones in the last valid unit. getUnitLoc answers in the unit asked for and leaves the feature alone (unless its unit is THz or eV). Without fitting, a line's flux is the sum over the pixels with x1<=x<x2 of (flux-continuum) times midpoint-to-midpoint width, for lines not touching the ends of the spectrum; a constant excess gives excess times the covered width. (Centre errors; lines at the ends: refuted.)", "quantifier": "all features, unit histories, spectra, extents", "why_tests_cant": "all arrays and histories", "anchors": ["astropysics/spec.py: SpectralFeature._applyUnits, computeFeatureData, KnownFeature.getUnitLoc"]}
{"id": "C57", "title": "LaTeX text survives parsing", "statement": "Text without display mathematics, declarations, \\right followed by a bracket, \\end inside an environment name: if it parses, printing the nodes gives the text back up to the kind of some closing brackets; exactly, if square and curly brackets do not interleave. If moreover \\left, \\right and \\section do not occur, parsing succeeds. Text made of declarations {\\name body} separated by ordinary text parses and prints as itself. (Display maths, nested commands in declarations, \\left\\langle, \\right[a], interleaved brackets: refuted.)", "quantifier": "all texts (of any length and nesting)", "why_tests_cant": "all strings", "anchors": ["astropysics/publication.py: text_to_nodes, Command, Environment, MathMode, EnclosedDeclaration, TeXNode.__call__"]}
{"id": "C58", "title": "A .tex file is saved as it was loaded", "statement": "Every text splits uniquely-enough into lines with optional comments; a comment placeholder name not in the text is always found. For a file whose first line does not begin the document, with the conditions of C57 and a \\documentclass with at most one (non-blank, leading) option list, what is saved is the file itself, or the placeholder is visible in it; a file without comments is always saved as it is. (Comments inside arguments, document on the first line, no document, unusual class options: refuted.)", "quantifier": "all files, any number of lines and comments", "why_tests_cant": "all strings", "anchors": ["astropysics/publication.py: TeXFile._parse, _addin_comments, Preamble, Comment, save"]}
{"id": "C59", "title": "Visiting nodes and stripping comments", "statement": "visit returns exactly the non-None results of the function on the nodes of the tree, parents first and siblings in order. Stripping the comments (as both publication tools do) leaves no comment, leaves the rest of the text unchanged and counts them, provided no comment is directly followed by a sibling that is or holds a comment. (Otherwise comments survive; an empty line after a comment, i.e. a paragraph break, is lost: refuted.)", "quantifier": "all trees and visitor functions", "why_tests_cant": "all trees", "anchors": ["astropysics/publication.py: TeXNode.visit, prune, prep_for_arxiv_pub, prep_for_apj_pub"]}
{"id": "C60", "title": "Command arguments and figure files", "statement": "Assigning the required or the optional arguments of a command: they read back, the others are unchanged, and with the same number every argument keeps its place. Assigning as many file names as a figure has: they read back and nothing else changes; another number raises ValueError. The ApJ tool gives all files of all figures distinct names, the figures show them, and if no file is used twice each old name is mapped to its new one. (plotfiddle with its usual arguments; one file in two figures: refuted.)", "quantifier": "all argument lists, figures and papers", "why_tests_cant": "all lists", "anchors": ["astropysics/publication.py: Command.reqargs, optargs, Figure.filenames, prep_for_apj_pub"]}
{"id": "C61", "title": "Blackbody radiation", "statement": "For wavelength and frequency units the blackbody flux of one model, converted like any spectrum, is the blackbody flux in the other unit. The flux rises up to Wien's peak and falls beyond it (to 1e-4), is greater everywhere for a higher temperature, and lies between the Wien and Rayleigh-Jeans laws. wienDisplacementLaw inverts itself for wavelengths and Hz; setting the peak makes it the peak value; setFlux scales the unit flux by pi (radius/distance)^2, and radius and distance are recovered; getFlux with one of them changes nothing; total power grows as the fourth power of the temperature and with the area. (Energy units, Wien in THz or energies: refuted.)", "quantifier": "all temperatures, units, amplitudes and positive abscissas", "why_tests_cant": "real-valued inputs; monotonicity over the whole axis", "anchors": ["astropysics/models.py: BlackbodyModel"]}
{"id": "C62", "title": "Profiles enclose the mass they claim", "statement": "The integral over spheres of the Hernquist, Jaffe, Plummer, Burkert and NFW densities, over circles of the Moffat and projected NFW profiles, from 0 to any radius is the closed form: A is the total mass of Hernquist and Jaffe (half of it within r0/(sqrt 2 - 1), rj), M that of Plummer, A the total light of Moffat, and NFW's integrateSpherical(0,r) / integrateCircular(0,r) are these integrals. (integrateSpherical with another lower radius: refuted.)", "quantifier": "all parameters and radii", "why_tests_cant": "integrals over real intervals for all parameters", "anchors": ["astropysics/models.py: HernquistModel, JaffeModel, PlummerModel, BurkertModel, MoffatModel, NFWModel.integrateSpherical, NFWProjectedModel"]}
{"id": "C63", "title": "NFW halo: virial radius, concentration and peak velocity", "statement": "The mean density within a radius decreases with it, so that the virial radius exists and is unique. setC from a radius, a mass, both or neither gives a model with that concentration whose mass within the virial radius is the virial mass, and whose virial radius (unless both were given) is that radius. The circular velocity rises up to the radius of getVmax and falls beyond it (to 1e-6) and never exceeds it by 3e-6. (getRhoMean is not in the units of the density: factor 1e9; a later setC keeps the concentration saved by an earlier one; createVmaxRvmax's scale radius is 0.1% off: refuted.)", "quantifier": "all halos, radii, concentrations and sequences of calls", "why_tests_cant": "real-valued parameters, all radii", "anchors": ["astropysics/models.py: NFWModel.getRhoMean, getRv, getC, setC, getV, getVmax"]}
{"id": "C64", "title": "Scaling relations of halos are inverses", "statement": "Mvir_to_Rvir and Rvir_to_Mvir, Mvir_to_Vvir and Vvir_to_Mvir, Vvir_to_Vmax and Vmax_to_Vvir, Mvir_to_Vmax and Vmax_to_Mvir are inverses of each other at every redshift; Vmax_to_Rvir agrees with them at redshift 0; concentrations never fall below 4 and fall with mass and redshift; create_Mvir gives a halo with that mass within the virial radius and that concentration, and create_Rvir of that radius gives the same halo. (Cvir_to_Mvir always fails; Vmax_to_Rvir at other redshifts; RvirMvir_to_Vvir with the cgs constant: refuted.)", "quantifier": "all masses, redshifts and cosmologies", "why_tests_cant": "real-valued inputs", "anchors": ["astropysics/models.py: NFWModel.Mvir_to_Rvir, Rvir_to_Mvir, Mvir_to_Vvir, Vvir_to_Mvir, Vmax_to_Rvir, Mvir_to_Cvir, create_Mvir, create_Rvir"]}
{"id": "C65", "title": "Schechter functions", "statement": "The magnitude and the luminosity form count the same galaxies: phi(M) = phi(L) |dL/dM|. The derivative of the luminosity form is its derivative, and its integral between any two luminosities, from 0 and to infinity is the integral; that of the magnitude form between two magnitudes, if the lower one is not 0. (The derivative of the magnitude form lacks a factor; its integral from magnitude 0 or to infinity is negative: refuted.)", "quantifier": "all parameters alpha > -1, luminosities and magnitudes", "why_tests_cant": "real-valued inputs", "anchors": ["astropysics/models.py: SchechterMagModel, SchechterLumModel"]}
{"id": "C66", "title": "Other light and mass profiles", "statement": "Moffat: decreasing, half the central value at half the FWHM, and setting the FWHM sets it. Sersic: Ae at re, A0 is the central value and can be set, decreasing; Einasto is a Sersic profile with logarithmic slope -2 at rs. b_n after any history of calls and exactBn settings is the value of the current setting. King: decreasing to 0 at rt; the 3-d profile is positive inside and zero outside. The disks are the face-on profiles turned by the position angle. (Calling f with another index uses the model's own b_n; the 2-d King profile is positive again beyond rt: shown.)", "quantifier": "all parameters, radii and histories of cache use", "why_tests_cant": "real-valued inputs, all call histories", "anchors": ["astropysics/models.py: MoffatModel, SersicModel, EinastoModel, King2DrModel, King3DrModel, ExponentialDiskModel, ExponentialSechSqDiskModel"]}
{"id": "C67", "title": "Bands and colours given to a colour-magnitude analyzer", "statement": "Fiducials and data are given as rows for bands (names or Band objects) and colours 'b1-b2'. Every band mentioned and no other gets magnitudes; a band given directly keeps its (last) row; the difference of the two bands of a colour is that colour unless both bands were known before; only the first band of a colour of which neither band was known is masked (set to zero). Known bands with as many rows as entries are accepted, another number of rows is a ValueError. (A colour 'b-b' gives b the negative of the colour: refuted.)", "quantifier": "all lists of bands and colours, in any order, with repetitions", "why_tests_cant": "all orders and combinations of direct and relative magnitudes", "anchors": ["astropysics/phot.py: CMDAnalyzer._dataAndBandsToDicts, CMDAnalyzer.__init__, CMDAnalyzer.setData"]}
{"id": "C68", "title": "Offsets from the fiducial sequence", "statement": "After any history of settings, getOffsets returns what it would compute from the present settings, unless locations or the centre were set, or weights removed, after the offsets were computed and nothing that clears them has happened since. The offset of an object is its distance from the nearest fiducial point in the bands and colours used (weighted; negative weights are relative to the range of differences), combined with the weighted distance of its location from the centre; it is zero exactly for an object that coincides with a fiducial point. getOffsets works whenever data are set and all selected bands are in the data and the fiducials. (Setting locations or the centre or removing weights leaves outdated offsets; a colour known only as a colour gives NaN: refuted.)", "quantifier": "all histories of settings, all data, fiducials and weights", "why_tests_cant": "cache coherence over all histories; real-valued data", "anchors": ["astropysics/phot.py: CMDAnalyzer.getOffsets, clearOffsets, _calculateOffsets, setData, locs, center, distmod, offsetbands, offsetweights, locweight"]}
{"id": "C69", "title": "Data and settings of a colour-magnitude analyzer", "statement": "Setting data makes the magnitudes of every band readable, keeps the selected bands and the distance modulus, and drops weights, locations and names; after any history there is one name for every object and, if there are locations, one location. A fiducial sequence is the part of the fiducial data its indices select; changing the distance modulus moves the fiducial magnitudes by the change and leaves colours alone. A dictionary of sequences is accepted only if it contains every index exactly once (of two or more points). Offset bands given as strings are read back; weights can be set exactly if there is one for each selected offset band. (Groups survive new data of another length; one-point sequences are not checked; colours given as pairs select two bands; weights without selected bands raise TypeError: refuted.)", "quantifier": "all analyzers, histories and settings", "why_tests_cant": "all histories and data", "anchors": ["astropysics/phot.py: CMDAnalyzer.getFiducialData, getData, setData, datanames, datagroups, offsetbands, offsetweights, distmod"]}
{"id": "C70", "title": "Asking an ephemeris object for coordinates does not change it", "statement": "After any history of settings of jd (including failed ones) and calls, the jd of an ephemeris object is the last one set (J2000 at first) and its coordinates are those for that jd. Calling it, with dates or without, and whether or not the call fails, leaves jd and everything computed from it as they were; a call with a list of dates succeeds exactly if every date does alone and returns the answers in that order; one date gives one object. Setting jd warns exactly if the date is outside the valid range. get_solar_system_ephems never changes the registered objects.", "quantifier": "all objects, histories of operations, date lists and registries", "why_tests_cant": "all histories and failures at any point of a list", "anchors": ["astropysics/coords/ephems.py: EphemerisObject.jd, __call__, __init__, get_solar_system_ephems"]}
{"id": "C71", "title": "Proper motion is linear", "statement": "The position of a ProperMotionObject at a date is the one at its epoch moved by dra and ddec arcseconds per Julian year, its distance by the radial velocity in km/s times the elapsed seconds; setting drastar changes dra alone, so that the motion along the circle of declination is drastar; moving the object to another epoch and from there to a date gives the same as moving it directly. (The distance can become negative: refuted.)", "quantifier": "all objects with real parameters and all dates", "why_tests_cant": "universally quantified reals", "anchors": ["astropysics/coords/ephems.py: ProperMotionObject.ra, dec, distancepc, drastar, _jdhook, _getCoordObj"]}
{"id": "C72", "title": "Elements and anomalies of a Keplerian orbit", "statement": "An element given as coefficients is the polynomial with these coefficients (lowest first) in Julian centuries. a, e, i and Lan must be given; with exactly the pair L, Lp or exactly the pair ap, M the longitudes satisfy L = M + Lp, Lp = ap + Lan and agree with what was given; one pair together with part of the other is a TypeError. For 0 <= e < 1 Kepler's equation has exactly one solution, and E is it, up to full turns and within (residual of the solver)/(1-e); with Etol=0 within 3e^3/(1-e). nu is the true anomaly of E. (An incomplete pair is accepted and makes every angle recurse without end: refuted.)", "quantifier": "all elements, times, eccentricities and solvers", "why_tests_cant": "universally quantified reals; any solver", "anchors": ["astropysics/coords/ephems.py: KeplerianObject.__init__, _makeElement, L, Lp, M, ap, E, nu"]}
{"id": "C73", "title": "Keplerian objects obey Kepler's laws", "statement": "The coordinates of a Keplerian object are at the distance d, at the true anomaly from the argument of pericentre in the plane given by i and Lan; dperi <= d <= dapo with equality at pericentre and apocentre only; the object is on an ellipse with a focus at the origin and axis 2a. If the elements are constant except for a mean anomaly linear in time, and the solver is exact, the acceleration points to the focus with n^2 a^3 / d^2, the rate of area is constant and directed along the orbit normal, and the motion has period 360/n. P is that period exactly if GM = 4 pi^2. The transformation from the ecliptic keeps distances to one part in 10^16. (For GM=1, as documented, P is not the period: refuted.)", "quantifier": "all elements and times, 0 <= e < 1", "why_tests_cant": "real analysis: derivatives at every time", "anchors": ["astropysics/coords/ephems.py: KeplerianObject._getCoordObj, d, dperi, dapo, P, _ecl_to_icrs"]}
{"id": "C74", "title": "Phases", "statement": "The illuminated fraction of an object is (1+cos)/2 of the angle between viewer and light seen from it: between 0 and 1, 1 exactly if viewer and light are in the same direction and 0 exactly if they are in opposite directions; viewer and light can be exchanged; there is a fraction unless the object coincides with one of them (ZeroDivisionError). The phase of the Moon is this fraction for the Moon, the Earth and the Sun.", "quantifier": "all places of object, viewer and light", "why_tests_cant": "universally quantified reals", "anchors": ["astropysics/coords/ephems.py: KeplerianObject.getPhase, Moon.getPhase"]}
{"id": "C75", "title": "Velocity of the Earth", "statement": "For all series coefficients and dates the velocity returned by earth_pos_vel is the time derivative of the position it returns: in AU per 365.25 days, or in km and s with the constants of the package. The barycentric position is the heliocentric one plus a shift that depends on the barycentric coefficients only; an orthogonal matrix keeps the distance given by the series.", "quantifier": "all coefficients, dates, coordinates and units", "why_tests_cant": "derivatives at every time", "anchors": ["astropysics/coords/ephems.py: _compute_earth_series, earth_pos_vel, Earth.getVelocity"]}
{"id": "C76", "title": "Downloaded data are kept", "statement": "After any history of get_data requests with any server answers, a request with storing on for a URL that was downloaded is answered from the disk with what was saved last under its file name, whatever the server would answer now, and changes nothing; if no two URLs share a file name this is what was downloaded last for that URL. A new URL, or any URL with 'refresh', is answered with the server's data, which are kept. A failed download changes nothing and is an error. If the program stops at any point of a request, other URLs in other files are still answered correctly, and a first download that was stopped is repeated. (A refresh that was stopped leaves truncated data that are taken for the whole; two URLs whose paths end alike are confused; a page named by its title is a NameError; the file name asked for is ignored if the data are stored: refuted.)", "quantifier": "all histories of requests, answers, names and crash points", "why_tests_cant": "all histories and crash points", "anchors": ["astropysics/utils/io.py: get_data, set_data_store"]}
{"id": "C77", "title": "Fixed-column files", "statement": "After any history of adding and deleting columns no character position belongs to two columns; a column is accepted exactly if it shares no position with another one, and replaces that of its name. Parsing gives the columns ordered by position, and for each line after the skipped ones that is not blank and does not start with a comment character the characters lower..upper (counted from firstcolindx), converted if they are a key of the converters, and masked exactly if blank; an entry laid out at the place of its column is read back. (The newline is read as part of a column longer than the line, and prevents conversion: refuted.)", "quantifier": "all histories of columns, all files; columns from firstcolindx on with lower <= upper", "why_tests_cant": "all histories and files", "anchors": ["astropysics/utils/io.py: FixedColumnDataParser.addColumn, delColumn, parseFile, _overlapcheck"]}
{"id": "C78", "title": "Columns defined in a file", "statement": "A file with lines made of a mark, a name and the decimal numbers of the lower and upper edge, with a one-character separator, and any other lines not starting with the mark, defines exactly these columns in order, and their number is returned; they are accepted if the names differ and no character belongs to two of them. (The mark is also removed inside names; a limit of zero columns reads one: refuted.)", "quantifier": "all files of such lines, names, marks and separators that are not digits", "why_tests_cant": "all files", "anchors": ["astropysics/utils/io.py: FixedColumnDataParser.addColumnsFromFile, loadtxt_fixed_column_fields"]}
{"id": "C79", "title": "Pickled objects are read back", "statement": "After any sequence of fpickle calls on a file, appending or not, funpickle gives the objects written since the file was last overwritten: all of them for a negative number, the first n for n>0 (EOFError if there are fewer), the first for 0. (A negative number gives a list, not one object as documented: refuted.)", "quantifier": "all sequences of writes and numbers, any pickling that can be inverted", "why_tests_cant": "all sequences", "anchors": ["astropysics/utils/io.py: fpickle, funpickle"]}
{"id": "C80", "title": "Regions of an image", "statement": "Selecting a square about a pixel of the image with a radius of at least 0 makes the data attribute show exactly the part of that square inside the image, under the current scaling; selecting a box inside the image shows the box, and selecting everything shows the image; the image is unchanged. A centre outside the image gives IndexError and any other range ValueError, and nothing changes. (No edits pending that are to be applied. The range given to the constructor is used if a scaling is given too, and ignored otherwise; a negative radius is accepted: refuted.)", "quantifier": "all images, scalings, centres, radii and boxes", "why_tests_cant": "all images and positions near the edges", "anchors": ["astropysics/ccd.py: ArrayImage.activateRange, CCDImage.__init__"]}
{"id": "C81", "title": "Edits reach the selected part of the image only", "statement": "For every history of selecting regions, scalings, editing, clipping, offsetting, applying and reading: the image keeps its shape and a pixel that is in none of the regions in use at a write keeps its value; the data attribute has the shape of the selected region. With a scaling that copies, only applyChanges or a calibration stage change the image (or any selection if applyChangesOnActivate is set and something was changed), and then the selected pixels become the inverse scaling of the data; with the linear scaling an assignment to the data changes that pixel of the image at once. (Changing the scaling with pending edits converts them by the wrong inverse; applyChanges and the statistics always raise after setScaling; the result of a stage never reaches a linear image; a refused logarithm is installed nevertheless: refuted.)", "quantifier": "all histories of operations on an image", "why_tests_cant": "all histories", "anchors": ["astropysics/ccd.py: CCDImage.setScaling, applyChanges, activateRange, ArrayImage"]}
{"id": "C82", "title": "Scalings and their inverses", "statement": "With the linear, power, exp, asinh and surface brightness scalings, selecting a region and applying it unedited leaves every pixel as it was (positive pixels for the surface brightness), and edited data that the inverse accepts read back as edited after applying and selecting again. Surface brightness shows -2.5 log10(counts/pixel area) - zeropoint, and without calibration is refused with ValueError and no change. The logarithmic scaling of a non-negative image increases with the pixel and stays between the limits, the lower of which is reached by the faintest pixel, the upper exactly if the faintest is 0. (It has no inverse; a negative image is shown by the logarithm of negative numbers; the power scaling is the identity: refuted.)", "quantifier": "all images, regions, pixel values and calibrations", "why_tests_cant": "all pixel values", "anchors": ["astropysics/ccd.py: LinearScaling, LogScaling, PowerScaling, ExpScaling, AsinhScaling, SurfaceBrightnessScaling"]}
{"id": "C83", "title": "Clipping", "statement": "clipThreshold replaces exactly the active pixels on the given side of the threshold by the value; clipOutliers with a pair of limits leaves the pixels inside alone and, replacing by the mean or median of the kept pixels or by a value inside, brings all others inside, so that a second clip finds nothing; limits in percent are taken between the faintest and the brightest active pixel; clipSigma on an unscaled image replaces exactly the pixels more than sigma standard deviations from the mean, at most one in sigma squared. The numbers returned add up to the number of pixels replaced. (They are counts per column, fullsig has no effect; the median of all pixels may be outside: refuted.)", "quantifier": "all images, limits and replacements", "why_tests_cant": "all images", "anchors": ["astropysics/ccd.py: CCDImage.clipOutliers, clipSigma, clipThreshold, _replInds"]}
{"id": "C84", "title": "Offsets and statistics", "statement": "Offsetting by a value subtracts it from every active pixel; by 'min' the faintest becomes 0 and differences are kept. Statistics read after a successful applyChanges are the median, mean, standard deviation, minimum and maximum of the scaled image, with the mean and median between minimum and maximum. ('minp1' puts the faintest pixel at -1 instead of 1; edits of a linear image are not noticed by the statistics: refuted.)", "quantifier": "all images and offsets", "why_tests_cant": "all images", "anchors": ["astropysics/ccd.py: CCDImage.offsetData, getStats"]}
{"id": "C85", "title": "Bias subtraction", "statement": "A bias frame is subtracted pixel by pixel and then one number, so that the average of the bias region becomes 0; with an overscan, not trimmed and not fitted, one number is subtracted from each column so that its overscan averages to 0; any bias depending only on the position along the overscan edge cancels exactly, with bias frame, bias region and trimming or without, along either axis; nothing requested changes nothing (axis x). (Trimming keeps exactly the overscan and drops the exposed part; the axis y without overscan transposes the image: refuted.)", "quantifier": "all images, frames, regions, edges, curves and averages (mean, median, max, min)", "why_tests_cant": "all images and bias curves", "anchors": ["astropysics/ccd.py: ImageBiasSubtractor.subtractFromImage"]}
{"id": "C86", "title": "Combining images", "statement": "Images of one shape combine into an image of that shape each pixel of which is the mean, median, sum, smallest or largest value or the weighted sum of that pixel; the order of the images does not matter; the mean, median, smallest and largest stay between the images, copies of an image give it back; the median lies wherever a strict majority of the images lies, whatever the others contain; the sum is the number of images times the mean, equal weights 1/n give the mean; units and zero level of all images carry over to the mean and median. No images give IndexError, images of different shapes ValueError.", "quantifier": "all lists of images (no shifts)", "why_tests_cant": "all numbers of images and pixel values", "anchors": ["astropysics/ccd.py: ImageCombiner.combineImages"]}
{"id": "C87", "title": "Rejecting outliers while combining", "statement": "With sigclip s>=0 each pixel is combined from the values not more than s standard deviations above the mean of that pixel, of which there is at least one; nothing is rejected if s squared is at least the number of images less one; the mean can only become smaller and the minimum stays. One image brighter than n equal ones is rejected exactly if s is below the square root of n. (A darker one is never rejected; weights ignore sigclip: refuted.)", "quantifier": "all lists of images, limits and named methods", "why_tests_cant": "all numbers of images and pixel values", "anchors": ["astropysics/ccd.py: ImageCombiner.combineImages"]}
{"id": "C88", "title": "Flat fields", "statement": "Flattening an exposure of a detector by a uniform exposure of any positive level returns the scene times the average response, whatever the non-zero response of the pixels; the flat itself becomes uniform; an image of another shape is refused with ValueError.", "quantifier": "all scenes, responses, levels and averages", "why_tests_cant": "all pixel values", "anchors": ["astropysics/ccd.py: ImageFlattener.flattenImage"]}
{"id": "C89", "title": "Aligning shifted images", "statement": "Images of one scene, each displaced by whole pixels along each axis, combined with these shifts show the scene wherever all images overlap (mean, median, smallest, largest). Trimmed, if the smallest shift is 0 and the largest is the same along both axes, the result is the scene on exactly the positions covered by all images. (Shifts along one axis trim the other one; negative shifts trim nothing: refuted.)", "quantifier": "all scenes, numbers of images and whole-pixel shifts", "why_tests_cant": "all shifts", "anchors": ["astropysics/ccd.py: ImageCombiner.combineImages"]}
{"id": "C90", "title": "Noise models", "statement": "Noisy data stay between floor and ceiling when floor<=ceiling, whatever the noise, and are changed by the limits only if outside. The variance of the CCD noise model is at least that of counting photons, with equality exactly if there is no read noise and no sensitivity noise or signal, and then the noise is the photon noise alone. (For gain g the counts are returned divided by the gain: refuted.)", "quantifier": "all data, noise draws and parameters", "why_tests_cant": "all draws", "anchors": ["astropysics/ccd.py: NoiseModel.__call__, CCDNoise"]}
{"id": "C91", "title": "Reading angles from text", "statement": "A text makes an angle exactly if, without surrounding blanks, it is a number with optional sign, or a first field (optional sign, number, unit word, blank or colon; a colon only before ##:##.##), a minutes field (number and m, ', : or blank) and a seconds field (number and s, \" or nothing), each of which may be missing; otherwise ValueError. A bare number is in degrees (radians if asked). Of several splits the one with a first field is taken, then the one with minutes; its value is sign times first + minutes/60 + seconds/3600, in the unit of the word, or for blank and colon hours or degrees by sghms, and when that is None hours without and degrees with a sign; without first field in degrees (radians if asked). So all documented forms (##.##, ##.##d/h/r and words, +-##d##m##.##s, ##:##:##.##, ## ## ##.##) mean what the documentation says. (Two numbers are not degrees and minutes: '12:30' is 12 arcminutes 30 arcseconds and '12 30' is 12h 0m 30s; the empty text is 0; blanks between fields are refused: refuted.)", "quantifier": "all texts, all numerals, all values of sghms and radians", "why_tests_cant": "all texts; backtracking of the regular expression", "anchors": ["astropysics/coords/coordsys.py: AngularCoordinate.__init__"]}
{"id": "C92", "title": "Printed angles are read back", "statement": "The text of an angle in degrees, minutes and seconds with n decimals (separators d ' \" or d m s, with or without sign; str(); canonical unless sghms is True) is always accepted and gives an angle without range that differs from the printed one by at most half a unit of the last digit, and printing it again gives the same text; likewise hours for non-negative angles, up to 24 hours. (Negative angles that round up to a whole degree are excluded, see C20; a negative angle rounding to zero prints as -0 and is read as +0; canonical text with sghms=True is read as hours; negative hours and the default degree-sign separator cannot be read: refuted.)", "quantifier": "all angles and numbers of decimals", "why_tests_cant": "all angles", "anchors": ["astropysics/coords/coordsys.py: AngularCoordinate.getDmsStr, getHmsStr, __str__, __init__"]}
{"id": "C93", "title": "Robust statistics", "statement": "interquartile_range and median_absolute_deviation do not depend on the order of the values, are never negative and scale with |a| under x -> a x + b; for 4k+1 values the former is the distance of the k-th and 3k-th in order; at least half the values lie within one MAD of the median and at least half at or beyond it; scaled to normal they give sigma where the quartiles are those of a normal distribution. They are robust: if no more than a quarter (for n values, (n-1)/4) lie outside an interval the interquartile range is at most the width of the interval, and likewise the MAD if more than half the values lie in it, whatever the others are. biweight_midvariance returns the centre asked for and n sum((x-Q)^2 (1-u^2)^4) / sum((1-u^2)(1-5u^2))^2 over the values with |u| <= 1, u = (x-Q)/(scale MAD); it is never negative, independent of order and quadratic in the unit (with a centre that moves along), and values further than influencescale MADs from the centre have no influence except through the centre and the MAD. (cenestimator does not change the MAD: refuted.)", "quantifier": "all lists of reals, scales, intervals and centre estimators", "why_tests_cant": "all data and all outliers", "anchors": ["astropysics/utils/stats.py: interquartile_range, median_absolute_deviation, biweight_midvariance"]}
{"id": "C94", "title": "Moments of arrays", "statement": "moments of an n-dimensional array with given axes (0, 1, 2, ... if None): axes that do not fit or a wrong number of orders raise ValueError; the normalised first moments of a non-negative array lie between the least and greatest coordinate of each axis, move with the axes, and moments of order m scale with the m-th power of the unit of the axis; raw moments are linear in the array and normalised ones do not depend on its unit; the moment of a single bright pixel is the product of powers of its coordinates, that of a separable array the product of the moments of the factors; a sequence of orders with one non-zero entry gives the entry of the scalar form, and all orders zero the total (or 1). (std=True divides by the deviation of the axis, which is right for a uniform array only: refuted.)", "quantifier": "all shapes of any dimension, arrays, axes and orders", "why_tests_cant": "all shapes and dimensions", "anchors": ["astropysics/utils/stats.py: moments"]}
{"id": "C95", "title": "Binned weights", "statement": "binned_weights gives each value the weight 1/k where k is the number of values in the same tenth of the range from the least to the greatest value (the greatest belongs to the last tenth; all values count if they are equal), so weights are in (0,1] and add up to the number of occupied tenths; no values raise ValueError. (The number of bins asked for is ignored and shares are not equal: refuted.)", "quantifier": "all lists of values", "why_tests_cant": "all data, bin edges included", "anchors": ["astropysics/utils/stats.py: binned_weights"]}
{"id": "C96", "title": "Principal component analysis", "statement": "For at least two points and no constant dimension, the covariance matrix of Pca is symmetric, positive semidefinite, has n/(n-1) on its diagonal and nothing larger elsewhere, and does not depend on units or zero points. After any history of eigensystem queries, clips and resets the eigensystem is that of the present data (never a stale one), these are some of the first, in order, and reset restores all. If numpy's eig gives orthonormal eigenvectors, then the eigenvalues come in descending order, none negative, and sum to p n/(n-1); energies are in [0,1] and sum to 1; projections have mean zero, are uncorrelated and have the eigenvalues as variances; deproject undoes project exactly, normalised or in the original units; keeping k components loses exactly (n-1) times the sum of the other eigenvalues of squared distance; subtracting all components leaves the mean. Wrong names, several thresholds or wrong shapes raise ValueError. (Energy thresholds raise AttributeError always; sigclip raises ValueError unless n = p or 1; subtractPC multiplies the remainder with the deviation: refuted.)", "quantifier": "all tables of data, all histories, all eigenvector routines meeting the stated contract", "why_tests_cant": "all data, dimensions and histories of calls", "anchors": ["astropysics/utils/stats.py: Pca"]}
{"id": "C97", "title": "Registries of data objects", "statement": "After register, each object is found under its name, other names are as before, and each group named has exactly the registered names while other groups are as before; looking up a group gives the dictionary of its objects. An object of a wrong type raises ValueError and only those before it are registered, with no group. addToGroup appends a name once, and an unknown name leaves the registry as it is. After any history of registrations, assignments, addToGroup, attempted deletions and getObjects, every member of a group is a known name, no known name is ever forgotten or gives a KeyError, and a registry with a datatype holds objects of it only (unless one was assigned directly). (A group named like one of its objects makes the lookup endless: refuted.)", "quantifier": "all histories, names, objects and groups", "why_tests_cant": "all histories", "anchors": ["astropysics/utils/gen.py: DataObjectRegistry.register", "astropysics/utils/gen.py: DataObjectRegistry.__getitem__", "astropysics/utils/gen.py: DataObjectRegistry.addToGroup"]}
{"id": "C98", "title": "Names to objects", "statement": "getObjects gives all objects for 'all' in any case; for names separated by commas, with blanks, the objects in the order named, or KeyError if one is unknown; for a single name its object; for a group its objects in order; for other strings the objects named by each character; for sequences of names and objects the objects in order, with ValueError for an object of another type; and none of these changes the registry. With addmissing, new objects are registered under their own names, which is a KeyError if the name is taken, and objects present are not added again. (An object without a name makes the search endless or replaces another object, and a group between commas gives a dictionary: refuted.)", "quantifier": "all registries and requests", "why_tests_cant": "all registries, strings and sequences", "anchors": ["astropysics/utils/gen.py: DataObjectRegistry.getObjects"]}
{"id": "C99", "title": "Tipsy files", "statement": "Reading a file in the Tipsy ASCII format (masses; positions and velocities by dimension; softenings; gas and star quantities; potentials; gas before dark matter before stars) gives back every quantity of every particle: counts, the whole arrays, the gas and star parts, and the quantities that only one kind has, which are left out if there are no such particles; the dark parts too if there is no gas. A warning is given exactly if the number of values is not the one the header asks for; no dimensions is an IndexError. (With gas and dark matter both present the dark parts are always incomplete: refuted.)", "quantifier": "all snapshots, dimensions and trailing data", "why_tests_cant": "all particle numbers and dimensions", "anchors": ["astropysics/utils/io.py: load_tipsy_format"]}
{"id": "C100", "title": "Reading VOTables", "statement": "Reading the XML of a VOTable with any number of resources and tables (distinct table names, text data in full rows, primitive or bounded string fields, no nrows attribute, no white space inside rows, anything ignorable in between) gives exactly its tables: each under the name resource:table, or tab and its number, with the number appended if the name was used before; with its resource, its field names in order, their numpy types and all other attributes and descriptions, each cell converted by its field's type, empty cells zero and exactly those masked; parameters are those of the document, the resource and the table, the innermost and last of a name winning. If there is one table it is the default.", "quantifier": "all documents, all numpy conversions", "why_tests_cant": "all documents of any size and nesting of parameters", "anchors": ["astropysics/utils/io.py: VOTableReader.__init__", "astropysics/utils/io.py: VOTableReader._extractField", "astropysics/utils/io.py: VOTableReader._extractParam", "astropysics/utils/io.py: VOTableReader._processTabledata", "astropysics/utils/io.py: VOTableReader.getTableArray"]}
{"id": "C101", "title": "Any VOTable stream", "statement": "Whatever the stream of XML events, if it is read then array and mask of every table have as many rows, all of one length not above the number of fields, exactly the empty elements are masked and the table belongs to a resource; binary or FITS data, groups, nested resources, nested tables and tables outside of resources are always refused. (Tables that tell their number of rows, have white space inside a row, have no data, or are in a resource with an empty name cannot be read; tables can get lost by name clashes; elements missing in a row are not masked: refuted.)", "quantifier": "all event streams", "why_tests_cant": "all streams of events", "anchors": ["astropysics/utils/io.py: VOTableReader.__init__", "astropysics/utils/io.py: VOTableReader._processTabledata"]}
{"id": "C102", "title": "Source codes of a table", "statement": "If at least one value has no source of its own (None or derived) and there are at most 30 sources, the source column of a table lists for every object, in increasing order and separated by commas, exactly the numbers of the sources of its values, where the sources are numbered from 1 in the order of their first appearance, object by object; the annotation gives the same numbers. (If every value has a source, or with more than 30 sources, it fails: refuted.)", "quantifier": "all numbers of objects and columns, all source names", "why_tests_cant": "all tables of source names", "anchors": ["astropysics/objcat.py: TextTableAction._doAction"]}
{"id": "C103", "title": "Text tables", "statement": "The text of a table of n >= 1 objects, read back, is the table: between \\hline and \\end{tabular} (latex) or \\startdata and \\enddata (deluxetable, with details) there are n lines, line i with one cell for each column in order, holding the value of object i, with its errors if wanted, or \\nodata; in ascii the lines that are no comments are the n objects with the cells separated by the separator, with the mean error after each value if wanted, and the first line has the titles; cells must not contain the separators. (A LaTeX table without objects loses its \\hline; sources and errors exclude each other in LaTeX; ascii needs details or sources, deluxetable details; with errors the details stand beside wrong titles; sorting and unknown formats fail: refuted.)", "quantifier": "all tables, formats, cell texts without separators", "why_tests_cant": "all sizes and texts", "anchors": ["astropysics/objcat.py: TextTableAction._doAction"]}
{"id": "C104", "title": "Logarithmic columns of a table", "statement": "A logarithmic column shows y = log10 x and an upper error u' with 10^(y+u') = x + u. (The lower error l' gives 10^(y-l') = 1/(x-l) instead of x - l: refuted.)", "quantifier": "all positive x, all errors with x + u > 0, x - l > 0", "why_tests_cant": "all real numbers", "anchors": ["astropysics/objcat.py: TextTableAction._doAction"]}
{"id": "C105", "title": "Configuration files round trip", "statement": "A configuration whose keys, values and comments can be stored is written without an error, and the file read again has the same keys with the same values (strings and lists, the empty list and lists of one included) and comments in the same order, no comment line is lost, and what was read can be stored again; setting or deleting a key, writing and reading changes that key only. Can be stored: one line; keys are distinct, quoted when written or without = and not beginning with [ or a byte above 127; keys and list elements that need quotes do not have both kinds; strings with both kinds have no three quotes in a row; comments after a value have no comma. Any file that is read without an error has one entry, with a key of its own, for every line that is not blank or a comment, and every other line among its comments. No file, or an empty one, is the empty configuration. (Outside of this, keys with =, strings with three quotes and comments with commas are written and read as something else: refuted.)", "quantifier": "all keys, strings, lists, comments, numbers of entries", "why_tests_cant": "all texts; quoting and the regular expressions that read must agree on each", "anchors": ["astropysics/external/configobj.py: ConfigObj._parse, _handle_value, _quote, write", "astropysics/config.py: get_config, get_projects, add_project, del_project"]}
{"id": "C106", "title": "Adding and removing projects", "statement": "add_project either fails and leaves the registry as it was, or returns a directory and a script that are then there, as full paths without . and .. (by default NAME and NAME/NAME.py in the working directory, a given directory followed from there), the script unchanged if it was there and otherwise the template, and the project is registered with them, every other one as before; at every moment, also in a crash, no file or directory that was there except for the registry is changed, nothing else is made, and the registry is as before or a beginning of the new one. del_project removes that project only, raises KeyError for an unknown one and changes nothing but the registry. (A crash while the registry is written can lose every project, one while the template is written leaves a script that is never completed, and a registry with exactly one bad line makes add_project fail with TypeError after it made the directory: refuted.)", "quantifier": "all file systems, permissions, names, directories, scripts, crash points", "why_tests_cant": "all states and interruptions", "anchors": ["astropysics/config.py: get_config, get_projects, add_project, del_project", "astropysics/external/configobj.py: ConfigObj._parse, _handle_value, _quote, write"]}
{"id": "C107", "title": "The registry after any history", "statement": "With no registry at first, after any sequence of add_project and del_project calls, any of which may fail, get_projects lists exactly the projects whose addition succeeded and that were not removed since, each with the directory and script that its last addition returned (names and paths that can be stored, C105).", "quantifier": "all sequences of calls, file systems, permissions", "why_tests_cant": "all histories", "anchors": ["astropysics/config.py: get_config, get_projects, add_project, del_project", "astropysics/external/configobj.py: ConfigObj._parse, _handle_value, _quote, write"]}
{"id": "C108", "title": "Gauss-Hermite moments", "statement": "For a positive width and an amplitude that is not 0, gaussHermiteMoment(l) of a Gauss-Hermite model with at least one h is 1 for l = 0, 0 for l = 1 and 2 and h_l for l >= 3: the parameters; of any given Gaussian times a series of Hermite polynomials it is the coefficient of H_l. Orders without a parameter raise IndexError, an order below 0 counts from the last parameter. The model called for an array gives every point the Gaussian times 1 + sum h_j H_j; with h3 = h5 = ... = 0 it is symmetric about v0; calls before, also with other numbers of h, change nothing. The range hint is v0 -+ 4 sig. (A width below 0 turns the sign of every moment over, finite bounds are not those of the norm, and without h calling an array raises ValueError: refuted.)", "quantifier": "all amplitudes, centres, widths, coefficients, numbers of coefficients and orders, all real arguments", "why_tests_cant": "improper integrals of all polynomial orders", "anchors": ["astropysics/models.py: GaussHermiteModel.f, _Hjs, gaussHermiteMoment, rangehint"]}
{"id": "C109", "title": "Construction of a spectrum", "statement": "Spectrum(x, flux, err or ivar) succeeds exactly if x, flux and the errors have the same shape (otherwise ValueError). It holds the given pixels, each with its own flux and error, in the order of x: the error is |err|, ivar^-1/2, or 0 if none is given.", "quantifier": "all arrays of real numbers of any shape", "why_tests_cant": "all arrays and orders of x", "anchors": ["astropysics/spec.py: Spectrum.__init__"]}
{"id": "C110", "title": "Spectra with a WCS header", "statement": "load_wcs_spectrum returns a spectrum exactly if: the flux comes from the given HDU, or the first with CRVAL1 and CD1_1 or CDELT1; its header (or the header number given together with the flux number) has CRVAL1 and a step (CD1_1 before CDELT1) and CTYPE1 LINEAR or none; the flux is a row (or a table of one row) and the errors are a row of the same length, or there are none and errtype is 'err' or 'ivar'. It then holds pixel i at CRVAL1 + i step with its own flux and the error that errtype says: in the order of the file for a positive step and in the opposite order for a negative step. Without a scaled header: IOError. (Errors stored as a table of one row, like the flux, raise ValueError; without errors 'var' and 'ierr' raise TypeError; the header number is ignored without a flux number: refuted.)", "quantifier": "all FITS files, extension numbers and error types", "why_tests_cant": "all files and headers", "anchors": ["astropysics/utils/io.py: load_wcs_spectrum"]}
{"id": "C111", "title": "DEIMOS spectra", "statement": "load_deimos_spectrum of a file whose extensions all have names (each side's at most once) holds every pixel of the blue and the red side of the extraction, or of the only side stored, in the order of LAMBDA, with its own flux and the error IVAR^-1/2; smoothing replaces flux and errors by what smooth gives and leaves the positions. The sky is that of the file, blue before red, and belongs to the pixels if LAMBDA increases throughout. A name without 'spec1d' or 'fits', and an unknown extraction, raise ValueError; neither side, or an extension without a name, KeyError. load_all_deimos_spectra returns exactly the files that can be loaded, each under its own name. (With overlapping sides the sky is left in the order of the file while the pixels are sorted; with one side retdata raises NameError: refuted.)", "quantifier": "all files, extractions, smoothing widths and sets of files of which any may fail", "why_tests_cant": "all files and patterns of failures", "anchors": ["astropysics/utils/io.py: load_deimos_spectrum, load_all_deimos_spectra"]}
{"id": "C112", "title": "Smoothing of spectra", "statement": "smooth returns averages: every smoothed flux and error lies between the least and the greatest of those before, constants stay, and sums are smoothed to sums; with replace=True flux and errors of the spectrum become what is returned and nothing else changes, with replace=False or an exception nothing changes. Without a filter type a positive width is gaussian and a negative one boxcar. A gaussian keeps the sum of the flux, gives the mirrored result for the mirrored spectrum, and does not change a straight line more than 4 widths from the ends; away from the ends a boxcar of half width n is the mean of 2n pixels. (Those begin n before the pixel, so that lines are moved by half a pixel; a boxcar does not keep the sum; 'uniform' raises ValueError: refuted.)", "quantifier": "all spectra of any length, all widths and filter types", "why_tests_cant": "all lengths and widths", "anchors": ["astropysics/spec.py: Spectrum.smooth"]}
{"id": "C113", "title": "Redshift search", "statement": "zfind on a spectrum and templates with its pixels (no more lags than pixels, not as many templates as pixels) tries exactly the given lags (a pair being a range, from its lower end). At lag l pixel j of the spectrum is compared with pixel j-l of the templates wherever both exist; fitfluxes are the templates added with the coefficients, xs the positions of those pixels, rchi2 the sum of the squared residuals over (number of pixels with ivar - |l|); the coefficients have the least sum of squares, weighted by ivar if the ivars differ (or unweighted if the normal matrix has no inverse). besti are exactly the lags with the least rchi2: with equal ivars no lag with any coefficients is better. A spectrum that is a combination of the templates shifted by l, without noise, has rchi2 0 at l; if no other lag fits exactly, besti is l, and on a logarithmic axis of ratio r its z is r^l-1. (z of lag 0, in the default lags, is nan; pixels with ivar 0 take part in rchi2 and can decide the lag; as many templates as pixels are transposed: refuted.)", "quantifier": "all spectra, templates, numbers of templates and lags; inv and pinv any that invert and minimise", "why_tests_cant": "all spectra and template sets; least squares over all coefficients", "anchors": ["astropysics/spec.py: zfind, lag_to_z"]}
{"id": "C114", "title": "Axes of spectra", "statement": "For a spectrum of n>=2 pixels getDx(False) is the n-1 differences of neighbours, getDlogx(False,base) (x positive) the exponents of base that give their ratios, and the mean is (last-first)/(n-1). isLinear(eps) is True for every evenly spaced axis; if it is True, no pixel is (n-1)*eps or more away from the evenly spaced axis with the same ends; the same for isLogarithmic and ratios (10^((n-1)*eps)). After linearize isLinear, after logify isLogarithmic. isXMatched(other,tol) is True for equal axes, False for another number of pixels (not 1), and if True with as many pixels there is one constant from which no difference is sqrt(n)*tol away. align_spectra on spectra with the same number of pixels gives all of them the axis of the first with the largest mean (logarithmic) spacing, the fluxes and errors being interpolated there, and leaves that spectrum as it is. (An axis shifted by any amount matches; 'super' does the same as 'sub'; with different numbers of pixels ValueError comes after the spectra before were changed; getDx of one pixel has two elements: refuted.)", "quantifier": "all axes, tolerances, lists of spectra and modes", "why_tests_cant": "all axes and tolerances; bounds by Cauchy-Schwarz", "anchors": ["astropysics/spec.py: Spectrum.getDx, getDlogx, isXMatched, isLinear, isLogarithmic, align_spectra"]}
{"id": "C115", "title": "Features of a spectrum", "statement": "For an extent strictly inside a spectrum with increasing x, with at least one pixel, computeFeatureData without fitting uses exactly the pixels x1<=x<x2: the centre is the flux-weighted mean of their positions (inside the extent if no flux is negative), the flux the sum of (flux-continuum) times the pixel widths, the equivalent width that flux over the mean continuum; the continuum is the spectrum's, a model, an array, or the line between two end values. Fluxes of adjoining extents add up; a common factor of flux and continuum scales the flux and leaves centre and equivalent width. addFeatureRange appends exactly one feature with that extent, or changes nothing. removeFeatureLocation removes the feature with the nearest centre and keeps the order of the others, IndexError if there is none; by index (also negative) likewise, IndexError out of range. features can be assigned if there are none. zqual takes -1..4 or their names, anything else raises KeyError and changes nothing; getZQualStr always works. addFeatureLocation with a continuum takes as edges the nearest pixels on both sides whose flux differs from the continuum. (So lines standing out get at most one pixel between the edges; an array continuum is cut to the window twice; removal by name never works; assigned features cannot replace others; no equivalent width without continuum: refuted.)", "quantifier": "all spectra, continua, extents, lists of features, indices, locations, windows and sequences of assignments", "why_tests_cant": "all arrays, extents and histories", "anchors": ["astropysics/spec.py: SpectralFeature.computeFeatureData, Spectrum.addFeatureRange, addFeatureLocation, removeFeatureLocation, removeSpectralFeature, features, zqual, getZQualStr"]}
{"id": "C116", "title": "SExtractor configuration files", "statement": "From the output of sex -dd the options but the last are taken, in order, each with its value (words joined by one space) and its comments from all its lines; from sex -dp every parameter with description and unit. If option and parameter names are words, values have no newline or '#', and the name is a word without '/', '#' or '.sex' and not 'default', then the saved .sex and .param files can be read back: same name, every option the first word of its value (the default if blank; unchanged if it is one word), exactly the same parameters chosen if any is; no other file changes. An unknown option in a file raises ValueError. sextractImage writes the files under its name, or if name.sex exists and overwrite is off under the next name (x-k becomes x-(k+1), a name without dash that is no number gets -2; always another name), so that the existing file stays, and calls sex with that file. (The last option of sex -dd is lost; values of several words, files without final newline, an empty choice, directories, a last part after a dash, an existing next file: refuted.)", "quantifier": "all outputs of SExtractor, objects, file systems, names and images", "why_tests_cant": "all texts and names", "anchors": ["astropysics/phot.py: SExtractor._getSexDefaults, __init__, getParamList, _saveFiles, _makeOptionStr, _makeParamStr, sextractImage"]}
{"id": "C117", "title": "Noise of a ModelSpectrum", "statement": "Whatever was assigned before: after assigning x (an array) or a noisetype without exception, the flux is the model at x with the noise drawn just then - the model alone without noise, model plus the sample for 'normal' (or any text with 'gauss'), model times sample over noise function for 'poisson' - never noise drawn before; x is the one assigned, noise function and type the ones set. A value of noisefunc or noisetype that raises leaves both as they were; a noisetype that names no noise, or without a noise function, raises ValueError and changes nothing. A scalar noise function with normal noise gives exactly that error at every pixel for every x. (The constructor refuses every noise function; noise turned off stays in the flux; the function can be taken away while noise is on, and then x changes without the flux; lists as x lose the noise; Poisson errors belong to the flux before, so that another number of pixels is refused after x has changed: refuted.)", "quantifier": "all models, x, noise functions, samples and sequences of assignments", "why_tests_cant": "all histories of assignments, including failing ones", "anchors": ["astropysics/spec.py: ModelSpectrum, FunctionSpectrum"]}
{"id": "C118", "title": "Plots of a project script", "statement": "In a script made from the project template: the last function decorated under a name with a type that contains 'mpl' or 'mayavi' is the plot of that name, any other type is refused with ValueError and registers nothing. make_plots draws each plot selected once, with its figure number, and nothing else; a text with stars selects the registered names with a prefix that fits the pattern; a name that is not registered raises KeyError before anything is drawn or written. Interactive mode is the same afterwards whatever happens. If a plot raises, the plots before it are complete, those after it untouched. Files other than plot.extension in the directory are never changed; with overwrite off no existing file is changed (unless a plot is converted to eps); every extension of every plot selected is saved with that plot. The main program draws exactly the plots named and those of the main group asked for, once each, and passes to each function the variables on_run returned by the names of its arguments (KeyError if missing). (Names that the script imports hide those of on_run; a pattern need not fit the end; convert overwrites; eps is lost if another extension follows png; an empty directory is the root; a type with 'mpl' inside is accepted and cannot be saved: refuted.)", "quantifier": "all scripts (sequences of decorations), selections, options, file systems, orders of dictionaries and failing plots", "why_tests_cant": "all scripts, patterns, orders of a dictionary, and failure points", "anchors": ["astropysics/data/project_template.py: plotfunc, make_plots, main"]}
{"id": "C119", "title": "Tables with a line of field names", "statement": "loadtxt_text_fields of a file whose line number fieldline is a comment with white-space separated fields name:code or name:code:expression (names, codes and expressions without colons, spaces or the comment character; names different, codes known): the array has exactly these fields in this order, the fields without expression are the columns of the data lines in order (comments and blank lines left out, converted by code), the others are the expression evaluated with the loaded columns as names, a scalar filling the column - in whatever order a dictionary is gone through. updatedict is updated with the columns and keeps its other keys, and after any exception it is unchanged. A delimiter works in the same way if the last field has an expression. A text that cannot be converted or a row that is too short raises ValueError. An expression that raises, a field with no colon or more than two, an unknown code (TypeError), a name twice (ValueError), a line after the end of the file (NameError) raise; a number below one means the first line. (An expression cannot use a derived column; with an explicit delimiter the code of a last field without expression ends in a newline: refuted.)", "quantifier": "all files, fields, line numbers, codes, conversions and expressions", "why_tests_cant": "all headers, files and evaluation orders", "anchors": ["astropysics/utils/io.py: loadtxt_text_fields"]}
{"id": "C120", "title": "Rectangular coordinates: units, epochs and distances", "statement": "RectangularICRSCoordinates and RectangularGCRSCoordinates: any sequence of assignments of 'au' and 'pc' to unit leaves the position (in astronomical units, 206264.806... per parsec), epoch and class; other names raise ValueError and change nothing, None forgets the unit and the first unit after None only names it. Converted to angles, a vector that is not zero has its direction, the longitude in [0,360), the latitude in [-90,90], its epoch, and its length as distance (none without unit); zero raises ZeroDivisionError. Back from angles it is the distance times the direction. Both round trips are exact for parsecs and without unit (away from the poles for angles). Between the ICRS and GCRS the position of the Earth in au at the epoch is subtracted whatever the unit; no epoch raises ValueError, no unit means no shift. ICRS and GCRS angles without distance keep their direction under conversion and GCRS epoch changes. A first epoch or None is set without change, an ICRS epoch always. Distances set in au or pc are read back with their errors. Refuted: copies, sums and differences have no unit and cannot be used further; the epoch of a rectangular GCRS object cannot be changed (TypeError); epochstr cannot be set to its own value; the unit is never au whatever the distance; a position in au comes back 7.6e-7 off; ICRS to GCRS and back subtracts the Earth twice; a conversion keeps the old distance; a near GCRS object moves when transformed to the epoch it has; the error of the distance is lost in rectangular coordinates.", "quantifier": "all real positions, distances, epochs, Earth positions and histories of unit assignments", "why_tests_cant": "all reals and all histories", "anchors": ["astropysics/coords/coordsys.py: EpochalCoordinates, RectangularICRSCoordinates, RectangularGCRSCoordinates, GCRSCoordinates.transformToEpoch, EquatorialCoordinatesBase.convert, LatLongCoordinates.distancepc, LatLongCoordinates.distanceau"]}
{"id": "C121", "title": "Conversions between celestial reference systems", "statement": "Converting angular coordinates without errors between two systems with a registered transformation (ICRS-FK5, FK4-FK5, GCRS-CIRS, GCRS-equinox, equinox-CIRS, CIRS-ITRS, equinox-ITRS, FK5-galactic, FK4-galactic, galactic-supergalactic, CIRS/equinox-ecliptic) gives an object of the new class with the same epoch, the distance kept except from galactic, supergalactic and ecliptic coordinates, and the direction rotated by an orthogonal matrix (all pairs but FK4-FK5); converting back restores direction and epoch (FK4-FK5: for years 1000 to 3000). FK4 to FK5 changes the cosine of a separation by at most 2e-15 at B1950 and 3e-8 for years 1000 to 3000. Without epoch FK5 is within 52 mas of the ICRS, CIRS and equinox coordinates within 39 mas of the GCRS. Along any path of rotations the separations of two objects of one class and epoch are kept. A conversion in two steps uses the default epoch of the class in between for the second, so it agrees with two conversions if the object has that epoch. The galactic poles of J2000 and B1950, the supergalactic pole and origin and the ecliptic pole are where their definitions put them; ecliptic coordinates need an epoch (TypeError); CIRS and equinox declinations agree. Refuted: distances survive conversion; GCRS to ITRS uses the rotation of the Earth at the object's epoch; FK4 to FK5 to ICRS agrees with FK4 to ICRS.", "quantifier": "all directions, epochs, distances, paths and all values of nutation, CIO locator, equation of the origins, Earth rotation angle, sidereal time and polar motion", "why_tests_cant": "all reals and all paths", "anchors": ["astropysics/coords/coordsys.py: CoordinateSystem.convert, LatLongCoordinates._smatrix, FK5Coordinates, FK4Coordinates, CIRSCoordinates, EquatorialCoordinatesEquinox, ITRSCoordinates, GalacticCoordinates, SupergalacticCoordinates, EclipticCoordinatesCIRS, EclipticCoordinatesEquinox"]}
{"id": "C122", "title": "Changes of epoch", "statement": "Assigning None to the epoch, a first epoch, or any epoch to ICRS, galactic or supergalactic coordinates changes only the label. Assigning an epoch to FK5, FK4, CIRS, equinox or ITRS coordinates (without errors, the CIO matrix existing for CIRS) succeeds, keeps class and distance, sets the epoch and keeps all separations. To their own epoch FK5, FK4, CIRS and ITRS coordinates do not move. CIRS and ITRS: two changes are the same as one to the last epoch, so there and back restores; the CIRS change is that through the GCRS. The pole and the node move by Lieske's angles for FK5 from J2000 and Newcomb's for FK4 from any epoch. FK4 coordinates come back to within 0.01 arcsec times the square of the millennia. Converting ICRS to FK5, or FK5/FK4 to galactic coordinates, at an epoch is the same as precessing from, or to, J2000 (B1950 for FK4); FK4 to FK5 agrees with going by B1950 to 14 arcsec for years 1000 to 3000. Refuted: FK5 coordinates come back (J2000 to 2100 and back does not); equinox coordinates stay at their own epoch (nutation is applied twice); the epoch of ecliptic coordinates can be changed (AttributeError, with the angles already changed and the epoch not).", "quantifier": "all directions, epochs, distances and all values of nutation, CIO locator and polar motion", "why_tests_cant": "all reals", "anchors": ["astropysics/coords/coordsys.py: EpochalCoordinates.epoch, transformToEpoch of FK5Coordinates, FK4Coordinates, CIRSCoordinates, EquatorialCoordinatesEquinox, ITRSCoordinates, EclipticCoordinatesCIRS"]}
{"id": "C123", "title": "Interstellar extinction", "statement": "An LMC, SMC or Cardelli extinction object made with, or later set to, E(B-V) and Rv >= 1 reports that E(B-V) and has A(V) = Rv E(B-V); A is proportional to E(B-V) at every wavelength. correctPhotometry of a magnitude dimmed by A gives the magnitude back and fails exactly as A does; A of a sequence is element by element; a colour is corrected as the difference of the two corrected magnitudes (two names or two wavelengths; 'n1,n2' and 'E(n1,n2)' alike); a flux is corrected as its magnitude, and corrections compose. A0 derived from a measured Balmer or given line ratio makes the corrected fluxes have the expected ratio, and a failed derivation changes nothing. Correcting a spectrum (not in THz or eV, no continuum operation) keeps unit and x and multiplies flux and error by 10^(A/2.5), A at the wavelength of each point. The Cardelli law is the published one on each of its five ranges, 1 at 1/1.82 micron, rejects exactly the wavelengths outside 1000 to 33333 angstrom, reddens (U > B > V > R > I > 0 for 1 <= Rv <= 10) and has A(B)-A(V) within ten per cent of E(B-V) for Rv <= 6; the Fitzpatrick-Massa bump has its maximum C3/gamma^2 at x0 only. The deprecated Milky Way function agrees with the Cardelli object. Refuted: E(B-V) survives a change of Rv; A(B)-A(V) is near E(B-V) for the LMC class; the Calzetti extinction is larger in the blue (it is negative there); the form 'B-V' is understood; a name may be paired with a wavelength; lists of transitions and single numbers as expected ratios; the continuum is corrected; THz and eV spectra can be corrected; a failed spectrum correction restores the unit; the deprecated LMC and SMC forms without flux or for band names; a callable law is accepted.", "quantifier": "all laws, E(B-V), Rv, wavelengths, bands, fluxes, spectra", "why_tests_cant": "all reals and all lengths", "anchors": ["astropysics/obstools.py: Extinction, CalzettiExtinction, _EBmVExtinction, FMExtinction, CardelliExtinction, LMCExtinction, SMCExtinction, extinction_correction", "astropysics/phot.py: bandwl"]}
{"id": "C124", "title": "Dust maps", "statement": "get_SFD_dust of equally long sequences of longitudes and latitudes (-90 to 90) returns one value per position, in order and whatever the mixture of hemispheres: that of the northern map for latitude >= 0, of the southern one below, at the position's own Lambert coordinates, interpolated with the order asked for or, without interpolation and off the galactic plane, at a pixel of the map within half a pixel in both directions. One position gives one value. Unequal lengths are a ValueError. The projection keeps areas (distance from the centre of the map) and maps two positions of a hemisphere to one point exactly if they are the same direction. Refuted: a file name without %s can be used; the galactic plane can be read without interpolation.", "quantifier": "all positions, sequences, maps and interpolations", "why_tests_cant": "all reals and all lengths", "anchors": ["astropysics/obstools.py: get_SFD_dust"]}
{"id": "C125", "title": "Photometric bands given as tables", "statement": "An ArrayBand made from x and a response S of the same length, in any order, has the points sorted by x, the response shifted up by its most negative value if any and divided by its largest, so between 0 and 1 with 1 reached; its unit is the one named. A normalised band with x not 0, after any history of changes of unit (names that are not units included) that ends in the first unit, is the band it was (x, response, centre, width, zero point); in any unit its points are the same photons and its zero point the same. Comparing two bands compares the centres in the unit of the first and leaves the second as it was. The flux of a spectrum (no continuum operation or model, unit other than THz and eV) leaves the spectrum as it was and does not depend on the unit the spectrum is kept in; a spectrum k times as bright has k times the flux and, for k > 0, a magnitude less by 2.5 log10 k; with a spectrum's flux as zero point its magnitude is 0 and any other -2.5 log10 of the flux ratio. The integration is exact for quadratics on an odd number of points and for straight lines on any number. Refuted: x and S of unequal lengths are refused; the width of a triangle is its width at half maximum; every table has a width; the normalisation can be changed; the response at given photons does not depend on the unit; an unnormalised band keeps its scale; a < b and b < a exclude each other; an array is measured through the response; a spectrum that misses the band is refused when resampled to the band; nothing passes outside the table; a spectrum in THz is left as it was.", "quantifier": "all tables, units, histories of unit changes, spectra, factors and alignments", "why_tests_cant": "all reals, all lengths of tables and all histories", "anchors": ["astropysics/phot.py: Band, ArrayBand, Band.computeFlux, Band.computeMag, Band.computeZptFromSpectrum", "astropysics/spec.py: HasSpecUnits"]}
{"id": "C126", "title": "Images in FITS files", "statement": "A FitsImage made from an array, or from a file at an HDU that has an image (negative numbers count from the end), shows the whole image with data[x,y] the pixel in column x and row y, and has the pixel scale and zero point of its header; other file names are an IOError. A box inside the current image, the whole image, or a square about one of its pixels (cut at the borders) shows exactly that part under the scaling; a box outside is an IndexError that changes nothing. Setting hdu to another HDU whose image contains the selected range shows that part of the new image and reads its header. For every history of selections, HDU and scaling changes, edits and applications, successful or not, the HDUs, their shapes and headers stay, a pixel that data never showed keeps its value, and only edits and applications change pixels. With the linear and power scalings an assignment to data is in the file at once; with the whole image selected applying puts the inverse of each element in its pixel, and applied unedited under any of the scalings without parameters changes nothing. Refuted: applying a box writes the data back (ValueError unless square, x and y exchanged if square); arrays with headers, lists of arrays or a scaling can be given to the constructor; a range the new HDU does not have falls back to the whole image (TypeError with hdu already changed); the HDU can be changed after setting a scaling; a failed change of HDU leaves a usable image; zero point and pixel scale belong to the current HDU; assigned values of them are saved.", "quantifier": "all files, HDU numbers, regions, scalings and histories of operations", "why_tests_cant": "all images and all histories", "anchors": ["astropysics/ccd.py: FitsImage, CCDImage.activateRange, CCDImage.applyChanges, CCDImage.setScaling"]}
{"id": "C127", "title": "Photometry of images", "statement": "After any history of assignments and measurements of a photometry object, its zero point and band are the ones last assigned, where None means those of the current image (else 0 and None); a measurement uses the image, location and PSF last assigned, its own arguments included, needs an image (ValueError), and totalflux is the flux of the last measurement that succeeded (AttributeError before). Fluxes and magnitudes of the object are inverse with its zero point. The FWHM of a Gaussian PSF is read back and is where the Gaussian is one half. Assigning the total flux or magnitude of a model whose flux is proportional to its one normalisation parameter is read back and changes no other parameter; with none or several such parameters it is a ValueError that changes nothing. After any history of assignments and reads, the properties of an isophotal ellipse come from the fit for the image, level and pixel fraction last assigned (given that the solver's rotations are in [0, 3 pi/2)): the major axis is the larger one, the rotation is in [0, 2 pi), exchanging axes keeps the curve, and reading twice fits once. The points returned lie on the ellipse, close, and are equally spaced in angle. Refuted: totalmag is the magnitude of totalflux; a normalisation name of several characters; the isophote given to the constructor; fixcenter; negative rotations (endless recursion) or large ones (AttributeError); the eccentricity (nan); points before a fit.", "quantifier": "all images, zero points, models, solvers and histories of operations", "why_tests_cant": "all reals, all solver answers and all histories", "anchors": ["astropysics/phot.py: PhotometryBase, GaussianPointSpreadFunction, ModelPhotometry, IsophotalEllipse"]}
{"id": "C128", "title": "Sources are unique and keep their ADS records", "statement": "After any history of constructions, code changes, deletions, lookups and cache settings, two living Sources with the same name are the same object. Source(...) gives the living source of that name (its code replaced if one is given and found) or else a new one, and changes no other source; 'name/loc' looks loc up, 'name//code' and '/code' take the code as it is (blanks removed), other texts are names; a failing lookup changes nothing. setBibcode changes only that source; a deleted source is forgotten. A pickle (name without blanks around it, code without slash, or no slash in a name without code) is read back as the same object where it lives and as an equal source elsewhere, without asking ADS. Once a record was fetched with the cache on, every later lookup of the code by any source gives that record without asking ADS, until cleared or switched off; otherwise ADS is asked exactly once; without code or adsurl a SourceDataError and nothing asked. Refuted: Source(source) is that source, pickles of names or codes with slashes, clearing a disabled cache.", "quantifier": "all texts, network answers and histories of operations", "why_tests_cant": "all strings, all network answers and all histories", "anchors": ["astropysics/objcat.py: _SourceMeta, Source"]}
{"id": "C129", "title": "Nodes with Fields", "statement": "After any history of making, adding, deleting and changing Fields and assignments through nodes, the names of the Fields of a node are distinct, each leads to a Field of that name belonging to that node, no Field is in two nodes, and each has one value per source. Adding a Field that is in no node appends its name; a name that is taken or a Field that was added before is a ValueError and names, Fields and values stay. Deleting removes that name only (KeyError if absent, nothing changed). node[name] is the Field's current value (None if empty), node[name_src] and node[name_err] its source and errors, node[j] that of the j-th name; values lists them in order. node[name]=a is field.currentobj=a on that Field only; an absent name is an IndexError that changes nothing; a pair (source,(value,errors)) is what is read afterwards. setToSource puts the value of the source in front in every Field of the node that has one and changes nothing else; with 'raise' it is a ValueError exactly when some Field lacks one. Refuted: a deleted Field can be added again; IndexError for missing sources and errors; a refused Field leaves no trace; setToSource with 'raise' changes nothing when it fails.", "quantifier": "all names, types, values, nodes and histories of operations", "why_tests_cant": "all histories over any number of nodes and Fields", "anchors": ["astropysics/objcat.py: FieldNode"]}
{"id": "C130", "title": "Arrays into nodes and catalogs", "statement": "arrayToNodes (2-d array, names for all columns, converters of one or two arguments whose results the Fields accept, distinct nodes) writes row k to node k, or with a matcher under which every row matches some node that is left, to the first such node: missing columns are added after the node's names, each column's Field has the converted value and errors for the source in front (setcurr=False: in its place, or at the end), its values of other sources, its other Fields and all other nodes stay, and node[column] is then that value. No rows, a wrong number of names, a column without name, another number of nodes or an unusable converter is an error that changes nothing. arrayToCatalog makes one node for each row the filter accepts, in order, with the name nameconv(row number) for the source if asked for (replacing a lone default), and writes the rows as above, provided there is no filter or it accepts the last row. Refuted: rows that match nothing or are rejected are skipped (they overwrite the last node); a filter that accepts nothing gives an empty catalog (NameError); converters with *args; a failing converter changes nothing.", "quantifier": "all arrays, nodes, histories of the nodes, sources, matchers, filters, errors and converters", "why_tests_cant": "all arrays, all prior contents of the nodes and all functions given", "anchors": ["astropysics/objcat.py: arrayToNodes, arrayToCatalog"]}
{"id": "C131", "title": "Structured nodes", "statement": "A new StructuredFieldNode has exactly the Fields of its class, in order (of their names), each with its default as the value of the source None or empty, and making it changes no other node. After any history of making nodes, addField, delField, item assignment, setToSource, revert and changes of Fields, a node whose alteredstruct is False has exactly the Fields of its class, in order, with the types of the class and belonging to the node. revert gives a node the Fields of its class with only their defaults, whatever was added, deleted or written; attributes of added Fields are gone and other nodes stay. alteredstruct is True exactly when addField or delField was called, successfully or not, since the node was made or last reverted. Refuted: revert keeps the values of the Fields that were not altered; a refused addField leaves alteredstruct False.", "quantifier": "all classes (lists of Fields with distinct names, types, defaults) and all histories of all nodes", "why_tests_cant": "all classes and all histories", "anchors": ["astropysics/objcat.py: StructuredFieldNode.__init__, StructuredFieldNode.revert, StructuredFieldNode.addField, StructuredFieldNode.delField, StructuredFieldNode.alteredstruct"]}
{"id": "C132", "title": "Spectral energy distributions", "statement": "SEDField: specs and phots (specsources and photsources) are the Spectrum and the PhotObservation values (their sources) at positions that are not masked, in order. mask and unmask of a position hide and show that position only; unmasking a position that is not masked is a KeyError; a value of the field stands for its position; unmaskAll hides nothing; none changes the values. After any history of masking, units and changes of the values the masked positions are distinct, there is one value per source, and the values are those of the changes of the values alone. getBand of a band is the flux (magnitude) of the first entry for the band in the first shown photometry that has it, else what is computed from the first shown spectrum that overlaps it; several bands give a list in order, one a scalar, asdict a dictionary; a band that fails fails the call. Refuted: a band found nowhere is a ValueError (TypeError); a mask stays with its value (it stays at the position) and takes source names; negative positions mask from the end (they hide nothing).", "quantifier": "all fields, histories, positions, bands, photometry and overlap functions", "why_tests_cant": "all histories of values and masks and all bands", "anchors": ["astropysics/objcat.py: SEDField.specs, SEDField.phots, SEDField.specsources, SEDField.photsources, SEDField.mask, SEDField.unmask, SEDField.unmaskAll, SEDField.getBand"]}
{"id": "C133", "title": "Extracting and searching over trees", "statement": "extractFieldAtNode (filter False or a function, no errors or records, names that do not end in _src or _err, converters that give a value or raise KeyError, IndexError, TypeError or AttributeError) gives, for each name, in the order of the traversal (C12), one entry for each visited node that the filter accepts: the converted current value, None for an empty Field, and the fill value where the node has no such Field (or is no FieldNode) or the converter fails; one name gives one list, several a list of lists. missing='mask' adds the mask, True where the node HAS the Field; 'skip' keeps exactly the nodes with the first Field; 'raise' gives the values if every node has every Field, else an IndexError, TypeError or AttributeError. With a filter function this is for entries that are not None. sources gives the source of the current value, None without one. getFieldValueNodesAtNode and locateName give exactly the FieldNodes whose Field currently has the value, in order, if none of the Fields is empty. getFieldNames is the set of the names of the Fields of the nodes of the catalog. setToSourceAtNode puts the value of the source in front in every Field that has one of every FieldNode of the subtree, changes nothing else and returns these nodes in order. Refuted: missing='skip' together with sources (always an error); with a filter function values and mask correspond (empty Fields are only in the mask); searching ignores empty Fields (IndexError).", "quantifier": "all trees and contents reachable by any history, nodes, traversals, filters, names, converters, fill values and sources", "why_tests_cant": "all trees, histories and functions given", "anchors": ["astropysics/objcat.py: FieldNode.extractFieldAtNode, FieldNode.getFieldValueNodesAtNode, FieldNode.setToSourceAtNode, Catalog.getFieldNames, Catalog.locateName, Catalog.extractField"]}
{"id": "C134", "title": "Data of cumulative plots and split histograms", "statement": "cumulative_plot without edges returns the data in ascending (N(>x): descending) order, with y at each point the number of data below (above) it plus the number of equal data before it. With all data strictly between the edges (and at least one), N(<x) is the same with (lower edge, 0) in front and (upper edge, number of data) at the end. With frac the last y is frac (if it is not 0 before). split_histograms makes one group for each pair of neighbouring edges: the values with edges[i] <= edgeval < edges[i+1], in order; the groups together are each value with edges[0] <= edgeval < edges[-1], once. It is a ValueError exactly for fewer than two edges, edges that do not increase strictly, another number of colors or styles than groups, or values and edgevals of different lengths. square_subplot_dims gives enough panels, no superfluous row, not more rows than columns, and the fewest columns whose square is enough. Refuted: data below the lower edge are ignored (they are counted); N(>x) with both edges starts at the upper edge, with one edge it works (error); no data between the edges give count 0 at the upper edge (1).", "quantifier": "all data and edges in any totally ordered type, all numbers of panels", "why_tests_cant": "all data sets with ties, all edges", "anchors": ["astropysics/plotting.py: cumulative_plot, split_histograms, square_subplot_dims"]}
{"id": "C135", "title": "Grids of values", "statement": "nd_grid gives one array for each vector, in order; each has the shape of the lengths of all vectors, and its element at every index inside that shape is the element of its vector at its own coordinate of the index. No vectors, however many and however long (also empty ones), make it fail.", "quantifier": "all lists of vectors and all indices", "why_tests_cant": "all numbers of dimensions, lengths and indices", "anchors": ["astropysics/utils/alg.py: nd_grid"]}
{"id": "C136", "title": "Type checks", "statement": "check_type accepts None iff acceptnone is set (TypeError otherwise), whatever the types, and acceptnone has no bearing on other values. For any other value: types None accepts it; a class accepts its instances; a dtype the arrays of that dtype; a function the values for which it returns true, its own exceptions going to the caller; a sequence never accepts a value that is of none of its types, and for every value that is not a tuple of a length other than one accepts the values of any of its types, in any order; everything else is TypeError, and ValueError if types is nothing of the kind. A tuple of a length other than one is accepted by a sequence iff an entry of its type comes before every dtype (the error message is formatted with the tuple as arguments).", "quantifier": "all types arguments, values and acceptnone", "why_tests_cant": "all sequences of types, all values and class hierarchies", "anchors": ["astropysics/utils/gen.py: check_type"]}
{"id": "C137", "title": "Indentation of docstrings", "statement": "change_indentation gives '' for None and ''. A text that begins without indentation on its first line, or on its second when the first is empty, is returned unchanged whatever indentation is asked for, and so is one whose first line has only white space that is not followed by text. Otherwise, with n the spaces in front of the first text, the first line is kept, every other line loses a leading return and up to n leading spaces and gets the new indentation, and then white space is stripped from both ends: for a block with at least n spaces on every line and a blank indentation, the first line comes out flush, every other with the new indentation plus what it had beyond n. A second call, with any indentation, changes nothing.", "quantifier": "all texts and indentations (without backslashes)", "why_tests_cant": "all texts, line counts, depths and indentations", "anchors": ["astropysics/utils/gen.py: change_indentation"]}

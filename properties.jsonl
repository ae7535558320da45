{"id": "C01", "title": "ENVI data-type codes are a faithful encoding of numpy dtypes", "statement": "Every numpy dtype that the writer accepts is written with an ENVI data-type code that the reader maps back to exactly that dtype; two different dtypes never share a code; a dtype with no code is rejected with an exception; when write_envi_image rejects it, exactly the raw data file has been written and no header. The codes are those of the ENVI standard for all non-complex types (for complex data they are not: 9 is written for single-precision complex).", "quantifier": "all numpy dtypes (the whole enumeration) and all images of an unsupported dtype", "why_tests_cant": "The table must be injective over the whole enumeration and the failure leaves a partial write: a test samples a dtype or two and no crash point.", "anchors": ["resippy/utils/envi_utils.py:ENVI_DTYPES_TO_NUMPY", "resippy/utils/envi_utils.py:envi_dtype_to_numpy_dtype", "resippy/utils/envi_utils.py:numpy_dtype_to_envi_dtype", "resippy/utils/envi_utils.py:write_envi_image"]}
{"id": "C02", "title": "ENVI BIL image write/read round trip", "statement": "Writing an image to disk with the BIL interleave and reading it back with the dimensions of its header yields the same value at every (row, column, band), for every image size and every band count; the raw file holds exactly rows*columns*bands values.", "quantifier": "all image sizes, band counts and pixel contents", "why_tests_cant": "The index arithmetic of the interleave must be right for every shape; tests fix one or two shapes.", "anchors": ["resippy/utils/envi_utils.py:write_envi_image", "resippy/utils/envi_utils.py:construct_image_cube_from_raw_data"]}
{"id": "C03", "title": "ENVI interleaves other than BIL", "statement": "Reading or writing an ENVI image with interleave bsq or bip either preserves the pixel values or raises. (The code violates this: pixels are silently replaced by zeros.)", "quantifier": "all images, all interleave strings other than bil", "why_tests_cant": "The failure is silent, and depends on the interleave string, not on the size: a test of the supported interleave never sees it.", "anchors": ["resippy/utils/envi_utils.py:write_envi_image", "resippy/utils/envi_utils.py:construct_image_cube_from_raw_data"]}
{"id": "C04", "title": "ENVI header write/read round trip", "statement": "Reading back a header that was written from any dictionary of clean keys and values returns the same keys in the same order; integers under the eight documented integer keys come back as integers, fwhm and wavelength as the list of their numbers, plain values as the same text, and a bracketed text without its closing brace. A key that occurs more than once in the file has the value of its last entry.", "quantifier": "all header dictionaries whose keys and values are free of newlines, '=' and leading/trailing blanks (bracketed values with a single closing brace allowed)", "why_tests_cant": "A parser that consumes text by searching for separators must be right for every text, including values that contain braces, blanks and long lists.", "anchors": ["resippy/utils/envi_utils.py:write_envi_header", "resippy/utils/envi_utils.py:read_envi_header"]}
{"id": "C05", "title": "ENVI header reading terminates", "statement": "read_envi_header returns or raises for every header text. (The code violates this: an entry that opens a brace that is never closed makes it loop for ever; every text without such an entry does terminate.)", "quantifier": "all texts", "why_tests_cant": "Non-termination cannot be observed by a finite test, nor its absence for all texts.", "anchors": ["resippy/utils/envi_utils.py:read_envi_header"]}
{"id": "C06", "title": "ENVI header discovery", "statement": "When no header path is given, the header used for an image is image+'.hdr' or image-without-4-character-extension+'.hdr'; which one wins when both exist is fixed, and an image with neither raises. A given header path is always the one used.", "quantifier": "all file names and all file-system contents", "why_tests_cant": "Depends on the combination of existing files, for every name.", "anchors": ["resippy/utils/envi_utils.py:read_envi_image", "resippy/image_objects/envi/envi_image.py:EnviImage.init_from_file"]}
{"id": "C07", "title": "Chipping a whole image covers every pixel", "statement": "For every image at least as large as the chip and every overlap smaller than the chip, chip_entire_image_to_memory returns chips that together contain every pixel of the image; the upper-left corners are in bounds, pairwise distinct, in row-major order, and consecutive corners along an axis overlap by at least the requested number of pixels.", "quantifier": "all image sizes, chip sizes and overlaps with 0 <= overlap < chip <= image", "why_tests_cant": "The clamping of the last row/column interacts with divisibility of sizes; only a proof covers all residues.", "anchors": ["resippy/utils/image_utils/image_chipper.py:chip_entire_image_to_memory"]}
{"id": "C08", "title": "Every chip is an exact sub-image", "statement": "Each chip returned by chip_images_by_pixel_upper_lefts has exactly the requested size and equals the image's pixels and selected bands at the reported upper-left corner; with keep_within_image_bounds the reported corner is the requested corner clamped so that the chip lies inside, and is unchanged when the chip already lies inside.", "quantifier": "all images, band selections, corner lists and chip sizes not larger than the image", "why_tests_cant": "Universal over corners on, over and outside all four borders, and over band selections.", "anchors": ["resippy/utils/image_utils/image_chipper.py:chip_images_by_pixel_upper_lefts"]}
{"id": "C09", "title": "Chipping by centers", "statement": "chip_images_by_pixel_centers returns chips whose corner is the center minus half the chip; for an even chip the chip's central pixel is the requested pixel, and for an odd chip the corner is off by at most half a pixel; near the origin truncation is toward zero.", "quantifier": "all centers and chip sizes", "why_tests_cant": "Rounding behaviour must be right for both parities and for negative intermediate values.", "anchors": ["resippy/utils/image_utils/image_chipper.py:chip_images_by_pixel_centers"]}
{"id": "C10", "title": "Chip files never overwrite one another", "statement": "write_chips_to_disk with generated names gives every chip of a set its own file name, in the order of the chips; none of the written files replaces another of the same call.", "quantifier": "all numbers of chips and all base names", "why_tests_cant": "Injectivity of zero-padded names beyond 8 digits cannot be sampled.", "anchors": ["resippy/utils/image_utils/image_chipper.py:write_chips_to_disk"]}
{"id": "C11", "title": "Detection image is the pixelwise maximum of the chip scores", "statement": "create_detection_image_from_scores returns an image whose every pixel is the maximum score of the chips covering it, and 0 where no chip does; the result does not depend on the order in which chips with equal scores were supplied, and adding a chip never lowers a pixel.", "quantifier": "all chip sets with non-negative scores, all image sizes, all chip orders", "why_tests_cant": "Order independence ranges over all permutations; overlap patterns are unbounded.", "anchors": ["resippy/utils/image_utils/image_utils.py:create_detection_image_from_scores"]}
{"id": "C12", "title": "Band flatten/unflatten", "statement": "unflatten_image_band(flatten_image_band(b), nx, ny) is b for every band, the flat form lists the pixels row by row, and create_pixel_grid pairs with it: flattened entry y*nx+x of the grids is (x, y).", "quantifier": "all band sizes", "why_tests_cant": "Index arithmetic for every shape.", "anchors": ["resippy/utils/image_utils/image_utils.py:flatten_image_band", "resippy/utils/image_utils/image_utils.py:unflatten_image_band", "resippy/utils/image_utils/image_utils.py:create_pixel_grid"]}
{"id": "C13", "title": "Grayscale normalisation", "statement": "normalize_grayscale_image maps the smallest pixel to the requested minimum, the largest to the requested maximum, every other pixel between them, preserving order. A constant image has no normalisation.", "quantifier": "all non-constant images and all ranges", "why_tests_cant": "A statement about every pixel value and range.", "anchors": ["resippy/utils/image_utils/image_utils.py:normalize_grayscale_image"]}
{"id": "C14", "title": "Colour mapping", "statement": "apply_colormap_to_grayscale_image gives a pixel whose value equals a palette node that node's colour and every other in-range pixel a colour channelwise between its two neighbouring palette colours, for every palette. (The code violates this for palettes longer than 128 colours, whose 8-bit bin index wraps.)", "quantifier": "all images, all palettes, all clipping limits", "why_tests_cant": "The failure needs a palette longer than any in the tests; interpolation must be right for all values.", "anchors": ["resippy/utils/image_utils/image_utils.py:apply_colormap_to_grayscale_image"]}
{"id": "C15", "title": "RGB mask search", "statement": "The pixel list returned for a mask colour contains exactly the pixels whose three channels equal that colour, each once, in row-major order.", "quantifier": "all RGB images and colours", "why_tests_cant": "Soundness and completeness over all images.", "anchors": ["resippy/utils/image_utils/image_mask_utils.py"]}
{"id": "C16", "title": "Demeaning", "statement": "Subtracting the scene mean gives an image whose mean spectrum is exactly zero; demeaning twice equals demeaning once; masked pixels do not influence the masked mean.", "quantifier": "all images with at least one (unmasked) pixel", "why_tests_cant": "Algebraic law over all sizes.", "anchors": ["resippy/spectral/spectral_image_processing_1d.py:compute_image_cube_spectral_mean", "resippy/spectral/spectral_image_processing_1d.py:demean_image_data"]}
{"id": "C17", "title": "Scene covariance", "statement": "The scene covariance is symmetric, positive semidefinite, and unchanged when the same spectrum is added to every pixel.", "quantifier": "all images with at least two pixels", "why_tests_cant": "Algebraic laws for every size and content.", "anchors": ["resippy/spectral/spectral_image_processing_1d.py:compute_image_cube_spectral_covariance"]}
{"id": "C18", "title": "RX anomaly score", "statement": "The RX score of every pixel is non-negative and is zero for a pixel equal to the mean, for every positive-semidefinite inverse covariance; it is unchanged when the same spectrum is added to every pixel and to the mean.", "quantifier": "all images and inverse covariances", "why_tests_cant": "Universal inequality.", "anchors": ["resippy/spectral/spectral_image_processing_1d.py:rx_anomaly_detector"]}
{"id": "C19", "title": "ACE detection score", "statement": "The ACE score of every pixel lies in [0,1] (it is NaN when the target or pixel equals the mean), is 1 exactly on the non-zero multiples of the target contrast, and does not change when pixel contrasts are scaled; ACE on raw data equals ACE on demeaned data.", "quantifier": "all images, targets and positive-definite inverse covariances with non-zero contrast", "why_tests_cant": "Cauchy-Schwarz bound over all vectors.", "anchors": ["resippy/spectral/spectral_image_processing_1d.py:ace", "resippy/spectral/spectral_image_processing_1d.py:ace_demeaned"]}
{"id": "C20", "title": "Spectral angle mapper", "statement": "The SAM score of every pixel lies in [-1,1], is 1 exactly in the direction of the target, and is invariant to positive scaling of pixel and target.", "quantifier": "all non-zero pixels and targets", "why_tests_cant": "Universal inequality with equality case.", "anchors": ["resippy/spectral/spectral_image_processing_1d.py:sam"]}
{"id": "C21", "title": "2-D spectral operations are the 1-D operations pixel by pixel", "statement": "For every image cube, each 2-D detector returns at (row, column) the value the 1-D detector returns for that pixel, with statistics over all rows and columns, and flattening then unflattening a cube is the identity. (The 2-D covariance-equalisation matrix raises when its masks are left to their default None.)", "quantifier": "all cube shapes and contents", "why_tests_cant": "Shape bookkeeping for every shape.", "anchors": ["resippy/spectral/spectral_image_processing_2d.py", "resippy/utils/spectral_utils.py:flatten_image_cube", "resippy/utils/spectral_utils.py:unflatten_image_cube"]}
{"id": "C22", "title": "Covariance equalisation", "statement": "The covariance-equalised image of scene 1 has the covariance of scene 2, whenever the fractional matrix powers exist.", "quantifier": "all pairs of scenes", "why_tests_cant": "Matrix identity of every dimension.", "anchors": ["resippy/spectral/spectral_image_processing_1d.py:compute_cov_eq"]}
{"id": "C23", "title": "Spectrum reading does not alter the stored data", "statement": "Getting the spectral data of a Spectrum replaces no-data values by NaN in the returned copy only; the stored data, and any later read, is unaffected; setters are last-write-wins and touch only their own field.", "quantifier": "all histories of set/get operations", "why_tests_cant": "Aliasing bugs show only on later reads in some histories.", "anchors": ["resippy/spectral/spectrum.py:Spectrum"]}
{"id": "C24", "title": "Spectral resampling", "statement": "Direct resampling of a constant spectrum gives that constant in every band, and every resampled value lies between the smallest and largest sample of the input, for every non-negative response with a non-zero sum.", "quantifier": "all spectra and response functions", "why_tests_cant": "Convexity for all weights.", "anchors": ["resippy/spectral/spectrum.py:Spectrum.resample_spectrum_direct"]}
{"id": "C25", "title": "Orientation matrices are rotations", "statement": "create_M_matrix returns an orthogonal matrix of determinant 1 for all angles and each documented order; an unknown order returns the zero matrix, which is not a rotation.", "quantifier": "all angles, all order strings", "why_tests_cant": "Trigonometric identity over the reals.", "anchors": ["resippy/utils/photogrammetry_utils.py:create_M_matrix"]}
{"id": "C26", "title": "Omega/phi/kappa recovery", "statement": "Solving the angles from a matrix built from angles returns those angles for |phi|<pi/2 and omega, kappa in (-pi, pi]; rebuilding the matrix from the solved angles returns the matrix for every rotation with |m31|<1; for |m31|=1 omega and kappa are not numbers.", "quantifier": "all angle triples in the stated domain, all rotations", "why_tests_cant": "Four-quadrant recovery must hold in all quadrants.", "anchors": ["resippy/utils/photogrammetry_utils.py:solve_for_omega_phi_kappa"]}
{"id": "C27", "title": "Boresight solution is usable by the fixtured camera", "statement": "Applying the boresight offsets solved from a rough and an ideal orientation in a fixtured camera whose fixture has the rough orientation yields the ideal orientation. (The code violates this: the solver computes a right-hand correction, the camera applies it on the left.)", "quantifier": "all pairs of rotations", "why_tests_cant": "Holds accidentally for commuting rotations used in tests.", "anchors": ["resippy/utils/photogrammetry_utils.py:solve_for_boresight_angle_offsets", "resippy/image_objects/earth_overhead/earth_overhead_point_calculators/fixtured_camera.py:FixturedCamera"]}
{"id": "C28", "title": "Ortho ground grid and geotransform agree", "statement": "The geotransform written for an ortho image places the centre of pixel (row, column) at the ground point that was sampled for it. (The code violates this: the geotransform divides the extent by npix+1, the grid by npix.)", "quantifier": "all extents and sizes", "why_tests_cant": "The discrepancy is sub-pixel for the large images used in demos, growing along each axis.", "anchors": ["resippy/utils/photogrammetry_utils.py:world_poly_to_geo_t", "resippy/utils/photogrammetry_utils.py:create_ground_grid"]}
{"id": "C29", "title": "Pinhole projection depends only on the viewing ray", "statement": "Two ground points on one ray through the camera centre project to the same pixel; a point on the principal axis projects to the principal point; the projection commutes with moving camera and point together.", "quantifier": "all cameras and points not in the focal plane", "why_tests_cant": "Geometric identity over the reals.", "anchors": ["resippy/image_objects/earth_overhead/earth_overhead_point_calculators/pinhole_camera.py:PinholeCamera", "resippy/image_objects/earth_overhead/earth_overhead_point_calculators/ideal_pinhole_fpa_local_utm_point_calc.py"]}
{"id": "C30", "title": "Fixtured camera composition", "statement": "The absolute orientation of a fixtured camera is a rotation for all angles; the camera stays at the lever-arm distance from the fixture for every fixture orientation; with zero boresight it has the fixture's orientation, and with a zero lever arm the fixture's position.", "quantifier": "all fixture and boresight angles and lever arms", "why_tests_cant": "Identity over the reals; mutation order of the setters.", "anchors": ["resippy/image_objects/earth_overhead/earth_overhead_point_calculators/fixtured_camera.py:FixturedCamera"]}
{"id": "C31", "title": "OpenCV camera model", "statement": "With zero distortion the OpenCV calculator is the plain pinhole projection; points on one ray share a pixel; the pixel distance from the principal point scales linearly with the focal length.", "quantifier": "all camera parameters and points in front of the camera", "why_tests_cant": "Polynomial identity over all inputs.", "anchors": ["resippy/image_objects/earth_overhead/earth_overhead_point_calculators/opencv_point_calc.py:OpenCVPointCalc"]}
{"id": "C32", "title": "Pix4D camera model", "statement": "create_r_matrix, built from omega/phi/kappa in degrees, is the transpose of create_M_matrix's matrix for the same angles; with zero distortion the undistorted and distorted projections agree; each of the three radial coefficients of the parameter file scales its own power of r^2. (The code violates the last: the third coefficient is read from the second.)", "quantifier": "all camera parameters and points", "why_tests_cant": "Coefficient mix-up is invisible when the parameters happen to be equal or zero.", "anchors": ["resippy/image_objects/earth_overhead/earth_overhead_point_calculators/pix4d_point_calc.py:Pix4dPointCalc"]}
{"id": "C33", "title": "RPC polynomial conforms to RPC00B", "statement": "The rational polynomial evaluated by the RPC calculator is the RPC00B cubic for every coefficient vector and point. (The code violates this in the term of the 20 monomials that should be latitude^2*height.) Scaling numerator and denominator together does not change the pixel.", "quantifier": "all coefficient vectors and points", "why_tests_cant": "Needs non-zero value of one coefficient and an exact reference.", "anchors": ["resippy/image_objects/earth_overhead/earth_overhead_point_calculators/rpc_point_calc.py:RPCPointCalc.compute_p"]}
{"id": "C34", "title": "Geotiff pixel/world round trip", "statement": "For every invertible geotransform, pixel to world to pixel and world to pixel to world are the identity.", "quantifier": "all invertible geotransforms and coordinates", "why_tests_cant": "Algebraic law over the reals.", "anchors": ["resippy/image_objects/earth_overhead/earth_overhead_point_calculators/geotiff_point_calc.py:GeotiffPointCalc"]}
{"id": "C35", "title": "Coordinate conversion is pointwise and shape preserving", "statement": "lon_lat_alt_to_pixel_x_y returns the shape it is given (number, 1-D, 2-D), and each output element depends only on the corresponding input elements; missing altitudes mean 0; the reprojection is applied exactly when the world projection differs from the native one.", "quantifier": "all shapes and contents", "why_tests_cant": "Reshape order must agree for all shapes.", "anchors": ["resippy/image_objects/earth_overhead/earth_overhead_point_calculators/abstract_earth_overhead_point_calc.py:AbstractEarthOverheadPointCalc.lon_lat_alt_to_pixel_x_y"]}
{"id": "C36", "title": "Iterative pixel-to-world solver", "statement": "When the solver stops early, its answer projects back to the requested pixel within the threshold; for an affine sensor with a non-zero x-slope it is exact after one step; for every sensor close enough to an affine one around the centre the error shrinks geometrically, so that any threshold is reached; an invertible affine sensor whose x-slope is zero is solved as well. (The code violates the last: division by zero.)", "quantifier": "all affine sensors and pixels, all iteration limits", "why_tests_cant": "Convergence for every affine sensor, and the singular case, are universal statements.", "anchors": ["resippy/image_objects/earth_overhead/earth_overhead_point_calculators/abstract_earth_overhead_point_calc.py:AbstractEarthOverheadPointCalc._pixel_x_y_alt_to_lon_lat_solver"]}
{"id": "C37", "title": "Ray casting to a DEM", "statement": "pixel_x_y_to_lon_lat_alt returns, for every DEM, the first point of the viewing ray at which it meets the terrain profile sampled along the ray at steps of at most the sample distance; it works for a flat DEM. (The code violates the last: a flat DEM raises IndexError.)", "quantifier": "all rays and DEMs", "why_tests_cant": "First-crossing over arbitrary terrain profiles.", "anchors": ["resippy/image_objects/earth_overhead/earth_overhead_point_calculators/abstract_earth_overhead_point_calc.py:AbstractEarthOverheadPointCalc._pixel_x_y_to_lon_lat_alt"]}
{"id": "C38", "title": "IGM lookup", "statement": "At an IGM node the lookup returns that node; between nodes, the result lies within the range of its neighbours; the altitude argument is honoured. (The code violates the last for a numeric altitude.)", "quantifier": "all IGM grids and query points", "why_tests_cant": "Universal over grids.", "anchors": ["resippy/image_objects/earth_overhead/earth_overhead_point_calculators/igm_point_calc.py:IgmPointCalc"]}
{"id": "C39", "title": "Sensor model band dispatch", "statement": "After any history of adding and updating band calculators, a query for band b is answered by the calculator last stored for b, adding one never disturbs the others, and setting a projection reaches all of them.", "quantifier": "all operation histories", "why_tests_cant": "State machine over unbounded histories.", "anchors": ["resippy/image_objects/earth_overhead/earth_overhead_point_calculators/earth_overhead_sensor_model.py:EarthOverheadSensorModel"]}
{"id": "C40", "title": "Constant DEM", "statement": "A constant-elevation DEM returns its elevation at every point, in the shape of the query, and its highest and lowest altitudes bound every elevation it returns.", "quantifier": "all query shapes", "why_tests_cant": "All shapes.", "anchors": ["resippy/photogrammetry/dem/constant_elevation_dem.py:ConstantElevationDem"]}
{"id": "C41", "title": "Geotiff DEM nearest lookup", "statement": "Nearest lookup returns the elevation of the DEM pixel that contains the query for every point inside the DEM, the nearest border pixel outside it, and never reads out of range; every returned elevation lies between lowest and highest altitude. Pixels holding the nodata value have no elevation (NaN). (An integer raster with a nodata value cannot be opened, and a DEM with a single row or column answers no query.)", "quantifier": "all DEM rasters and query points", "why_tests_cant": "All clipping cases.", "anchors": ["resippy/photogrammetry/dem/geotiff_dem.py:GeotiffDem.get_elevations"]}
{"id": "C42", "title": "Geotiff DEM bilinear lookup", "statement": "Bilinear lookup returns a value between the smallest and largest of the four surrounding elevations, equal to the DEM value at a DEM pixel, with closer pixels weighing more. (The code violates the last two: weights grow with distance and sum to zero at a pixel.)", "quantifier": "all DEM rasters and query points", "why_tests_cant": "Needs the exact weight identity for all offsets.", "anchors": ["resippy/photogrammetry/dem/geotiff_dem.py:GeotiffDem.get_elevations"]}
{"id": "C43", "title": "Navigation interpolation", "statement": "For at least two records with strictly increasing times, the interpolated value at a record time is the recorded value, between two records it lies between their values, a query outside the recorded span yields None for the whole call, and the result has the shape of the query.", "quantifier": "all record tables and query times", "why_tests_cant": "Binary-search boundary conditions over all tables.", "anchors": ["resippy/photogrammetry/nav/abstract_nav.py:AbstractNav", "resippy/photogrammetry/nav/applanix_sbet_nav.py"]}
{"id": "C44", "title": "Heading interpolation across north", "statement": "Interpolated headings lie on the shorter arc between the two recorded headings. (The code violates this: between 359 and 1 degrees it passes through 180.)", "quantifier": "all pairs of headings", "why_tests_cant": "Needs a wrap-around pair.", "anchors": ["resippy/photogrammetry/nav/abstract_nav.py:AbstractNav"]}
{"id": "C45", "title": "EO file loading keeps records aligned", "statement": "Loading an Applanix EO file yields columns of equal length, entry i of every column from the same line, in file order. (The code violates this for a malformed line that fails part-way.)", "quantifier": "all files", "why_tests_cant": "Depends on where in a line the failure occurs.", "anchors": ["resippy/photogrammetry/nav/applanix_eo_nav.py"]}
{"id": "C46", "title": "UTC/GPS time conversion", "statement": "From 1980 on, and in a process whose local time zone is UTC, UTC to GPS seconds is the time elapsed since the GPS epoch plus the leap seconds inserted since, is strictly increasing, sends the GPS epoch to 0, and is undone by GPS to UTC except exactly within the leap-second offset before a leap second. (The code applies the latest offset to times before 1980, and in a process of another time zone it applies leap seconds at the wrong instants or shifts every time.)", "quantifier": "all timestamps", "why_tests_cant": "The failing instants are a few seconds per leap second in 40 years.", "anchors": ["resippy/utils/time_utils.py"]}
{"id": "C47", "title": "GPS week/second decomposition", "statement": "Converting a GPS time to week and second of week gives 0 <= second < 604800 and week*604800+second equal to the GPS time; it is the inverse of composing them.", "quantifier": "all timestamps", "why_tests_cant": "All boundaries of weeks.", "anchors": ["resippy/utils/time_utils.py"]}
{"id": "C48", "title": "Micasense GPS tag decoding", "statement": "A degrees/minutes/seconds tag of rationals decodes to degrees + minutes/60 + seconds/3600. (The code violates this when the degree or minute rational has a denominator other than 1.)", "quantifier": "all rational triples", "why_tests_cant": "Denominators are 1 in the sample images.", "anchors": ["resippy/image_objects/earth_overhead/micasense/micasense_image.py:MicasenseImage"]}
{"id": "C49", "title": "Micasense capture time", "statement": "The capture time of a Micasense image is the second of the GPS week at its EXIF date and time, read as UTC in the Gregorian calendar, plus the decimal fraction of a second in the sub-second tag; a date or time of day that does not exist raises ValueError. (The code violates this when the tag has leading zeros.)", "quantifier": "all digit strings", "why_tests_cant": "Leading zeros occur in one image out of ten.", "anchors": ["resippy/image_objects/earth_overhead/micasense/micasense_image.py:MicasenseImage"]}
{"id": "C50", "title": "Image object state", "statement": "After any history of setter calls, each metadata field and each band holds the value last set for it (converted to the array's data type), and setting one band or field never changes another; the no-data value is None until set, and other fields never set, bands that do not exist and bands of an image without data raise. (An image object keeps a reference to the array it is given: two objects given the same array share it.)", "quantifier": "all operation histories", "why_tests_cant": "Unbounded histories.", "anchors": ["resippy/image_objects/abstract_image.py:AbstractImage", "resippy/image_objects/abstract_image_metadata.py:AbstractImageMetadata"]}
{"id": "C51", "title": "Ortho pixel sampling window", "statement": "get_pixel_values returns, for every band and every ground point, the mean of the valid (not no-data) pixels of the image that lie in the window around the pixel nearest to the point, and NaN if there are none. (The code violates this for windows that cross the left or top image border, which give NaN, and for windows entirely left of or above the image, which are read from the opposite side.)", "quantifier": "all images, no-data values, window sizes and locations", "why_tests_cant": "Depends on where the window lies.", "anchors": ["resippy/photogrammetry/ortho_tools.py:get_pixel_values"]}
{"id": "C52", "title": "DEM obstruction test", "statement": "A pixel is reported as obstructed exactly when the terrain rises above its line of sight to the sensor. (The code violates this: the march goes away from the sensor and its length is |dx+dy|.)", "quantifier": "all pixels and DEMs", "why_tests_cant": "Universal over terrain.", "anchors": ["resippy/photogrammetry/ortho_tools.py:are_pixels_obstructed_by_dem"]}
{"id": "C53", "title": "Image extent uses exactly the border pixels", "statement": "The extent of an image is computed from exactly its border pixels, and (for a sensor that is affine at a constant terrain altitude) its bounds, widened by the tolerance of the polygon simplification, contain the ground position of every pixel of the bands used: band 0 if the bands are coregistered, else the bands asked for. An image without pixels raises.", "quantifier": "all image sizes and affine sensors", "why_tests_cant": "Universal over sizes.", "anchors": ["resippy/photogrammetry/ortho_tools.py:get_extent"]}
{"id": "C54", "title": "Alpha masking", "statement": "Masking an image adds an alpha band that is 0 exactly where band 0 equals the no-data value and 255 elsewhere, leaving the other bands unchanged. (NaN as the no-data value masks nothing; a data type that cannot hold 255 stores another value.)", "quantifier": "all images and no-data values", "why_tests_cant": "All pixels and contents.", "anchors": ["resippy/photogrammetry/ortho_tools.py:mask_image"]}
{"id": "C55", "title": "Newline cleanup and snake case", "statement": "Where the line separator is LF, cleaned text contains no carriage return, cleaning is idempotent and removing newlines removes exactly the CR and LF characters. (Where it is CR LF the code is not idempotent on text that already has such line ends, and removal leaves carriage returns.) Snake-case conversion yields no upper-case letter, only inserts underscores, is idempotent, and joins the lower-cased words of a CamelCase name by underscores.", "quantifier": "all strings", "why_tests_cant": "All strings.", "anchors": ["resippy/utils/string_utils.py"]}
{"id": "C56", "title": "Text list file round trip", "statement": "Reading back a written list of lines returns the same list, for every list of newline-free strings. (The code violates this for the empty list and for a list ending in an empty string.)", "quantifier": "all lists of strings", "why_tests_cant": "The failing lists are degenerate ones.", "anchors": ["resippy/utils/file_utils.py"]}
{"id": "C57", "title": "Array helpers", "statement": "Turning rows into columns and back are mutually inverse for every table of equal-length rows, and ragged rows raise; removing an entry from an array removes all and only the equal entries, keeping order.", "quantifier": "all shapes and contents", "why_tests_cant": "All shapes.", "anchors": ["resippy/utils/numpy_and_array_utils.py"]}
{"id": "C58", "title": "CSV columns", "statement": "Reading a CSV file into columns gives, for each header, the entries of that column in file order (the last column for a repeated header); a file without data rows, or with rows of different lengths, raises.", "quantifier": "all tables", "why_tests_cant": "All tables, including duplicated headers and no rows.", "anchors": ["resippy/utils/csv_utils.py"]}
{"id": "C59", "title": "Pix4D parameter files", "statement": "Every camera block of a Pix4D internal-parameter file is read completely. (The code violates this for the last line of the last block.) External and calibrated parameters are read for every image, in order; the master dictionary combines for each image its own external, calibrated and camera parameters.", "quantifier": "all files", "why_tests_cant": "Off-by-one on the last block only.", "anchors": ["resippy/utils/pix4d_utils.py"]}
{"id": "C60", "title": "Bounding geometry", "statement": "bounds_2_shapely_polygon returns the smallest axis-aligned rectangle that contains both corners, which is the rectangle with exactly the given bounds when they are in order, and the same rectangle when minimum and maximum are swapped.", "quantifier": "all bounds, and all envelope functions that return the smallest rectangle", "why_tests_cant": "All bounds.", "anchors": ["resippy/utils/geom_utils.py"]}
{"id": "C61", "title": "Truncated ENVI raw data are rejected", "statement": "Reading raw data shorter than rows*columns*bands raises. (The code violates this when the last incomplete line holds exactly one value, which is silently replicated over the line.)", "quantifier": "all raw data lengths and image sizes", "why_tests_cant": "The failing lengths are one residue class.", "anchors": ["resippy/utils/envi_utils.py:construct_image_cube_from_raw_data"]}
{"id": "C62", "title": "Mutual information of two images", "statement": "The mutual-information score of two image histograms is symmetric in the two images and never falls below -N ln N for N pixels, a value reached by independent images and by no others; no image scores higher against an image than that image does against itself.", "quantifier": "all histograms and bin counts", "why_tests_cant": "Gibbs' inequality over all joint distributions.", "anchors": ["resippy/utils/image_utils/image_registration.py:MMI"]}
{"id": "C63", "title": "Uniform image creation", "statement": "create_uniform_image_data returns an image of the requested size whose every pixel has the requested value, or the requested value per band with zero in the bands not listed.", "quantifier": "all sizes and value lists not longer than the number of bands", "why_tests_cant": "All sizes and band counts.", "anchors": ["resippy/utils/image_utils/image_utils.py:create_uniform_image_data"]}
{"id": "C64", "title": "Image blending", "statement": "Every blended pixel lies between the two input pixels for a percentage in [0,1]; 1 returns the first image and 0 the second.", "quantifier": "all images and percentages", "why_tests_cant": "Convexity for all values.", "anchors": ["resippy/utils/image_utils/image_utils.py:blend_images"]}
{"id": "C65", "title": "ASCII spectrum files", "statement": "Reading a spectrum from an ENVI plot, SVC, CSV or USGS text file returns exactly the wavelength and reflectance columns of its data lines, in file order; a malformed ENVI plot line raises.", "quantifier": "all files of each format, any number of lines", "why_tests_cant": "All file contents and lengths, including a missing data marker.", "anchors": ["resippy/spectral/spectrum_factories/spectrum_factory.py"]}
{"id": "C66", "title": "Directory listing and paths", "statement": "Listing a directory for an extension returns exactly the names that end in it, each once; filtering by prefixes returns exactly the names that start with one of them; joining sub-directories puts them one below the other. (The code returns a name once per matching extension when several are given, and drops an inner dot of an extension.)", "quantifier": "all directories, extensions, prefixes and sub-directory lists", "why_tests_cant": "All name sets; the failing extension lists are special.", "anchors": ["resippy/utils/file_utils.py"]}
{"id": "C67", "title": "Pixel counts of an extent", "statement": "get_nx_ny_pixels_in_extent returns the largest whole number of pixels of the given positive size that fits into the width and height of the polygon.", "quantifier": "all polygons and pixel sizes", "why_tests_cant": "All coordinates; rounding direction.", "anchors": ["resippy/utils/photogrammetry_utils.py:get_nx_ny_pixels_in_extent"]}
{"id": "C68", "title": "Geotiff world extent", "statement": "The world extent of a geotiff is the smallest axis-aligned rectangle that contains the ground position of every point of the image, for every invertible geotransform. (The code violates this for rotated geotransforms: only two corners are used.)", "quantifier": "all geotransforms, image sizes and points of the image", "why_tests_cant": "All six real coefficients, all sizes.", "anchors": ["resippy/image_objects/earth_overhead/earth_overhead_point_calculators/geotiff_point_calc.py:GeotiffPointCalc.get_world_extent"]}
{"id": "C69", "title": "Orthorectified image contents", "statement": "Every cell of the orthorectified image holds the image sampled at the pixel location of the centre of the cell at the terrain's elevation there, and the no-data value if that location is outside the image; bands come in the order asked for. (The code violates this: coregistered images lose everything at or beyond column 0, row 0 and the last two columns and rows; bands that are not coregistered hold 0 instead of the no-data value outside the image; a coregistered image whose data is not loaded raises instead of being read from disk.)", "quantifier": "all images, sensors, DEMs, extents, grid sizes and band lists", "why_tests_cant": "Every cell of every grid.", "anchors": ["resippy/photogrammetry/ortho_tools.py:create_ortho_gtiff_image_world_to_sensor"]}
{"id": "C70", "title": "Size and sampling of the full ortho", "statement": "create_full_ortho_gtiff_image covers the image's extent with as many whole ground samples as fit in it, and by default uses the pixel spacing on the ground as the sample distance. (The code violates the second part: the default is too small by the factors (n-1)/n. An extent of fewer than two samples, for instance one in degrees with a distance in metres, raises.)", "quantifier": "all extents, sample distances and image sizes", "why_tests_cant": "Universal over sizes and extents.", "anchors": ["resippy/photogrammetry/ortho_tools.py:create_full_ortho_gtiff_image"]}
{"id": "C71", "title": "Ground positions of pixels lie on the terrain", "statement": "get_pixel_lon_lats returns for every pixel the point where its ray meets the terrain. (True for constant terrain and where the terrain is as high as under the ray's point at the highest altitude; violated on sloping terrain, because only one step is taken.)", "quantifier": "all pixels, sensors and DEMs", "why_tests_cant": "Universal over terrain.", "anchors": ["resippy/photogrammetry/ortho_tools.py:get_pixel_lon_lats"]}
{"id": "C72", "title": "GeoTIFF write and read", "statement": "An array made into a GeoTIFF image, written to disk and opened again has the same pixel values, size, bands, data type, geotransform, projection and no-data value, and no other file changes; a file opened and written under another name is an exact copy; what is in memory is what is written. (The code violates this in three ways: the no-data value loses its fraction, a NaN no-data value raises after the first band and leaves a truncated file, and an image whose data is not loaded is destroyed when it is written back to its own file.)", "quantifier": "all arrays, data types, geotransforms, projections, no-data values, file names and file systems", "why_tests_cant": "All sizes, values and previous contents of the disk.", "anchors": ["resippy/image_objects/earth_overhead/geotiff/geotiff_image.py:GeotiffImage.write_to_disk", "resippy/image_objects/earth_overhead/geotiff/geotiff_image.py:GeotiffImage.init_from_numpy_array", "resippy/image_objects/earth_overhead/geotiff/geotiff_image.py:GeotiffImage.get_gdal_mem_datset"]}
{"id": "C73", "title": "Reading bands from disk", "statement": "read_band_from_disk(k) gives band k of the image's file whatever is in memory, read_all_image_data_from_disk gives all those bands in order, and a band that does not exist raises. (The code violates this for camera images: a single band is taken from memory, so it always raises TypeError right after opening; GeoTIFF and Micasense images comply, Micasense bands counting negative numbers from the end.)", "quantifier": "all image objects, files and band numbers, also negative", "why_tests_cant": "All band numbers, sizes and states of the image object.", "anchors": ["resippy/image_objects/earth_overhead/geotiff/geotiff_image.py:GeotiffImage.read_band_from_disk", "resippy/image_objects/earth_overhead/physical_camera/physical_camera_image.py:PhysicalCameraImage.read_band_from_disk", "resippy/image_objects/earth_overhead/micasense/micasense_image.py:MicasenseImage.read_all_image_data_from_disk"]}
{"id": "C74", "title": "Micasense image factory", "statement": "A Micasense image made from five band files uses for each band the parameters that belong to that band's own file: with Pix4D parameters those filed under its base name (KeyError if there are none), with OpenCV parameters the first whose band number is the digit before the last dot of the file name; the image is named after the first file without its band suffix, and bands beyond the fifth have no calculator. (Only one digit is read: the file of band 10 gets the parameters of band 0.)", "quantifier": "all file names, parameter tables and bands", "why_tests_cant": "All texts and tables.", "anchors": ["resippy/image_objects/earth_overhead/micasense/micasense_image_factory.py:MicasenseImageFactory.from_image_number_and_pix4d", "resippy/image_objects/earth_overhead/micasense/micasense_image_factory.py:MicasenseImageFactory.from_image_number_and_opencv"]}
{"id": "C75", "title": "Micasense image from an array", "statement": "Making a Micasense image from an array writes one temporary file per band; if the file names differ, reading the image back gives the array, and no other file is touched; fewer names than bands raise IndexError. (Bands given the same name are all read back as the last of them.)", "quantifier": "all arrays, working directories and lists of names", "why_tests_cant": "All arrays and names.", "anchors": ["resippy/image_objects/earth_overhead/micasense/micasense_image_factory.py:MicasenseImageFactory.from_numpy_and_pix4d"]}
{"id": "C76", "title": "Simulated camera orientation", "statement": "The camera of every simulated image is a pinhole camera at the given position whose orientation is the fixture's roll, pitch and yaw followed by the boresight's in its documented order, in their documented units, and whose projection is the world projection in force. (The code violates the units: the external angles are read in the boresight's units and external_orientation_rpy_units has no effect. Boresight angles within 1e-8 of zero are moved by 1e-8; in gimbal lock every pixel is sampled at NaN; an unknown order gives one fixed horizontal orientation.)", "quantifier": "all histories of the simulator, positions, angles, units and orders", "why_tests_cant": "All angles and histories.", "anchors": ["resippy/utils/physical_camera_simulator.py:PhysicalCameraSimulator._generate_camera_point_calc"]}
{"id": "C77", "title": "Simulated image content", "statement": "A simulated image has the camera's size and one band; every pixel is the geotiff's first band sampled at the geotiff position of the ground point at altitude zero that the image's own point calculator gives for that pixel, in any world projection. For a level camera (yaw not a quarter turn) that ground point is exactly the one the pixel sees; otherwise it is seen within 1/100 pixel unless 1000 rounds were used. (The code violates the part on projections: the position is not taken to the geotiff's projection. The band is read once, for the first image.)", "quantifier": "all histories of the simulator, geotiffs, cameras and pixels", "why_tests_cant": "All cameras, pixels and previous uses.", "anchors": ["resippy/utils/physical_camera_simulator.py:PhysicalCameraSimulator.create_overhead_image_object"]}
{"id": "C78", "title": "Local UTM projection", "statement": "The local projection of a longitude and latitude is the UTM zone of that point, a southern one exactly for southern latitudes; outside -80..84 degrees it is a ValueError; a pinhole camera placed by longitude and latitude is the camera placed at the transformed position in that zone, seeing a point at a pixel exactly when the point is on the pixel's ray.", "quantifier": "all longitudes, latitudes and camera parameters", "why_tests_cant": "Universal over positions, including the exceptional zones.", "anchors": ["resippy/utils/proj_utils.py:decimal_degrees_to_local_utm_proj", "resippy/image_objects/earth_overhead/earth_overhead_point_calculators/ideal_pinhole_fpa_local_utm_point_calc.py:IdealPinholeFpaLocalUtmPointCalc.init_from_wgs84_params"]}
{"id": "C79", "title": "Shifting points by metres", "statement": "Shifting points by metres east and north moves them by these distances on the ground; zero shifts change nothing, shifts add up, and the opposite shift brings points back. (The code violates the distances: they are metres of Web Mercator, so that an eastward shift of e covers e cos(latitude), half at 60 degrees, exact at the equator only; northward shifts never cover more than asked.)", "quantifier": "all points, shifts and projections whose transforms undo each other", "why_tests_cant": "Universal over points and shifts.", "anchors": ["resippy/utils/photogrammetry_utils.py:shift_points_by_meters"]}
{"id": "C80", "title": "IGM image of an overhead image", "statement": "create_igm_image keeps data, size, bands and projection, and gives every pixel the position and altitude that the image's point calculator gives for it; on uneven terrain seen obliquely that is where its line of sight first meets the terrain. Data not in memory is an AttributeError, data of two dimensions an IndexError. (The code violates it for the documented default and any other constant elevation: IndexError always.)", "quantifier": "all image sizes, sensors, DEMs and sample distances", "why_tests_cant": "Universal over sensors and terrain.", "anchors": ["resippy/photogrammetry/ortho_tools.py:create_igm_image", "resippy/image_objects/earth_overhead/igm/igm_image.py:IgmImage.from_params"]}
{"id": "C81", "title": "Scoring an image chip by chip", "statement": "Every returned score belongs to the chip at the same position of the returned corner list: it is what the model says of that part of the image, resized and normalised as documented, without the alpha channel of a four-channel image; the corners are in row-major order and the chips cover the image. With labels and a thing to find the score is that of the class at the label's first position. (The code violates it: without the optional ledger every call is an AttributeError after the first chip; a class cannot be selected when there is one chip or one class, IndexError.)", "quantifier": "all images, chip sizes, overlaps below 100 percent, resizers and models", "why_tests_cant": "Universal over image sizes, overlaps and model behaviour.", "anchors": ["resippy/image_recognition/neural_net_model_scoring/keras_image_scoring.py:chip_and_score_image"]}
{"id": "C82", "title": "Labels file and training run", "statement": "A training writes labels.txt so that line i, read back, is the class of model output i, for classes numbered in the sorted order of their names, which is how the generators made from directories number them; the fit is the last step, with the weights loaded (when given) before the model is compiled, and every epoch presents every training and validation file exactly once. (The training and validation numberings agree only if both directories have the same classes; another numbering gives a wrong labels file; no class is an IndexError, a zero batch size a ZeroDivisionError, before the fit.)", "quantifier": "all class names, file lists, batch sizes and options", "why_tests_cant": "Universal over class names and numbers of files.", "anchors": ["resippy/image_recognition/neural_net_model_training/keras_model_training.py:train_model", "resippy/image_recognition/neural_net_model_training/keras_model_training.py:setup_train_and_val_image_generators", "resippy/utils/file_utils.py:write_text_list_to_file"]}
{"id": "C83", "title": "Classification head and frozen layers", "statement": "The final layers give one score per class, positive and summing to one, ordered as the activations and independent of where in the feature map a feature lies: the activations are the final units applied to the hidden units of the mean features; they need a base model that ends in a feature map (ValueError otherwise, as for a model loaded with the default include_top). Freezing or unfreezing sets the trainable flag of every layer and changes nothing else.", "quantifier": "all weights, feature maps and layers", "why_tests_cant": "Universal over weights and activations.", "anchors": ["resippy/image_recognition/neural_net_model_training/keras_model_training.py:create_final_dense_softmax_layer", "resippy/image_recognition/neural_net_model_training/keras_model_training.py:freeze_model_layers"]}
{"id": "C84", "title": "Mutual information of two images", "statement": "The score of two images is the sum over pairs of brightness bins of j ln(j/(h1 h2)) with the pixel counts of the equal-width bins between darkest and brightest pixel. It is symmetric; no image scores higher against an image than the image itself; it is at least -N ln N for N pixels, with equality for a constant image; it does not change under a brightness offset or contrast gain of either image nor under a common rearrangement of the pixels. Fewer than one bin or images of different sizes are a ValueError and nothing else is. (Inverting an image may change the score, C84_negative_refuted.)", "quantifier": "all images, numbers of bins, gains, offsets and rearrangements", "why_tests_cant": "Universal over images and numbers of bins.", "anchors": ["resippy/utils/image_utils/image_registration.py:MMI.image_mmi"]}
{"id": "C85", "title": "RPC point calculator from a file", "statement": "Loading an RPC point calculator from an image file succeeds exactly when GDAL opens the file, all fourteen RPC tags are present and their texts are readable; it then holds, for each coefficient list and each scale and offset, the numbers of the tag of that name (lists may be separated by any white space), and its approximate centre is (longitude offset, latitude offset). An unopened file is an AttributeError, a missing tag a KeyError, an unreadable number a ValueError, and nothing else is raised. Coefficients after the twentieth do not matter; a list of fewer than twenty is accepted when loading, but then every ground to pixel conversion is an IndexError.", "quantifier": "all files, tag texts and ground positions", "why_tests_cant": "Fourteen similarly named tags: a swapped pair shows only for files in which the two differ.", "anchors": ["resippy/image_objects/earth_overhead/earth_overhead_point_calculators/rpc_point_calc.py:RPCPointCalc.init_from_file,_str_to_numpy_arr,init_from_coeffs"]}
{"id": "C86", "title": "Stereo and ENVI image objects read their own file", "statement": "A view ready stereo image opens exactly when the file opens, has a band and has complete RPC tags; reading gives all bands in order, and single bands agree with the whole; other band numbers are AttributeErrors. An ENVI image written in BIL with its default header next to it and no header of the shortened name opens with the written sizes, and reads back the written bands when GDAL does. Without a header the construction is a TypeError, with a header lacking a size a KeyError. A stale header of the shortened name (scene.hdr for scene.img) is preferred to the written one (C86_envi_stale_header_refuted).", "quantifier": "all images, files and band numbers", "why_tests_cant": "Universal over images and over the other files of the directory.", "anchors": ["resippy/image_objects/earth_overhead/digital_globe/view_ready_stereo/view_ready_stereo_image.py:ViewReadyStereoImage", "resippy/image_objects/envi/envi_image.py:EnviImage.init_from_file,read_band_from_disk,read_all_image_data_from_disk", "resippy/image_objects/envi/envi_metadata.py:EnviMetadata.init_from_header"]}
{"id": "C87", "title": "Pix4D projection matrices and parameter files", "statement": "A projection matrix file of lines of a name and numbers separated by single blanks gives each image the numbers of its line, the last one for a repeated name. The four parameter files of a collect are found by their endings in any directory listing in which each ending occurs once, whatever else is there; no name can have two of the endings; the result is the same as with explicit names. A file neither given nor found is an IndexError. Exceptions: a blank line adds an empty matrix under the empty name (C87_blank_line_refuted), two blanks in a row are a ValueError, and with two files of one ending the listing order decides (C87_ambiguous_refuted).", "quantifier": "all files and directory listings", "why_tests_cant": "os.listdir has no specified order: the property ranges over all orders and other files.", "anchors": ["resippy/utils/pix4d_utils.py:read_p_matrices,make_master_dict"]}
{"id": "C88", "title": "Navigation objects from SBET and EO files", "statement": "Loading an SBET file whose PDAL dimensions are distinct gives every quantity the interpolated values of its own column whatever the order of the columns, inside the time range, and no values outside; number of records and record length are those of the file. The projection has exactly the given arguments, with the zone left out when it is missing or empty, for both file types. An unreadable file raises, a file without arrays is an IndexError, a missing column a KeyError when asked for. Exception: an EO file announces seven quantities per record, its records have nine (C88_record_length_refuted).", "quantifier": "all files, column orders, query times and projection arguments", "why_tests_cant": "Universal over files; the key of a column is computed from its name by a conversion that must not merge two names.", "anchors": ["resippy/photogrammetry/nav/applanix_sbet_nav.py:ApplanixSBETNav.load_from_file", "resippy/photogrammetry/nav/applanix_eo_nav.py:ApplanixEONav.load_from_file", "resippy/photogrammetry/nav/nav_factory.py:NavFactory"]}
{"id": "C89", "title": "Orthorectification by warping", "statement": "The warping orthorectification (create_ortho_gtiff_image_world_to_sensor_backup) gives each requested band an image of the requested size whose every cell is the band warped at the pixel location of the cell's centre on the terrain (the location in band 0 if the bands are coregistered, else in the band itself), stored in the image's data type. With scikit-image's constant mode, cells located outside the band hold the stored no-data value; with the nearest interpolation all others, border included, hold a pixel at most half a pixel away. It agrees with the main orthorectification wherever the samplers agree and the main one does not blank the image border. The six interpolation names stand for orders 0 to 5; other names are ValueErrors. A grid under 2 x 2 is an IndexError, coregistered data that is not loaded a TypeError, an empty band list a ValueError. resize_image has the rows and columns asked for.", "quantifier": "all images, extents, sizes, terrains, band lists, interpolation names and cells", "why_tests_cant": "Universal over sensor models, terrain and grid geometry; the two branches (coregistered or not) differ only in which band's geometry is used.", "anchors": ["resippy/photogrammetry/ortho_tools.py:create_ortho_gtiff_image_world_to_sensor_backup", "resippy/utils/image_utils/image_utils.py:grid_warp_image_band,resize_image"]}
{"id": "C90", "title": "The image object and file an orthorectification returns", "statement": "Both orthorectification functions return a GeoTIFF image object of the requested size with the ortho bands in order, the data type of the image, the extent's geotransform, the given projection and the given no-data value; with mask_no_data_region one more band, 0 exactly where the first band equals the no-data value and 255 elsewhere. With an output name the same object is returned and the file of that name, opened again, has the same sizes, geotransform, projection, whole no-data value and pixels; no other file changes. A failing orthorectification touches no file. Exceptions: cells without data are opaque when the data type cannot hold the no-data value (C90_alpha_refuted); the geotransform does not place pixels on the cell centres they were sampled at (C90_placement); a NaN no-data value raises a ValueError after a file with only its first band was written; a data type GDAL lacks is a TypeError only if a file is asked for.", "quantifier": "all images, extents, sizes, band lists, no-data values, data types, file systems and cells", "why_tests_cant": "Universal over inputs and over the state of the file system before the call.", "anchors": ["resippy/photogrammetry/ortho_tools.py:create_ortho_gtiff_image_world_to_sensor,create_ortho_gtiff_image_world_to_sensor_backup,mask_image", "resippy/image_objects/earth_overhead/geotiff/geotiff_image.py:GeotiffImage.write_to_disk"]}
{"id": "C91", "title": "Digital elevation model objects over histories of calls", "statement": "After every history of calls on a GeoTIFF DEM object, whatever raised: interpolation, vertical reference and projection are the last ones set (loading an image sets the projection; bilinear at first; asking for a reference or projection never set is an AttributeError); the elevations are those of the image loaded last, with NaN exactly where they equal a no-data value in force at the load or removed since; an integer image keeps all values. Highest, lowest and mean altitude are those of the finite elevations (NaN if there are none, TypeError before a load). Converting to geoid or ellipsoid heights warps the image from the one reference system to the other into the destination file, changes no other file, and the DEM then has that file's image, projection and elevations while the old image object is closed. The factory makes the DEM of C41 and C42. A constant DEM keeps its elevation. Exceptions: a load that fails leaves the DEM with the geotransform of the new image and the elevations of the old one (C91_load_fails_refuted); a warp that fails silently takes over an old file of the destination name (C91_convert_stale_refuted); the conversion to another vertical reference system always raises.", "quantifier": "all histories of calls, files, image objects, data types, no-data values and destination names", "why_tests_cant": "Universal over call histories, with failing calls among them, and over file system states.", "anchors": ["resippy/photogrammetry/dem/geotiff_dem.py:GeotiffDem", "resippy/photogrammetry/dem/abstract_dem.py:AbstractDem", "resippy/photogrammetry/dem/constant_elevation_dem.py:ConstantElevationDem", "resippy/photogrammetry/dem/dem_factory.py:DemFactory.from_gtiff_file", "resippy/image_objects/earth_overhead/geotiff/geotiff_image.py:gdalwarp_geotiff_image"]}
{"id": "C92", "title": "Normalisation in floating-point arithmetic", "statement": "What C13 says of exact numbers, in IEEE arithmetic (round to nearest, ties to even, any precision) and for images of floats with two different pixels: normalize_grayscale_image sends the smallest pixel exactly to the requested minimum, keeps the order of the pixels (though different ones may become equal), puts none below the minimum and sends the largest exactly to the requested maximum whenever the difference of the bounds is a float. With whole non-negative bounds and an integer output type every pixel is within the bounds. Exceptions: for other bounds pixels can exceed the maximum (C92_overshoot_refuted), and normalising whole numbers to their own range as integers can change them (C92_identity_refuted).", "quantifier": "all images of floats, all bounds, all precisions", "why_tests_cant": "Rounding errors depend on every bit of every pixel; a test sees a few of 2^64 values each.", "anchors": ["resippy/utils/image_utils/image_utils.py:normalize_grayscale_image"]}
{"id": "C93", "title": "GPS time and week in doubles", "statement": "For every double UTC timestamp from the GPS epoch to 2^52 seconds, on a machine in UTC: the GPS timestamp is exact, with no rounding; the GPS week is the right one, the seconds of the week are in [0, 604800) and off by at most (g + 4 * 604800) * 2^-53 seconds at GPS time g, that is 1.6e-7 s until 2025. Exception: the seconds of the week of a whole second need not be whole (C93_whole_refuted), so truncating them can be a second off.", "quantifier": "all double timestamps from 1980 on", "why_tests_cant": "Every double timestamp, in particular those next to the end of a week.", "anchors": ["resippy/utils/time_utils.py:utc_timestamp_to_gps_timestamp", "resippy/utils/time_utils.py:utc_timestamp_to_gps_week_and_seconds"]}
{"id": "C94", "title": "Navigation interpolation in doubles", "statement": "Between two records a value interpolated in doubles is off the exact linear interpolation by at most 7 * 2^-53 times the larger recorded value; at the time of the later record it is that record's value up to 3 * 2^-53 of it, whatever the earlier record, and exactly so if the time step is a power of two (values and step far from underflow). Exception: otherwise the value at a record need not be the recorded one and can leave the range of the records (C94_exact_refuted).", "quantifier": "all double times, steps and recorded values", "why_tests_cant": "Rounding errors over all doubles.", "anchors": ["resippy/photogrammetry/nav/applanix_sbet_nav.py:_linear_interp", "resippy/photogrammetry/nav/applanix_eo_nav.py:_linear_interp"]}
{"id": "C95", "title": "Blending in floating-point arithmetic", "statement": "blend_images with a percentage of 1 gives the first image and with 0 the second, exactly, in any precision; it is monotone in both images; in doubles it is off the exact blend by at most 4 * 2^-53 times the larger pixel. Exception: the blend need not lie between the two pixels: 10 blended with 10 at 0.08 gives more than 10 (C95_between_refuted).", "quantifier": "all pixel values, percentages in [0, 1] and precisions", "why_tests_cant": "Rounding errors over all doubles.", "anchors": ["resippy/utils/image_utils/image_utils.py:blend_images"]}
{"id": "C96", "title": "Spectral angle in doubles", "statement": "In doubles, whatever order and association numpy or its BLAS uses for the sums of products (fused or not), the score of sam is off the exact cosine by at most (3 n + 5) * 2^-53 for n bands, and by at most 5 * 2^-53 for digital numbers whose sums of squares are at most 2^53. Exception: the score of a spectrum with itself need not be 1 and can exceed 1, in every order of addition (C96_range_refuted), so arccos of it can be NaN.", "quantifier": "all spectra with a value far from underflow, all summation orders, up to 2^20 bands", "why_tests_cant": "The order of the additions is up to the library and the machine; every order and every value.", "anchors": ["resippy/spectral/spectral_image_processing_1d.py:sam"]}
{"id": "C97", "title": "Spectral mean in doubles", "statement": "In doubles, whatever the order of the additions: the mean of a band of digital numbers with absolute values summing up to at most 2^53 is the double nearest to the exact mean, and demeaning such a band subtracts it with one rounding, giving exact zeros for a constant band; the mean of any doubles is off by at most about (n + 1) * 2^-53 times the mean absolute value. Exception: demeaning a constant band of other doubles need not give zeros (C97_constant_refuted).", "quantifier": "all bands of doubles, all summation orders, up to 2^20 samples", "why_tests_cant": "Every summation order and every value.", "anchors": ["resippy/spectral/spectral_image_processing_1d.py:compute_image_cube_spectral_mean", "resippy/spectral/spectral_image_processing_1d.py:demean_image_data"]}
{"id": "C98", "title": "Images of integer types", "statement": "Normalising an image of an unsigned integer type, or of a signed one whose pixels span less than half of the type, gives what the same image of reals gives. For a signed image spanning more, the smallest and largest pixel go to the bounds and all others outside them. The spectral angle of images of unsigned types is the exact one if no square and no sum of products reaches 2^bits; with a target of floats a finite score is never smaller in absolute value than the exact one, and equal to it only if the spectra are orthogonal or no squared band value reaches 2^bits. Exceptions: C98_range_refuted (int16), C98_sam_refuted (a uint16 image scores above 1.9, or not at all).", "quantifier": "all images of integer types of any width, all targets", "why_tests_cant": "Every pixel value up to the width of the type; the wrap-around is silent.", "anchors": ["resippy/utils/image_utils/image_utils.py:normalize_grayscale_image", "resippy/spectral/spectral_image_processing_1d.py:sam"]}
{"id": "C99", "title": "Making and listing directories", "statement": "Undisturbed, make_dir_if_not_exists leaves a path that exists as it is; otherwise it makes exactly the missing directories of the path, or raises, having made nothing, if a file is in the way. For every schedule of other processes that only make directories (other calls of make_dir_if_not_exists among them) and with no file in the way, afterwards the directory exists, nothing has been removed and only directories added, and the call either returns or raises FileExistsError. get_all_folders_in_dir gives exactly the entries of a directory that are directories, in the order listed. Exceptions: where a file has the name, the call returns and there is no directory (C99_file_refuted); and the call can raise FileExistsError because another process made the directory between the check and the creation (C99_race_refuted).", "quantifier": "all directory trees, all paths of any depth, all schedules of other processes between the system calls", "why_tests_cant": "The interleavings with other processes are unbounded and cannot be forced in a unit test.", "anchors": ["resippy/utils/file_utils.py:make_dir_if_not_exists", "resippy/utils/file_utils.py:get_all_folders_in_dir"]}
{"id": "C100", "title": "Images that share memory", "statement": "flatten_image_cube puts pixel (y, x) into row y * nx + x; the flattened image shares the image's memory, so that writing a row of it writes exactly that pixel, if the rows of the image follow each other in memory at the distance of its pixels (pixel- and band-interleaved images, and images of one row or column), and is a copy otherwise (line-interleaved images of several bands). unflatten_image_cube fails exactly if the sizes do not fit and always shares. A band got from an image object is a view of it. Functions on flattened images that compute a new array change no existing array, now or when their result is written to. compute_image_cube_pca gives pixel (y, x) the scores of that pixel; it overwrites a float image whose rows follow each other with what the analysis leaves in its input and changes nothing otherwise. Exception: so that the image passed in is unchanged is refuted (C100_pca_refuted). is_1d_cube and is_2d_cube are never both true and warn exactly if neither is.", "quantifier": "all images, strides and memory contents, all writes, any principal component analysis", "why_tests_cant": "Sharing depends on the strides of the array, and so on how an image was read; tests use freshly made arrays.", "anchors": ["resippy/utils/spectral_utils.py:flatten_image_cube", "resippy/utils/spectral_utils.py:unflatten_image_cube", "resippy/utils/spectral_utils.py:is_2d_cube", "resippy/utils/spectral_utils.py:is_1d_cube", "resippy/utils/spectral_utils.py:get_2d_cube_nx_ny_nbands", "resippy/spectral/spectral_image_processing_2d.py:compute_image_cube_pca", "resippy/image_objects/abstract_image.py:AbstractImage.get_image_band"]}
{"id": "C101", "title": "GeoTIFF positions in double precision", "statement": "With a geotransform without rotation in double precision, a pixel position taken to the ground and back differs from the original by at most six units in the last place of the sum of the position and the distance in pixels to the projection's origin; hence the ground position of the centre of a pixel is always looked up in that pixel, by truncation too, and a geotiff DEM gives there the elevation of that pixel, up to 2^46 pixels from the origin; the pixel location of any world point is off by at most four units in the last place of those distances, so that a DEM gives the elevation of the pixel containing the point if it is a ten-thousandth of a pixel inside. If the pixel size is a power of two and the origin a whole number of pixels, corners and centres come back exactly. Exception: for other pixel sizes a corner can come back in the neighbouring pixel, so that a DEM lookup there gives the neighbour's elevation (C101_corner_refuted, origin 100 and pixels of 30).", "quantifier": "all doubles as geotransform and pixel positions within the stated ranges, all DEMs", "why_tests_cant": "Rounding errors depend on every bit of the geotransform; tests use a few round numbers.", "anchors": ["resippy/image_objects/earth_overhead/earth_overhead_point_calculators/geotiff_point_calc.py:GeotiffPointCalc._lon_lat_alt_to_pixel_x_y_native", "resippy/image_objects/earth_overhead/earth_overhead_point_calculators/geotiff_point_calc.py:GeotiffPointCalc._pixel_x_y_alt_to_lon_lat_native", "resippy/photogrammetry/dem/geotiff_dem.py:GeotiffDem.get_elevations"]}
{"id": "C102", "title": "Colour maps in double precision", "statement": "A colour map applied in double precision to an image of doubles, with 2 to 129 colours that are doubles from 0 to 1 and a range between the clips of at least 2^-38 of the larger clip: every channel of every pixel is a finite number from 0 to 255, so that its byte never wraps around. The nodes increase strictly, are exact at both clips and elsewhere off by at most eight half units in the last place. Continuous maps give the palette's own colour at the nodes and outside of the clips, and elsewhere the exact colour up to 255*64*2^-53 times the ratio of the larger clip to the distance of two nodes. Stepped maps give every pixel exactly one colour of the palette, in all channels the same one, whose step contains the pixel up to sixteen half units in the last place. Exception: in narrower ranges nodes can coincide and the brightest pixel is not a number (C102_tiny_range_refuted).", "quantifier": "all images of doubles, clips, palettes and no-data values within the stated ranges", "why_tests_cant": "Rounding errors depend on every bit of the pixels and clips; tests use one image and one palette.", "anchors": ["resippy/utils/image_utils/image_utils.py:apply_colormap_to_grayscale_image"]}
{"id": "C103", "title": "ENVI files byte by byte", "statement": "For every well-formed image of a dtype with an ENVI code: the written data file has exactly lines*samples*bands*itemsize bytes and holds pixel x of line l and band b at ((l*bands+b)*samples+x)*itemsize, in the byte order of the machine (two's complement, IEEE 754); the header is the six lines ENVI, samples, lines, bands, data type, interleave. Reading takes each pixel from that place, whatever follows the last pixel, and returns the image bit for bit with its dtype; only samples, lines, bands, data type and interleave of the header matter. One-byte images can be read on machines of either byte order. Exceptions: 'byte order' and 'header offset' in a header are ignored, so such files are read wrongly and silently (C103_byte_order_refuted, C103_header_offset_refuted, C103_swapped_uint16), and a double complex file of the ENVI standard is read as single complex (C103_double_complex_refuted).", "quantifier": "all images, dtypes, file contents, header entries and byte orders of the writing and the reading machine", "why_tests_cant": "Tests run on one machine with one byte order and compare arrays, not bytes; the layout must hold for every shape, value and header.", "anchors": ["resippy/utils/envi_utils.py:write_envi_image", "resippy/utils/envi_utils.py:read_envi_image", "resippy/utils/envi_utils.py:read_all_image_data_to_numpy_array"]}
{"id": "C104", "title": "An ENVI write that is killed", "statement": "If the process is killed at any byte while an ENVI image is written where no header was before, reading the files afterwards raises (TypeError, KeyError or file not found) until the last byte of the header is there, and from then on gives the image: no half-written number is ever taken for a value. A header that ends early reads as the entries whose lines are complete. Written over an older image of the same shape and dtype, reading raises, or gives the new image. Exceptions: if exactly the first value of the last line of the last band is there, that value fills the line and nothing is raised (C104_killed_over_refuted); over an image of another shape the new values are read in the old shape (C104_other_shape_refuted).", "quantifier": "all images, dtypes, files there before, and every byte at which the write stops", "why_tests_cant": "A crash can come at any byte; tests do not kill writers.", "anchors": ["resippy/utils/envi_utils.py:write_envi_image", "resippy/utils/envi_utils.py:write_envi_header", "resippy/utils/envi_utils.py:read_envi_header", "resippy/utils/envi_utils.py:read_envi_image"]}
{"id": "C105", "title": "Detectors and the arrangement of pixels and bands", "statement": "Reordering the pixels of an image (and of its mask) in any way, such as turning, mirroring or transposing it, leaves the spectral mean and covariance as they are, and gives every pixel its old RX, ACE and SAM score in its new place, or the same error. With the image's own statistics ACE scores do not change when all pixels and the target undergo the same invertible affine change of the bands; SAM scores do not change under an orthogonal one. Repeating the image leaves ACE as it is; RX is multiplied by (r*m-1)/(r*(m-1)) for r copies of m pixels (C105_rx_repeated_refuted: it is not unchanged).", "quantifier": "all images, masks, permutations of the pixels, invertible band changes, targets and repetitions", "why_tests_cant": "There are m! orders and a continuum of band changes; a test tries a few. The invariance is algebra of sums and matrix inverses.", "anchors": ["resippy/spectral/spectral_image_processing_1d.py:rx_anomaly_detector", "resippy/spectral/spectral_image_processing_1d.py:ace", "resippy/spectral/spectral_image_processing_1d.py:sam", "resippy/spectral/spectral_image_processing_2d.py:ace", "resippy/spectral/spectral_image_processing_2d.py:rx_anomaly_detector"]}
{"id": "C106", "title": "Interrupted writers and files cut short", "statement": "A list file cut at any character is read without an error as the first entries of the list, all right except that the last one may be the beginning of its entry. An EO file (lines with all nine numbers or none) cut at any character gives the records of its complete lines in every column, and the cut line adds one entry to each of the first m columns, right except perhaps in the last of these. If the chip writer is killed at any byte, the chips before are complete files, of one chip the first bytes are there, and every other file is as it was. Running a killed writer (ENVI image, chips, list file) again to its end leaves exactly the files of an undisturbed run. Exceptions: a cut entry or number is not noticed and columns may differ in length (C106_list_cut_refuted, C106_eo_cut_refuted).", "quantifier": "all lists, files, chips, encodings, states of the disk, and every place at which the file or the write stops", "why_tests_cant": "A writer can die at any byte; tests look at complete runs.", "anchors": ["resippy/utils/file_utils.py:write_text_list_to_file", "resippy/utils/file_utils.py:read_text_list_from_file", "resippy/photogrammetry/nav/applanix_eo_nav.py:ApplanixEONav", "resippy/utils/image_utils/image_chipper.py:write_chips_to_disk", "resippy/utils/envi_utils.py:write_envi_image"]}
{"id": "C107", "title": "Orthorectifying an orthorectified image", "statement": "Orthorectifying a loaded north-up GeoTIFF over any window of it at any size gives a GeoTIFF of that size and of the same type and projection; each cell holds the image sampled at the pixel location of the centre of the cell, or the no-data value where that location is at or beyond column or row 0 or the last two. Repeating it over the image's own extent and size does not leave the image as it is (C107_unchanged_refuted). After g generations, with the default interpolation, cell (r, c) holds the original pixel (r+g, c+g) if that is not in the last row or column, and else the no-data value; nothing is left after as many generations as there are rows or columns less one; the upper left corner stays, the pixel size is (n/(n+1))^g of the original, and every surviving pixel is reported at least g original pixels too far west and north. With linear interpolation a cell holds the mean of four pixels. A file that was only opened raises a TypeError.", "quantifier": "all images, windows, sizes, data types, no-data values, numbers of generations and cells", "why_tests_cant": "An error of half a pixel is invisible in one image and adds up over a processing chain of any length.", "anchors": ["resippy/photogrammetry/ortho_tools.py:create_ortho_gtiff_image_world_to_sensor", "resippy/image_objects/earth_overhead/earth_overhead_point_calculators/geotiff_point_calc.py:GeotiffPointCalc", "resippy/utils/photogrammetry_utils.py:create_ground_grid,world_poly_to_geo_t"]}
{"id": "C108", "title": "Interpolated navigation is a track", "statement": "For any table of at least two records with increasing times, and any of the six channels: between any two times of the span the answer changes at no more than the largest rate between neighbouring records, so there are no jumps and a clock error of e moves the answer by at most that rate times e; a channel that never falls between records never falls in the answers; the answers stay between the smallest and largest recorded value; a change of units, of origin or of a uniformly moving frame in the file changes every answer in the same way; uniform motion is reproduced exactly; only the two records around a time matter; and records lying on the track of the others can be added or removed without changing any answer.", "quantifier": "all tables, channels, both file formats, and all pairs of times of the span", "why_tests_cant": "Two real times and a table of any length.", "anchors": ["resippy/photogrammetry/nav/abstract_nav.py:AbstractNav", "resippy/photogrammetry/nav/applanix_eo_nav.py:ApplanixEONav", "resippy/photogrammetry/nav/applanix_sbet_nav.py:ApplanixSBETNav"]}
{"id": "C109", "title": "The chip grid is exactly predictable and the chips determine the image", "statement": "For every image, chip size not larger than the image and overlap smaller than the chip: the corners returned when an entire image is chipped are exactly the grid of row and column positions 0, s, 2s, ... (s the chip size minus the overlap) before the border position, followed by the border position; for overlaps that are not negative the number of chips is the product over the axes of ceil((n - chip) / s) + 1, and when s divides n - chip no neighbours overlap by more than was asked; for a negative overlap exactly the pixels between the steps are in no chip; and two images of the same shape with the same chips are the same image.", "quantifier": "all images, chip sizes, overlaps (negative ones included) and band arguments", "why_tests_cant": "Sizes and overlaps are unbounded and the remainder can be anything.", "anchors": ["resippy/utils/image_utils/image_chipper.py:chip_entire_image_to_memory", "resippy/utils/image_utils/image_chipper.py:chip_images_by_pixel_upper_lefts"]}
{"id": "C110", "title": "From an image to a map of detections", "statement": "For every image, chip size, fractional overlap in [0, 1), normalisation, model with finite scores for at least two classes and class name: chipping and scoring the image for the class and then merging the scores gives a map of exactly the size of the image, in which every pixel holds the highest score the model gives to a part of the image, from the grid of chips, that contains the pixel, and there is always such a part; the map does not change at a pixel when the image is changed only a chip or more away from it, or in an alpha channel.", "quantifier": "all images larger than one chip, chip sizes, overlaps, resizers, models, orders of equal scores", "why_tests_cant": "The composition of three functions over images of any size with an arbitrary model.", "anchors": ["resippy/image_recognition/neural_net_model_scoring/keras_image_scoring.py:chip_and_score_image", "resippy/utils/image_utils/image_utils.py:create_detection_image_from_scores", "resippy/utils/image_utils/image_chipper.py:chip_entire_image_to_memory"]}
{"id": "C111", "title": "Images and orthos depend only on relative geometry", "statement": "For every camera, scene and change of coordinates (another origin and another positive unit of length): a pinhole camera and an OpenCV camera give every ground point the same pixel when the camera and the point are described in the new coordinates; turning camera and scene together by a rotation changes no pixel, and a camera fixed to a turned and moved platform turns and moves with it; the extent of an image, an ortho over given bounds and a full ortho have the same pixels (for the extent: the same outline), with the geotransform given in the new coordinates, as long as the external hull commutes with the change; the marking of obstructed pixels does not change when everything is moved together, but it can change with the unit of length.", "quantifier": "all camera positions, orientations and intrinsics, ground points, sensor models, terrains, extents, sizes, rotations and changes of coordinates", "why_tests_cant": "Every real number is a possible origin or unit; no finite set of coordinates shows invariance.", "anchors": ["resippy/photogrammetry/ortho_tools.py:create_ortho_gtiff_image_world_to_sensor", "resippy/photogrammetry/ortho_tools.py:create_full_ortho_gtiff_image", "resippy/photogrammetry/ortho_tools.py:get_extent", "resippy/photogrammetry/ortho_tools.py:are_pixels_obstructed", "resippy/image_objects/earth_overhead/earth_overhead_point_calculators/pinhole_camera.py:PinholeCamera", "resippy/image_objects/earth_overhead/earth_overhead_point_calculators/ideal_pinhole_fpa_local_utm_point_calc.py:IdealPinholeFpaLocalUtmPointCalc", "resippy/image_objects/earth_overhead/earth_overhead_point_calculators/opencv_point_calc.py:OpenCVPointCalc", "resippy/image_objects/earth_overhead/earth_overhead_point_calculators/fixtured_camera.py:FixturedCamera"]}
{"id": "C112", "title": "An orthorectified simulated image shows the ground it was simulated from", "statement": "For every image made by the camera simulator after any sequence of earlier calls, orthorectified with nearest sampling over any bounds at elevation zero, all in the projection of the geotiff: the ortho is made with the requested size; a cell whose centre the simulated camera sees outside the inner part of its image holds the no-data value; and a cell whose centre it sees in the inner part holds what the geotiff shows, as sampled by the simulator, at a point of the ground which for a level camera (yaw not a quarter turn) is at most half a camera pixel along each image axis from the cell's centre (in metres: altitude / focal length times half a pixel pitch), and for a moderately tilted camera is seen within 0.51 pixel of it.", "quantifier": "all simulator settings, positions and attitudes (level, or tilted within the stated bounds), histories of calls, geotiff contents and geotransforms, ortho bounds, sizes and no-data values, and every cell", "why_tests_cant": "The error of the simulator's ground search and the rounding of the nearest sampling compose; the bound has to hold for every cell of every ortho, not for sampled cells.", "anchors": ["resippy/utils/physical_camera_simulator.py:PhysicalCameraSimulator.create_overhead_image_object", "resippy/photogrammetry/ortho_tools.py:create_ortho_gtiff_image_world_to_sensor"]}
{"id": "C113", "title": "Orthos of parts of a region fit together", "statement": "For every image, terrain, choice of bands, no-data value and extent: cells of two orthos (over any windows, of any sizes) that have the same centre hold the same value in the same band; the ortho of a rectangular part made of whole cells is that part of the ortho of the whole; two halves side by side or above each other join to the whole; an ortho with an odd number of times larger cells is every so many-th cell of the finer one; and cutting chips out of an ortho gives the pixels of the orthos of the chips' own windows. (The geotransforms of parts do not fit: they place a cell away from where the whole's geotransform places it, by an exactly given distance, because the pixel size is computed for one column and one row too many.)", "quantifier": "all images (bands coregistered or not), sensor models, terrains, band lists, extents, sizes, parts, odd factors and chip corners", "why_tests_cant": "Tilings of a region are infinitely many; that seams never show has to hold for every cell, extent and factor.", "anchors": ["resippy/photogrammetry/ortho_tools.py:create_ortho_gtiff_image_world_to_sensor", "resippy/utils/photogrammetry_utils.py:create_ground_grid", "resippy/utils/photogrammetry_utils.py:world_poly_to_geo_t", "resippy/utils/image_utils/image_chipper.py:chip_images_by_pixel_upper_lefts"]}
{"id": "C114", "title": "Ortho ground grid in double precision", "statement": "In double precision, for all bounds and at least two rows and columns: the ground grid of an ortho has the requested shape; every position is within 10 * 2^-53 * (|min| + |max|) (plus 2^-1070) of the exact centre of its cell; positions never decrease from column to column nor increase from row to row, are constant along columns and rows, and never lie left of the left bound; if the cells are wider than twice that error every position is strictly inside its own cell; and the pixel sizes written to the geotransform have a relative error of at most 3 * 2^-53.", "quantifier": "all double-precision bounds (in order) and all pixel counts up to 2^53, every row and column", "why_tests_cant": "Rounding errors depend on all the bits of the bounds and of the counts; no sample of bounds shows the worst case.", "anchors": ["resippy/utils/photogrammetry_utils.py:create_ground_grid", "resippy/utils/photogrammetry_utils.py:world_poly_to_geo_t"]}
{"id": "C115", "title": "Scoring an image in parts", "statement": "An image can be scored part by part: for every rectangular part of every image, the spectral angle, the ACE score of demeaned data, and the RX and ACE scores with a given mean and inverse covariance of the part are that part of the scores of the whole; with the mean and covariance of the whole this reproduces the default RX and ACE of the whole. The statistics of the whole can be put together from those of an upper and a lower part, and of any stack of strips (means weighted by pixel counts; covariances by degrees of freedom plus the scatter of the means). With each part's own statistics RX gives different scores.", "quantifier": "all images, all rectangular parts, all targets, statistics and masks; for the pooled statistics all splits into strips of rows", "why_tests_cant": "The score of a pixel could depend on any other pixel of the image or on its place in the part; tests sample a few images and one tiling.", "anchors": ["resippy/spectral/spectral_image_processing_2d.py:rx_anomaly_detector", "resippy/spectral/spectral_image_processing_2d.py:ace", "resippy/spectral/spectral_image_processing_2d.py:sam", "resippy/spectral/spectral_image_processing_2d.py:ace_demeaned", "resippy/spectral/spectral_image_processing_1d.py:compute_image_cube_spectral_covariance"]}

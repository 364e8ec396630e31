{"B25": ["C46_process"], "S12g": ["C62_localisation"], "A0012": ["C60_accepted"], "A0073": ["C60_accepted"], "A0214": ["C68_process"], "A0545": ["C68_process"], "A0627": ["C68_process"], "A0588": ["C68_process"], "A0324": ["C22_population_rejects_garbage"], "A0789": ["C22_whitespace"], "A0961": ["C22_whitespace"], "A0927": ["C36_schedules"], "A0075": ["C57_is_zero"], "A0336": ["C54_spline_knots"], "A0520": ["C36_schedules"], "A0062": ["C37_schedules"], "B0056": ["C73_multiminimum_refuted"]}